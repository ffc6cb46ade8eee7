(** Structure selection at the level of train (C33-C39; reals). *)
From Coq Require Import Reals Lra Permutation.
From Verif Require Import Base Num Mat LinAlg Slfn Strs Elm Mrsr Search Mss MatFacts SplitProofs Spec ElmFacts RLin
  AccProofs TrainProofs RidgeProofs WfProofs TrainThms IncrThms SolveThms NeuronThms ErrThms SearchThms SearchLog SelectThms RankThms SubThms.
Local Open Scope R_scope.
#[local] Existing Instance NumR.

(** i neurons are charged the value v: their error, plus 1% of the error of the complete
    model in proportion to i; err i w: the model of i neurons has error w; full: error of the
    complete model, which stands for size L *)
Definition charged (L : nat) (err : nat -> R -> Prop) (full : R) (i : nat) (v : R) : Prop :=
  exists w, (if (i =? L)%nat then w = full else err i w) /\ v = w + INR i * (full * (1 / 100) / INR L).

(** g falls until o and rises afterwards *)
Definition falls_rises (lo L : nat) (g : nat -> R) (o : nat) : Prop :=
  (lo <= o <= L)%nat /\ (forall i j, (lo <= i < j)%nat -> (j <= o)%nat -> g j < g i) /\
  (forall i j, (o <= i < j)%nat -> (j <= L)%nat -> g i < g j).

(** Among the sizes that were tried, which include [lo] and [L] and are few, [k] has the
    smallest charged value; if the values fall and then rise, [k] is close to the best size. *)
Definition selects (lo L : nat) (err : nat -> R -> Prop) (full : R) (k : nat) : Prop :=
  exists (tried : list nat) (v : nat -> R), In lo tried /\ In L tried /\ In k tried /\
    NoDup tried /\ (Z.of_nat (length tried) <= 6 * Z.log2_up (Z.of_nat L) + 5)%Z /\
    (forall i, In i tried -> (lo <= i <= L)%nat /\ v k <= v i /\ charged L err full i (v i)) /\
    (forall g o, falls_rises lo L g o -> (forall i, 0 <= g i) -> (forall i w, (lo <= i <= L)%nat -> charged L err full i w -> w = g i) ->
       (Z.abs (Z.of_nat k - Z.of_nat o) <= 4 * Z.log2_up (Z.of_nat L))%Z).

Lemma penalty_R : forall (x : R) L, @penalty_of NumR x L = x * (1 / 100) / INR L.
Proof.
  intros x L. unfold penalty_of. rewrite !nof_nat_INR. cbn [ndiv nmul n1 NumR].
  replace (INR 100) with 100; [reflexivity|]. rewrite INR_IZR_INZ. reflexivity.
Qed.

Lemma chosen_selects : forall err_at (err : nat -> R -> Prop) full lo L size k m t, 0 <= full -> (0 < lo)%nat -> (0 < L)%nat -> (lo <= L)%nat -> (L <= size)%nat ->
  chosen err_at full (@penalty_of NumR full L) (Z.of_nat lo) (Z.of_nat L) size k m t ->
  (forall i w, (lo <= i < L)%nat -> err_at (Z.of_nat i) = Ok w -> err i w) ->
  selects lo L err full (Z.to_nat k).
Proof.
  intros err_at err full lo L size k m t Hf Hlo HL0 HlL HLs [Cr Cm Ct Cl Cf Ck Cb Cq Cn] He.
  exists (filter (fun i => if Req_EM_T (at_ t (Z.of_nat i)) (-1) then false else true) (seq 0 (S size))), (fun i => at_ t (Z.of_nat i)).
  assert (forall i, In i (filter (fun i => if Req_EM_T (at_ t (Z.of_nat i)) (-1) then false else true) (seq 0 (S size))) <->
    (i <= size)%nat /\ known t (Z.of_nat i)) as HI.
  { intros i. rewrite filter_In, in_seq. unfold known. destruct (Req_EM_T (at_ t (Z.of_nat i)) (-1)); split; intros [A B].
    - discriminate.
    - contradiction.
    - split; [lia|auto].
    - split; [lia|auto]. }
  assert (known t (Z.of_nat L)) as KL.
  { unfold known. rewrite Cf. pose proof (penalty_nn full L Hf HL0). assert (0 <= INR (Z.to_nat (Z.of_nat L)) * @penalty_of NumR full L) by (apply Rmult_le_pos; auto; apply pos_INR). lra. }
  split; [apply HI; split; [lia|auto]|]. split; [apply HI; split; [lia|auto]|].
  assert (Z.of_nat (Z.to_nat k) = k) as Ek by lia.
  split; [apply HI; rewrite Ek; split; [lia|auto]|].
  split; [apply NoDup_filter, seq_NoDup|].
  split.
  { destruct (Cq ltac:(lia)) as (qs & Hq & Hin). etransitivity; [|exact Hq]. apply Nat2Z.inj_le. rewrite <- (map_length Z.of_nat). apply NoDup_incl_length.
    - apply FinFun.Injective_map_NoDup; [intros a b; apply Nat2Z.inj|]. apply NoDup_filter, seq_NoDup.
    - intros z Hz. apply in_map_iff in Hz as (i & <- & Hi). apply HI in Hi as [Hs Ki]. apply Hin; auto. lia. }
  split.
  - intros i Hi. apply HI in Hi as [Hs Ki]. destruct (Ct (Z.of_nat i) ltac:(lia) Ki) as [Hr Hv]. split; [lia|].
    rewrite Ek, Cm. split; [apply Cb; auto; lia|]. unfold charged.
    destruct (Nat.eqb_spec i L) as [->|Hne].
    + exists full. split; auto. rewrite Cf, penalty_R, Nat2Z.id. reflexivity.
    + destruct Hv as [(C & _)|(w & Ew & ->)]; [lia|]. exists w. split; [apply He; [lia|auto]|]. rewrite penalty_R, Nat2Z.id. reflexivity.
  - intros g o (Ho & Hfall & Hrise) Hg0 Hg. rewrite Ek. apply (Cn ltac:(lia) (fun z => g (Z.to_nat z)) (Z.of_nat o)).
    + split; intros i j H1 H2 H3.
      * apply Hfall; lia.
      * apply Hrise; lia.
    + lia.
    + auto.
    + rewrite Nat2Z.id. symmetry. apply Hg; [lia|]. exists full. rewrite Nat.eqb_refl. split; [auto|]. now rewrite penalty_R.
    + intros i w Hi (w0 & Ew & ->). apply Hg; [lia|]. exists w0. destruct (Nat.eqb_spec (Z.to_nat i) L); [lia|].
      split; [apply He; [lia|]; rewrite Z2Nat.id by lia; exact Ew|]. now rewrite penalty_R.
Qed.

Definition ranked_size {K : Num} (e : elm) (N : nat) : nat :=
  if e_op e then match e_kmax e with Some k => Nat.min k N | None => N end else N.
(** [rank] lists distinct neurons out of N, best first; L of them take part in the
    selection; n: number of samples used for the ranking *)
Definition ranked {K : Num} (e : elm) (N n : nat) (rank : list nat) (L : nat) : Prop :=
  columns N rank /\ (1 <= L <= N)%nat /\ L = ranked_size e N /\
  length rank = if e_op e && negb (s_outputs (e_net e) <? 10)%nat then Nat.min L n else L.

Section Select.
Context {SG : @Sing NumR} {BR : @Brent NumR} {SH : Shuffle}.
(** np.random.shuffle permutes *)
Definition shuffles : Prop := forall i l, Permutation (shuffle i l) l.
Context (shuf : shuffles).

Lemma ranking_ranked : forall e i N H T rank L, ranking e i N H T = Ok (rank, L) -> L <> 0%nat -> ranked e N (length H) rank L.
Proof.
  intros e i N H T rank L E HL. unfold ranking in E. unfold ranked, ranked_size.
  destruct (e_op e) eqn:Eo; cbn [andb].
  - set (L' := match e_kmax e with Some k => Nat.min k N | None => N end) in *.
    assert (L' <= N)%nat as HLe by (unfold L'; destruct (e_kmax e); lia). clearbody L'.
    destruct (s_outputs (e_net e) <? 10)%nat; cbn [negb].
    + destruct (mrsr _ _ _ _ _) as [r|] eqn:Er; cbn [rbind] in E; [|discriminate]. injection E as <- <-.
      destruct (mrsr_lists _ _ _ _ _ _ Er) as (A & B & C & _). split; [split; auto|]. split; [lia|]. split; [auto|]. rewrite C. lia.
    + destruct (mrsr2 _ _ _ _ _) as [r|] eqn:Er; cbn [rbind] in E; [|discriminate]. injection E as <- <-.
      destruct (mrsr2_lists _ _ _ _ _ _ Er) as (A & B & C & _). split; [split; auto|]. split; [lia|]. split; [auto|]. rewrite C. lia.
  - injection E as <- <-. pose proof (shuf i (seq 0 N)) as HP. split; [split|].
    + eapply Permutation_NoDup; [apply Permutation_sym, HP|apply seq_NoDup].
    + intros j Hj. eapply Permutation_in in Hj; [|exact HP]. apply in_seq in Hj. lia.
    + split; [lia|]. split; [auto|]. rewrite (Permutation_length HP). apply seq_length.
Qed.

Lemma slice_firstn : forall {A} (l : list A) i, (0 <= i)%Z -> slice l 0 i = firstn (Z.to_nat i) l.
Proof.
  intros A l i Hi. unfold slice, py_bound. replace (0 <? 0)%Z with false by reflexivity. replace (i <? 0)%Z with false by (symmetry; apply Z.ltb_ge; lia).
  cbn [Z.to_nat Nat.min skipn]. rewrite Nat.sub_0_r. destruct (Nat.le_ge_cases (Z.to_nat i) (length l)); [now rewrite Nat.min_l by lia|]. rewrite Nat.min_r by lia. rewrite firstn_all. symmetry. now apply firstn_all2.
Qed.
Lemma columns_firstn : forall N i rank, columns N rank -> columns N (firstn i rank).
Proof.
  intros N i rank [ND HI]. split.
  - clear HI. revert i. induction ND as [|x l Hx ND IH]; intros [|i]; cbn [firstn]; try constructor; auto.
    intros C. apply Hx. rewrite <- (firstn_skipn i l). apply in_or_app; auto.
  - intros j Hj. apply HI. rewrite <- (firstn_skipn i rank). apply in_or_app; auto.
Qed.

Lemma wide_project : forall s X H, wf_net s -> project s X = Ok H -> Forall (fun h => length h = getL s) H /\ H = map (hrow (s_neurons s)) X.
Proof.
  intros s X H HW E. apply project_inv in E as (_ & _ & ->). split; auto. apply Forall_forall. intros h Hh. apply in_map_iff in Hh as (x & <- & _).
  rewrite (wf_getL _ HW). exact (hrow_length (s_inputs s) (s_neurons s) x (wf_groups _ HW)).
Qed.

Lemma select_v_spec : forall e ss Xv Tv k rank mt, Acc (e_net e) ss -> s_HH (e_net e) <> None -> wf_net (e_net e) ->
  0 < s_norm (e_net e) -> good (getL (e_net e)) ss -> weights_nn e -> select_v e Xv Tv = Ok (k, rank, mt) ->
  exists Hv L full, let N := getL (e_net e) in
    project (e_net e) Xv = Ok Hv /\ ranked e N (length Hv) rank L /\ (1 <= k <= Z.of_nat L)%Z /\
    submodel_error e (s_norm (e_net e)) ss Hv Tv (seq 0 N) full /\
    selects 1 L (fun i => submodel_error e (s_norm (e_net e)) ss Hv Tv (firstn i rank)) full (Z.to_nat k).
Proof.
  intros e ss Xv Tv k rank mt HA HH HW Hn Hg Hwt E. unfold select_v in E. rewrite (get_corr_acc _ _ HA HH) in E. cbn [need_corr rbind] in E.
  destruct (project (e_net e) Xv) as [Hv|] eqn:Ep; cbn [rbind] in E; [|discriminate].
  destruct (ranking _ _ _ _ _) as [[rk L]|] eqn:Er; cbn [rbind] in E; [|discriminate].
  destruct (full_error _ _ _ _ _) as [full|] eqn:Ef; cbn [rbind] in E; [|discriminate].
  destruct (Nat.eqb_spec L 0) as [|HL]; [discriminate|].
  pose proof (ranking_ranked _ _ _ _ _ _ _ Er HL) as HR. pose proof (full_error_nn _ _ _ _ _ _ Hwt Ef) as Hf.
  set (ev0 := fun i => sub_error e (spec_HH (getL (e_net e)) (s_norm (e_net e)) ss) (spec_HT (getL (e_net e)) (s_outputs (e_net e)) ss) Hv Tv (slice rk 0 i)).
  destruct (search_chosen ev0 full (@penalty_of NumR full L) 1 (Z.of_nat L) (getL (e_net e))) as [(m & k' & t & Es & Hc)|(x & i & _ & _ & Es)].
  - destruct HR as (_ & HR & _). lia.
  - destruct HR as (_ & HR & _). lia.
  - exact Hf.
  - apply penalty_nn; auto. lia.
  - intros i v Hi. eapply sub_error_nn; [exact Hwt|exact Hi].
  - rewrite Nat2Z.id in Es. unfold ev0 in Es. cbn [num NumR] in *. rewrite Es in E. cbn [rbind] in E. injection E as <- <- <-.
    exists Hv, L, full. cbv zeta. split; [reflexivity|]. split; [exact HR|]. pose proof (ch_range _ _ _ _ _ _ _ _ _ Hc). split; [auto|].
    pose proof (wide_project _ _ _ HW Ep) as [WH _]. split.
    + eapply full_error_model; eauto.
    + destruct HR as (HR1 & HR2 & _). eapply (chosen_selects ev0 _ full 1 L); try exact Hc; auto; try lia.
      intros i w Hi Ew. unfold ev0 in Ew. rewrite slice_firstn, Nat2Z.id in Ew by lia. eapply sub_error_model; eauto. now apply columns_firstn.
  - rewrite Nat2Z.id in Es. unfold ev0 in Es. cbn [num NumR] in *. rewrite Es in E. discriminate.
Qed.

(** the final fit on the selected neurons *)
Lemma refit_spec : forall e X T best H, wf_net (e_net e) -> 0 < s_norm (e_net e) -> (forall i, In i best -> (i < getL (e_net e))%nat) ->
  length X = length T -> wide (s_outputs (e_net e)) T -> project (e_net e) X = Ok H ->
  exists e' cols B, refit e X T best = (e', Ok tt) /\ Permutation cols best /\
    e' = with_net e (e_net e') /\ wf_net (e_net e') /\ s_norm (e_net e') = s_norm (e_net e) /\ s_outputs (e_net e') = s_outputs (e_net e) /\ s_inputs (e_net e') = s_inputs (e_net e) /\
    getL (e_net e') = length cols /\
    (forall c X0 H0, elm_project e (Arr2 c X0) = Ok H0 -> elm_project e' (Arr2 c X0) = Ok (map (keep cols) H0)) /\
    s_B (e_net e') = Some B /\
    ridge_solution (length cols) (s_outputs (e_net e)) (s_norm (e_net e)) (Spec.plain (map (keep cols) H) T) B.
Proof.
  intros e X T best H HW Hn Hi HL WT Ep.
  destruct (prune_features e best HW Hi) as (cols & Ec & Pc & ELn & _ & Hpr).
  pose proof (wf_prune _ best HW) as HWp.
  pose proof (project_inv _ _ _ Ep) as (_ & WX & _).
  pose proof (Hpr (s_inputs (e_net e)) X H ltac:(unfold elm_project, check_arr; rewrite Nat.eqb_refl; cbn [rbind]; exact Ep)) as Ep1.
  unfold elm_project, check_arr in Ep1. cbn [e_net with_net] in Ep1.
  change (s_inputs (prune (e_net e) best)) with (s_inputs (e_net e)) in Ep1. rewrite Nat.eqb_refl in Ep1. cbn [rbind] in Ep1.
  set (s := prune (e_net e) best) in *.
  pose proof (project_inv _ _ _ Ep1) as (HU & _ & EH).
  assert (Acc s []) as HA by reflexivity.
  destruct (add_batch_total s X T None (repeat 1 (length T)) [] HA HU) as (s1 & E1 & A1 & Es1 & N1); auto.
  { apply repeat_length. }
  { intros w Hw. apply repeat_spec in Hw. lra. }
  cbn [app] in A1. change (map (fun h => map (fun i => nth i h n0) cols) H) with (map (keep cols) H) in EH. rewrite <- EH in A1.
  assert (length T = length (map (keep cols) H)) as HLH.
  { rewrite EH, map_length. auto. }
  rewrite HLH in A1. rewrite samples_repeat1 in A1 by auto.
  assert (getL s = length cols) as HLs.
  { unfold getL. cbn [e_net with_net] in ELn. rewrite ELn. now rewrite (Permutation_length Pc). }
  assert (getL s1 = length cols) as HLs1 by (rewrite Es1; exact HLs).
  assert (good (getL s1) (Spec.plain (map (keep cols) H) T)) as Hg.
  { rewrite HLs1. intros x Hx. unfold Spec.plain in Hx. rewrite map2_combine in Hx. apply in_map_iff in Hx as ([h t] & <- & Hin). split; [cbn; lra|].
    apply in_combine_l in Hin. apply in_map_iff in Hin as (h0 & <- & _). apply map_length. }
  destruct (solve_acc s1 _ A1 N1) as (B & EB & RS); [rewrite Es1; exact Hn|exact Hg|].
  exists (with_net e (with_B s1 (Some B))), cols, B. unfold refit. fold s. rewrite E1, EB.
  split; [reflexivity|]. split; [exact Pc|]. split; [reflexivity|]. cbn [e_net with_net].
  assert (wf_net s1) as HW1. { pose proof (wf_add_batch s X T None HWp) as Q. rewrite E1 in Q. exact Q. }
  assert (nneurons (s_neurons s1) = length cols) as HN1 by (rewrite <- (wf_getL _ HW1); exact HLs1).
  split.
  { apply wf_with_B; auto. cbn [opt_shape]. rewrite HN1. apply shape_is_mat. rewrite <- HLs1.
    assert (s_outputs s1 = s_outputs s) as -> by (rewrite Es1; reflexivity). assert (s_outputs s1 = s_outputs s) as Eo by (rewrite Es1; reflexivity). rewrite <- Eo. apply RS. }
  assert (s_norm s1 = s_norm (e_net e) /\ s_outputs s1 = s_outputs (e_net e) /\ s_inputs s1 = s_inputs (e_net e)) as (F1 & F2 & F3) by (rewrite Es1; auto).
  split; [exact F1|]. split; [exact F2|]. split; [exact F3|]. split; [exact HLs1|]. split.
  { intros c X0 H0 E0. etransitivity; [|exact (Hpr c X0 H0 E0)]. rewrite Es1. reflexivity. }
  split; [reflexivity|]. rewrite <- HLs1, <- F1, <- F2. exact RS.
Qed.
End Select.
