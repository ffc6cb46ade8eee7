(** HPELM.validation_corr (C47; reals). *)
From Coq Require Import Reals Lra Permutation.
From Verif Require Import Base Num Mat LinAlg Slfn Strs Elm Hpelm MatFacts SplitProofs Spec ElmFacts RLin
  AccProofs TrainProofs RidgeProofs WfProofs RangeThms TrainThms SolveThms NeuronThms FeatureThms ErrThms SelectThms SubThms RangeTrain.
Local Open Scope R_scope.
#[local] Existing Instance NumR.

(** a sample with the leading l features only *)
Definition cut (l : nat) (s : sample) : sample := (sm_w s, firstn l (sm_h s), sm_t s).

(** ** the leading part of the correlation matrices *)
Lemma firstn_seq : forall l a n, (l <= n)%nat -> firstn l (seq a n) = seq a l.
Proof. induction l as [|l IH]; intros a n H; [reflexivity|]. destruct n; [lia|]. cbn [seq firstn]. f_equal. apply IH. lia. Qed.
Lemma entry_firstn : forall l i (h : list R), (i < l)%nat -> entry (firstn l h) i = entry h i.
Proof. unfold entry. induction l as [|l IH]; intros i h H; [lia|]. destruct h as [|a h]; [reflexivity|]. destruct i; [reflexivity|]. cbn [firstn nth]. apply IH. lia. Qed.

Lemma head_spec_HH : forall L l nm ss, (l <= L)%nat -> head_HH l (spec_HH L nm ss) = spec_HH l nm (map (cut l) ss).
Proof.
  intros L l nm ss H. unfold head_HH, spec_HH. rewrite firstn_map, firstn_seq by auto. rewrite map_map. apply map_ext_in. intros i Hi.
  rewrite firstn_map, firstn_seq by auto. apply map_ext_in. intros j Hj. apply in_seq in Hi. apply in_seq in Hj. f_equal. rewrite map_map. f_equal.
  apply map_ext. intros s. unfold cut, sm_w, sm_h. cbn [fst snd]. now rewrite !entry_firstn by lia.
Qed.
Lemma head_spec_HT : forall L l c ss, (l <= L)%nat -> firstn l (spec_HT L c ss) = spec_HT l c (map (cut l) ss).
Proof.
  intros L l c ss H. unfold spec_HT. rewrite firstn_map, firstn_seq by auto. apply map_ext_in. intros i Hi. apply in_seq in Hi.
  apply map_ext. intros k. rewrite map_map. f_equal. apply map_ext. intros s. unfold cut, sm_w, sm_h, sm_t. cbn [fst snd]. now rewrite !entry_firstn by lia.
Qed.
Lemma good_cut : forall L l ss, (l <= L)%nat -> good L ss -> good l (map (cut l) ss).
Proof.
  intros L l ss H Hg s Hs. apply in_map_iff in Hs as (s0 & <- & Hin). destruct (Hg s0 Hin) as [H1 H2]. unfold cut, sm_w, sm_h. cbn [fst snd].
  split; [exact H1|]. rewrite firstn_length. unfold sm_h in H2. lia.
Qed.

(** ** the choice *)
Lemma xargmin_from_spec : forall (l : list R) best bi i, (bi < i)%nat ->
  let k := @xargmin_from NumR (@Fin NumR best) bi i (map (@Fin NumR) l) in
  (k = bi \/ i <= k < i + length l)%nat /\ (forall x, In x (best :: l) -> (if (k =? bi)%nat then best else nth (k - i) l 0) <= x).
Proof.
  induction l as [|x l IH]; intros best bi i H; cbn [map xargmin_from].
  - cbn zeta. split; [now left|]. rewrite Nat.eqb_refl. intros x [->|[]]. lra.
  - cbn [xlt nltb NumR]. unfold Rltb. destruct (Rlt_dec x best) as [Lt|Ge].
    + destruct (IH x i (S i) ltac:(lia)) as [K1 K2]. set (k := @xargmin_from NumR _ _ _ _) in *. clearbody k. cbn zeta in *. cbn [length].
      split; [lia|]. intros y Hy. destruct (Nat.eqb_spec k bi); [lia|].
      assert (nth (k - i) (x :: l) 0 = if (k =? i)%nat then x else nth (k - S i) l 0) as ->.
      { destruct (Nat.eqb_spec k i) as [->|]; [now rewrite Nat.sub_diag|]. replace (k - i)%nat with (S (k - S i)) by lia. reflexivity. }
      destruct Hy as [<-|Hy]; [|now apply K2]. apply Rle_trans with x; [apply K2; now left|lra].
    + destruct (IH best bi (S i) ltac:(lia)) as [K1 K2]. set (k := @xargmin_from NumR _ _ _ _) in *. clearbody k. cbn zeta in *. cbn [length].
      split; [lia|]. intros y Hy.
      assert (forall z, In z (best :: l) -> (if (k =? bi)%nat then best else nth (k - i) (x :: l) 0) <= z) as K3.
      { intros z Hz. specialize (K2 z Hz). destruct (Nat.eqb_spec k bi); [exact K2|]. replace (k - i)%nat with (S (k - S i)) by lia. exact K2. }
      destruct Hy as [<-|[<-|Hy]]; [apply K3; now left| |apply K3; now right]. apply Rle_trans with best; [apply K3; now left|lra].
Qed.
Lemma xargmin_spec : forall l : list R, l <> [] ->
  let k := @xargmin NumR (map (@Fin NumR) l) in (k < length l)%nat /\ forall x, In x l -> nth k l 0 <= x.
Proof.
  intros [|a l] H; [congruence|]. cbn [map xargmin]. destruct (xargmin_from_spec l a 0 1 ltac:(lia)) as [K1 K2].
  set (k := @xargmin_from NumR _ _ _ _) in *. clearbody k. cbn zeta in *. cbn [length]. split; [lia|]. intros x Hx. specialize (K2 x Hx).
  destruct k; [exact K2|]. cbn [Nat.eqb] in K2. cbn [nth]. replace (S k - 1)%nat with k in K2 by lia. exact K2.
Qed.

(** ** pruning to the leading neurons *)
Lemma filter_seq_lt : forall k l, filter (fun i => (i <? k)%nat) (seq 0 l) = seq 0 (Nat.min l k).
Proof.
  intros k l. destruct (Nat.le_ge_cases l k) as [H|H].
  - rewrite Nat.min_l by auto. assert (forall m, (forall i, In i m -> (i < k)%nat) -> filter (fun i => (i <? k)%nat) m = m) as F.
    { induction m as [|a m IH]; intros Hm; [reflexivity|]. cbn [filter]. destruct (Nat.ltb_spec a k) as [|C]; [|pose proof (Hm a (or_introl eq_refl)); lia].
      f_equal. apply IH. intros; apply Hm; now right. }
    apply F. intros i Hi. apply in_seq in Hi. lia.
  - rewrite Nat.min_r by auto. replace l with (k + (l - k))%nat by lia. rewrite seq_app, filter_app.
    assert (filter (fun i => (i <? k)%nat) (seq (0 + k) (l - k)) = []) as ->.
    { assert (forall m, (forall i, In i m -> (k <= i)%nat) -> filter (fun i => (i <? k)%nat) m = []) as F.
      { induction m as [|a m IH]; intros Hm; [reflexivity|]. cbn [filter]. pose proof (Hm a (or_introl eq_refl)). destruct (Nat.ltb_spec a k); [lia|].
        apply IH. intros; apply Hm; now right. }
      apply F. intros i Hi. apply in_seq in Hi. lia. }
    rewrite app_nil_r. assert (forall m, (forall i, In i m -> (i < k)%nat) -> filter (fun i => (i <? k)%nat) m = m) as F.
    { induction m as [|a m IH]; intros Hm; [reflexivity|]. cbn [filter]. destruct (Nat.ltb_spec a k) as [|C]; [|pose proof (Hm a (or_introl eq_refl)); lia].
      f_equal. apply IH. intros; apply Hm; now right. }
    apply F. intros i Hi. apply in_seq in Hi. lia.
Qed.
Lemma filter_seq_ge : forall k l, map (fun i => (i - k)%nat) (filter (fun i => (k <=? i)%nat) (seq 0 l)) = seq 0 (l - k).
Proof.
  intros k l. induction l as [|l IH]; [reflexivity|]. rewrite seq_S, filter_app, map_app, IH. cbn [Nat.add filter].
  destruct (Nat.leb_spec k l) as [H|H].
  - replace (S l - k)%nat with (S (l - k)) by lia. rewrite seq_S. reflexivity.
  - replace (S l - k)%nat with 0%nat by lia. replace (l - k)%nat with 0%nat by lia. reflexivity.
Qed.
Lemma regroup_nil : forall sizes, regroup sizes [] = [].
Proof. induction sizes as [|k sizes IH]; [reflexivity|]. rewrite regroup_cons. cbn [filter map app]. now rewrite IH. Qed.
Lemma shift_seq : forall k n, map (fun i => (i + k)%nat) (seq 0 n) = seq k n.
Proof.
  intros k n. assert (forall a, map (fun i => (i + k)%nat) (seq a n) = seq (a + k) n) as G; [|exact (G 0%nat)].
  induction n as [|n IH]; intros a; [reflexivity|]. cbn [seq map]. f_equal. apply (IH (S a)).
Qed.
Lemma regroup_head : forall sizes l, (l <= list_sum sizes)%nat -> regroup sizes (seq 0 l) = seq 0 l.
Proof.
  induction sizes as [|k sizes IH]; intros l H.
  - cbn in H. assert (l = 0)%nat as -> by lia. reflexivity.
  - rewrite regroup_cons, filter_seq_lt, filter_seq_ge. cbn [list_sum fold_right] in H. rewrite IH by (unfold list_sum; lia).
    destruct (Nat.le_ge_cases l k) as [C|C].
    + rewrite Nat.min_l by auto. replace (l - k)%nat with 0%nat by lia. cbn [seq map]. apply app_nil_r.
    + rewrite Nat.min_r by auto. replace l with (k + (l - k))%nat at 2 by lia. rewrite seq_app. f_equal.
      cbn [Nat.add]. apply shift_seq.
Qed.

Lemma prune_head : forall ns l, prune_neurons ns (seq 0 l) = prune_neurons ns (seq 0 (Nat.min l (nneurons ns))).
Proof.
  induction ns as [|g ns IH]; intros l; [reflexivity|].
  unfold nneurons. cbn [map prune_neurons]. change (list_sum (n_num g :: map n_num ns)) with (n_num g + nneurons ns)%nat.
  rewrite !filter_seq_lt, !filter_seq_ge. f_equal.
  - replace (Nat.min (Nat.min l (n_num g + nneurons ns)) (n_num g)) with (Nat.min l (n_num g)) by lia. reflexivity.
  - rewrite IH. symmetry. rewrite IH. do 2 f_equal. lia.
Qed.

(** the confusion matrix of a classification *)
Definition counts (cls : string) (c : nat) (T Y : list (list R)) : list (list R) :=
  map (fun i => map (fun j => INR (tally (conf_pred cls i j) T Y)) (seq 0 c)) (seq 0 c).

Lemma confusion_eq : forall e cls c (T Y : list (list R)),
  e_class e = Some cls -> In cls ["c"; "wc"; "ml"]%string -> s_outputs (e_net e) = c -> (0 < e_batch e)%Z -> length T = length Y ->
  @confusion NumR e (Arr2 c T) (Arr2 c Y) = Ok (counts cls c T Y).
Proof.
  intros e cls c T Y H1 H2 H3 H4 H5. destruct (confusion_counts e cls c T Y H1 H2 H3 H4 H5) as (M & E & HM & HC). rewrite E. f_equal.
  apply (mat_ext c c); [exact HM|exact (@is_mat_mk NumR c c (fun i j => INR (tally (conf_pred cls i j) T Y)))|].
  intros i j Hi Hj. change (counts cls c T Y) with (@mk NumR c c (fun i j => INR (tally (conf_pred cls i j) T Y))). rewrite mget_mk by auto. now apply HC.
Qed.

Lemma hp_error_plain : forall e c (T Y : list (list R)),
  ErrThms.plain (e_class e) -> s_outputs (e_net e) = c -> (0 < c)%nat -> (0 < e_batch e)%Z -> wide c T -> wide c Y -> length T = length Y -> T <> [] ->
  @hp_error_ NumR (e_class e) (e_wc e) (e_batch e) c T Y 0 None = Ok (@Fin NumR (mean (errs (e_class e) c T Y))).
Proof.
  intros e c T Y Hp Ho Hc Hb HT HY Hl Hne.
  pose proof (hp_error_mean e (SArr (Arr2 c T)) (SArr (Arr2 c Y)) c T Y 0 None Hp Ho Hc Hb (or_introl eq_refl) (or_introl eq_refl) HT HY Hl ltac:(lia)) as E.
  unfold hp_error in E. rewrite Ho in E. cbn [check_src check_arr] in E. rewrite Nat.eqb_refl in E. cbn [rbind Z.of_nat zcount] in E.
  assert (forall M : list (list R), range_of M 0 None = M) as ER by (intros M; unfold range_of; reflexivity).
  rewrite !ER in E. now apply E.
Qed.

Lemma mapM_map_ok : forall {A B C} (g : A -> B) (f : B -> res C) (h : A -> C) l,
  (forall a, In a l -> f (g a) = Ok (h a)) -> mapM f (map g l) = Ok (map h l).
Proof.
  intros A B C g f h l. induction l as [|a l IH]; intros H; [reflexivity|]. cbn [map mapM]. rewrite H by now left. rewrite IH by (intros; apply H; now right).
  reflexivity.
Qed.
Lemma slice_map : forall {A B} (f : A -> B) l a b, slice (map f l) a b = map f (slice l a b).
Proof. intros A B f l a b. unfold slice. rewrite map_length. now rewrite <- firstn_map, <- skipn_map. Qed.

Section Vc.
Context {SG : @Sing NumR}.
Context (e : @elm NumR) (X T : list (list R)) (B : nat -> list (list R)).
Let s := e_net e.
Let c := s_outputs s.
Let H := map (hrow (s_neurons s)) X.
Let Y (l : nat) := outputs_of c (B l) (map (firstn l) H).
Let stage (b : Z) (l : nat) : cand :=
  mkCand l (B l) (@Fin NumR (Rsum (errs (e_class e) c (slice T 0 b) (slice (Y l) 0 b)) / INR (length X)))
    (match e_class e with None => zero_mat c c | Some cls => counts cls c (slice T 0 b) (slice (Y l) 0 b) end).

Lemma Y_wide : forall l, wide c (Y l).
Proof. intros l. unfold Y, outputs_of, wide. apply Forall_forall. intros y Hy. apply in_map_iff in Hy as (h & <- & _). now rewrite map_length, seq_length. Qed.
Lemma Y_length : forall l, length (Y l) = length X.
Proof. intros l. unfold Y, outputs_of, H. now rewrite !map_length. Qed.

Lemma counts_add : forall cls T1 Y1 T2 Y2, length T1 = length Y1 ->
  @madd NumR (counts cls c T1 Y1) (counts cls c T2 Y2) = counts cls c (T1 ++ T2) (Y1 ++ Y2).
Proof.
  intros cls T1 Y1 T2 Y2 HL.
  change (@madd NumR (@mk NumR c c (fun i j => INR (tally (conf_pred cls i j) T1 Y1))) (@mk NumR c c (fun i j => INR (tally (conf_pred cls i j) T2 Y2)))
    = @mk NumR c c (fun i j => INR (tally (conf_pred cls i j) (T1 ++ T2) (Y1 ++ Y2)))).
  rewrite madd_mk. apply (@mk_ext NumR). intros i j _ _. rewrite tally_app, plus_INR by auto. reflexivity.
Qed.

Lemma vc_step : forall L Ls a b, wf_net s -> ErrThms.plain (e_class e) -> (0 < c)%nat -> (0 < e_batch e)%Z -> wide c T -> length X = length T ->
  L = nneurons (s_neurons s) -> (forall l, In l Ls -> length (B l) = Nat.min l L) ->
  (0 <= a)%Z -> (a < b)%Z -> (b <= Z.of_nat (length X))%Z ->
  mapM (vc_update e (slice T a b) (slice H a b) (@nofZ NumR (b - a)) (length X)) (map (stage a) Ls) = Ok (map (stage b) Ls).
Proof.
  intros L Ls a b HW Hp Hc Hb HT HL EL HB Ha Hab Hbn. apply mapM_map_ok. intros l Hl. unfold stage at 1. unfold vc_update. cbn [cd_l cd_B cd_err cd_conf].
  fold s c.
  assert (@mmul NumR c (map (firstn l) (slice H a b)) (B l) = slice (Y l) a b) as EY.
  { rewrite (mmul_outputs (Nat.min l L)); [|now apply HB|].
    - unfold Y, outputs_of. now rewrite !slice_map.
    - apply Forall_forall. intros h Hh. apply in_map_iff in Hh as (h0 & <- & Hin). unfold H in Hin. rewrite slice_map in Hin. apply in_map_iff in Hin as (x & <- & _).
      rewrite firstn_length. f_equal. rewrite EL. exact (hrow_length (s_inputs s) (s_neurons s) x (wf_groups _ HW)). }
  rewrite EY. pose proof (Y_length l) as LY. cbn [num NumR] in *.
  assert (length (slice T a b) = Z.to_nat (b - a)) as L1 by (apply slice_length_in; lia).
  assert (length (slice (Y l) a b) = Z.to_nat (b - a)) as L2 by (apply slice_length_in; lia).
  assert (length (slice T 0 a) = Z.to_nat a) as L3 by (rewrite slice_length_in by lia; lia).
  assert (length (slice (Y l) 0 a) = Z.to_nat a) as L4 by (rewrite slice_length_in by lia; lia).
  rewrite (hp_error_plain e c); auto.
  2:{ now apply (@Forall_wide_slice NumR). }
  2:{ apply (@Forall_wide_slice NumR). apply Y_wide. }
  2:{ cbn [num NumR] in *. lia. }
  2:{ intros C. apply (f_equal (@length _)) in C. cbn [length num NumR] in *. lia. }
  cbn [rbind].
  assert (INR (length X) <> 0) as HN by (apply not_0_INR; lia).
  assert (INR (Z.to_nat (b - a)) <> 0) as HS by (apply not_0_INR; lia).
  assert (@xadd NumR (@Fin NumR (Rsum (errs (e_class e) c (slice T 0 a) (slice (Y l) 0 a)) / INR (length X)))
      (@xdiv NumR (@xmul NumR (@Fin NumR (mean (errs (e_class e) c (slice T a b) (slice (Y l) a b)))) (@Fin NumR (@nofZ NumR (b - a)))) (@Fin NumR (@nof_nat NumR (length X))))
      = @Fin NumR (Rsum (errs (e_class e) c (slice T 0 b) (slice (Y l) 0 b)) / INR (length X))) as EE.
  { cbn [xmul xdiv]. replace (b - a)%Z with (Z.of_nat (Z.to_nat (b - a))) by lia. rewrite nofZ_INR, nof_nat_INR. rewrite np_div_R by exact HN. cbn [xadd].
    f_equal. rewrite <- (slice_app T 0 a b), <- (slice_app (Y l) 0 a b) by lia. rewrite errs_app by (cbn [num NumR] in *; lia). rewrite Rsum_app.
    unfold mean. rewrite errs_length by (cbn [num NumR] in *; lia). change (@nadd NumR) with Rplus. change (@nmul NumR) with Rmult. cbn [num NumR] in *. rewrite L1. field. auto. }
  unfold stage. destruct (e_class e) as [cls|] eqn:Ecls.
  - rewrite (confusion_eq e cls c); auto.
    2:{ destruct Hp as [?|[Q|Q]]; [congruence| |]; injection Q as ->; cbn; auto. }
    2:{ cbn [num NumR] in *. lia. }
    cbn [rbind]. f_equal. f_equal; [exact EE|]. rewrite counts_add by (cbn [num NumR] in *; lia). rewrite !slice_app by lia. reflexivity.
  - cbn [rbind]. f_equal. f_equal. exact EE.
Qed.

Lemma vc_loop_tiles : forall L Ls, wf_net s -> usable s -> ErrThms.plain (e_class e) -> (0 < c)%nat -> (0 < e_batch e)%Z -> wide (s_inputs s) X -> wide c T -> length X = length T ->
  L = nneurons (s_neurons s) -> (forall l, In l Ls -> length (B l) = Nat.min l L) ->
  forall rs a b, tiles (e_batch e) a b rs -> (0 <= a)%Z -> (b <= Z.of_nat (length X))%Z ->
  vc_loop e X T rs (map (stage a) Ls) = Ok (map (stage b) Ls).
Proof.
  intros L Ls HW HU Hp Hc Hb HX HT HL EL HB. induction rs as [|[x y] rs IH]; intros a b Ht Ha Hbn; cbn [tiles] in Ht.
  - subst b. reflexivity.
  - destruct Ht as (-> & H1 & H2 & H3). pose proof (tiles_le _ _ _ _ H3). cbn [vc_loop fst snd].
    fold s. rewrite project_ok; [|exact HU|now apply (@Forall_wide_slice NumR)]. cbn [rbind]. rewrite <- slice_map. fold H.
    rewrite (vc_step L) by (auto; lia). cbn [rbind]. apply IH; auto. lia.
Qed.
End Vc.

Section Main.
Context {SG : @Sing NumR}.
Lemma cut_min : forall L l ss, good L ss -> map (cut (Nat.min l L)) ss = map (cut l) ss.
Proof.
  intros L l ss Hg. apply map_ext_in. intros x Hx. destruct (Hg x Hx) as [_ HL]. unfold cut. f_equal. f_equal.
  destruct (Nat.le_ge_cases l L); [now rewrite Nat.min_l by auto|]. rewrite Nat.min_r by auto. rewrite (firstn_all2 (sm_h x)) by lia. rewrite firstn_all2 by lia. reflexivity.
Qed.
Lemma head_min : forall {A} L l (M : list A), length M = L -> firstn l M = firstn (Nat.min l L) M.
Proof. intros A L l M HL. destruct (Nat.le_ge_cases l L); [now rewrite Nat.min_l by auto|]. rewrite Nat.min_r by auto. rewrite !firstn_all2 by lia. reflexivity. Qed.

Lemma head_HH_min : forall L l (M : list (list R)), length M = L -> Forall (fun r => length r = L) M -> head_HH l M = head_HH (Nat.min l L) M.
Proof.
  intros L l M HL HM. unfold head_HH. cbn [num NumR]. rewrite (head_min L l M HL). apply map_ext_in. intros r Hr. apply head_min.
  rewrite Forall_forall in HM. apply HM. rewrite <- (firstn_skipn (Nat.min l L)). apply in_or_app. now left.
Qed.

Lemma vc_cand_ridge : forall (e : @elm NumR) ss l, let L := getL (e_net e) in let c := s_outputs (e_net e) in
  0 < s_norm (e_net e) -> good L ss ->
  ridge_solution (Nat.min l L) c (s_norm (e_net e)) (map (cut l) ss)
    (solve_corr (e_net e) (Nat.min l L) (head_HH l (spec_HH L (s_norm (e_net e)) ss)) (firstn l (spec_HT L c ss))).
Proof.
  intros e ss l L c Hn Hg.
  assert (head_HH l (spec_HH L (s_norm (e_net e)) ss) = spec_HH (Nat.min l L) (s_norm (e_net e)) (map (cut l) ss)) as ->.
  { rewrite <- (cut_min L l ss Hg). rewrite <- (head_spec_HH L (Nat.min l L)) by lia. apply head_HH_min; [apply spec_HH_len|].
    apply Forall_forall. intros r Hin. unfold spec_HH in Hin. apply in_map_iff in Hin as (i & <- & _). now rewrite map_length, seq_length. }
  assert (firstn l (spec_HT L c ss) = spec_HT (Nat.min l L) c (map (cut l) ss)) as ->.
  { rewrite <- (cut_min L l ss Hg). rewrite <- (head_spec_HT L (Nat.min l L)) by lia. apply head_min. apply spec_HT_len. }
  unfold c. apply solve_corr_spec; [exact Hn|]. rewrite <- (cut_min L l ss Hg). eapply good_cut; [|exact Hg]. lia.
Qed.

Lemma firstn_keep : forall l (h : list R), (l <= length h)%nat -> map (fun i => nth i h 0) (seq 0 l) = firstn l h.
Proof.
  induction l as [|l IH]; intros h Hl; [reflexivity|]. destruct h as [|a h]; [cbn in Hl; lia|]. cbn [seq map firstn nth]. f_equal.
  rewrite <- seq_shift, map_map. apply IH. cbn in Hl. lia.
Qed.

Theorem validation_corr_spec : forall (e : @elm NumR) fs ss dX dT (X T H : list (list R)) Ls,
  let s := e_net e in let L := getL s in let c := s_outputs s in
  wf_net s -> ErrThms.plain (e_class e) -> (0 < c)%nat -> (0 < e_batch e)%Z -> 0 < s_norm s ->
  f_HH fs = Some (L, spec_HH L (s_norm s) ss) -> f_HT fs = Some (c, spec_HT L c ss) -> good L ss ->
  data_ok e dX dT X T -> X <> [] -> elm_project e (Arr2 (s_inputs s) X) = Ok H -> Ls <> [] ->
  exists (B : nat -> list (list R)) e' best,
    let Y l := outputs_of c (B l) (map (firstn l) H) in
    let err l := mean (errs (e_class e) c T (Y l)) in
    (forall l, In l Ls -> ridge_solution (Nat.min l L) c (s_norm s) (map (cut l) ss) (B l)) /\
    validation_corr e fs dX dT Ls =
      (e', Ok (Ls, map (fun l => @Fin NumR (err l)) Ls, match e_class e with None => [] | Some cls => map (fun l => counts cls c T (Y l)) Ls end)) /\
    In best Ls /\ (forall l, In l Ls -> err best <= err l) /\
    forall cX X' H', elm_project e (Arr2 cX X') = Ok H' -> elm_predict e' (Arr2 cX X') = Ok (outputs_of c (B best) (map (firstn best) H')).
Proof.
  intros e fs ss dX dT X T H Ls s L c HW Hp Hc Hb Hn F1 F2 Hg HD HXne HH HLs.
  pose proof HD as (_ & _ & HLen & HX & HT).
  assert (usable s /\ H = map (hrow (s_neurons s)) X) as [HU EH].
  { unfold elm_project, check_arr in HH. fold s in HH. rewrite Nat.eqb_refl in HH. cbn [rbind] in HH. destruct (@project_inv NumR _ _ _ HH) as (A1 & _ & A2). auto. }
  set (B := fun l => solve_corr s (Nat.min l L) (@head_HH NumR l (spec_HH L (s_norm s) ss)) (firstn l (spec_HT L c ss))).
  assert (forall l, ridge_solution (Nat.min l L) c (s_norm s) (map (cut l) ss) (B l)) as HR by (intros l; exact (vc_cand_ridge e ss l Hn Hg)).
  assert (L = nneurons (s_neurons s)) as EL by (unfold L; exact (wf_getL _ HW)).
  assert (forall l, length (B l) = Nat.min l L) as HBl by (intros l; destruct (HR l) as ((Q & _) & _); exact Q).
  set (Y := fun l => outputs_of c (B l) (map (firstn l) H)).
  set (err := fun l => mean (errs (e_class e) c T (Y l))).
  pose proof (vc_loop_tiles e X T B L Ls HW HU Hp Hc Hb HX HT HLen EL (fun l _ => HBl l)) as HV.
  fold s c in HV. rewrite <- EH in HV.
  specialize (HV (ranges (e_batch e) 0 (Z.of_nat (length X)) (ceil_div (Z.of_nat (length X)) (e_batch e))) 0%Z (0 + Z.of_nat (length X))%Z
    (ranges_tiles _ _ _ Hb (Zle_0_nat _)) (Z.le_refl 0) (Z.le_refl _)).
  rewrite Z.add_0_l in HV.
  set (stage := fun l => mkCand l (B l) (@Fin NumR (err l)) (match e_class e with None => @zero_mat NumR c c | Some cls => counts cls c T (Y l) end)).
  assert (vc_loop e X T (ranges (e_batch e) 0 (Z.of_nat (length X)) (ceil_div (Z.of_nat (length X)) (e_batch e)))
            (map (vc_cand e (spec_HH L (s_norm s) ss) (spec_HT L c ss)) Ls) = Ok (map stage Ls)) as HV2.
  { etransitivity; [|etransitivity; [exact HV|]].
    - f_equal. apply map_ext. intros l. unfold vc_cand. fold s L c (B l). f_equal.
      + rewrite !slice_empty. f_equal. cbn. unfold Rdiv. now rewrite Rmult_0_l.
      + destruct (e_class e); [|reflexivity]. rewrite !slice_empty. unfold counts, tally, zero_mat, mk, mkv. cbn [combine filter length INR]. reflexivity.
    - f_equal. apply map_ext. intros l. unfold stage. cbn [num NumR] in *. change (outputs_of c (B l) (map (firstn l) H)) with (Y l).
      assert (length (Y l) = length T) as EY by (unfold Y, outputs_of; rewrite EH, !map_length; exact HLen).
      assert (slice T 0 (Z.of_nat (length X)) = T) as -> by (rewrite HLen; apply slice_all).
      assert (slice (Y l) 0 (Z.of_nat (length X)) = Y l) as -> by (rewrite HLen, <- EY; apply slice_all).
      f_equal. f_equal. unfold err, mean. rewrite errs_length by (symmetry; exact EY). cbn [num NumR] in *. now rewrite HLen. }
  set (k := @xargmin NumR (map (@Fin NumR) (map err Ls))).
  destruct (xargmin_spec (map err Ls)) as [K1 K2]; [destruct Ls; [congruence|discriminate]|]. fold k in K1, K2. rewrite map_length in K1.
  set (best := nth k Ls 0%nat).
  assert (nth k (map err Ls) 0 = err best) as EB by (rewrite (nth_indep _ 0 (err 0%nat)) by (rewrite map_length; exact K1); apply map_nth).
  assert (checkcorr e fs = Ok (spec_HH L (s_norm s) ss, spec_HT L c ss)) as ECC.
  { unfold checkcorr. rewrite F1, F2. fold s L c. rewrite (spec_HH_len L), (spec_HT_len L), !Nat.eqb_refl. cbn [andb].
    destruct HU as [HU _]. destruct (s_neurons s); [congruence|reflexivity]. }
  set (s1 := prune s (seq 0 best)).
  assert (s1 = prune s (seq 0 (Nat.min best L))) as Es1 by (unfold s1, prune; rewrite prune_head, <- EL; reflexivity).
  assert (forall i, In i (seq 0 (Nat.min best L)) -> (i < getL (e_net e))%nat) as HI by (intros i Hi; apply in_seq in Hi; fold s L; lia).
  destruct (prune_features e _ HW HI) as (cols & Ec & _ & ELn & _ & Hpr). cbn zeta in ELn, Hpr. fold s in ELn, Hpr, Ec. rewrite <- Es1 in ELn, Hpr.
  rewrite seq_length in ELn. cbn [e_net with_net] in ELn.
  assert (cols = seq 0 (Nat.min best L)) as -> by (rewrite Ec; apply regroup_head; rewrite EL; unfold nneurons; lia).
  assert (set_B s1 (length (B best)) (s_outputs s1) (B best) = (with_B s1 (Some (B best)), Ok tt)) as ESB.
  { unfold set_B. cbn [num NumR] in *. rewrite ELn, HBl, !Nat.eqb_refl. reflexivity. }
  exists B, (with_net e (with_B s1 (Some (B best)))), best. cbn zeta.
  split; [intros l _; apply HR|]. split; [|split; [apply nth_In; exact K1|split]].
  - unfold validation_corr. rewrite (hp_check_ok _ _ _ _ _ HD), ECC. rewrite nbatches_eq by exact Hb. cbn [rbind]. cbn [num NumR] in *. rewrite HV2.
    destruct (map stage Ls) as [|c0 cs] eqn:Est; [destruct Ls; [congruence|discriminate]|]. rewrite <- Est.
    assert (map cd_err (map stage Ls) = map (@Fin NumR) (map err Ls)) as -> by (rewrite !map_map; reflexivity).
    match goal with |- context [xargmin ?l] => change (xargmin l) with k end.
    assert (nth k (map stage Ls) c0 = stage best) as -> by (rewrite (nth_indep _ c0 (stage 0%nat)) by (rewrite map_length; exact K1); apply map_nth).
    cbn [cd_l cd_B stage]. fold s s1. rewrite ESB. f_equal. f_equal. rewrite !map_map. cbn [cd_l cd_conf]. rewrite map_id. f_equal.
    destruct (e_class e); reflexivity.
  - intros l Hl. change (err best <= err l). rewrite <- EB. apply K2. now apply in_map.
  - intros cX X' H' E'. specialize (Hpr cX X' H' E').
    unfold elm_project, elm_predict in *. cbn [e_net with_net] in *. change (s_inputs (with_B s1 (Some (B best)))) with (s_inputs s1).
    destruct (check_arr (Arr2 cX X') (s_inputs s1)) as [x|]; [|discriminate]. cbn [rbind] in *. unfold predict. cbn [s_B with_B].
    change (project (with_B s1 (Some (B best))) x) with (project s1 x). rewrite Hpr. cbn [rbind]. f_equal.
    change (s_outputs (with_B s1 (Some (B best)))) with c.
    assert (forall h, In h H' -> length h = L) as HW'.
    { fold s in E'. destruct (check_arr (Arr2 cX X') (s_inputs s)) as [x0|]; [|discriminate]. cbn [rbind] in E'. destruct (@project_inv NumR _ _ _ E') as (_ & _ & ->).
      intros h Hh. apply in_map_iff in Hh as (y & <- & _). rewrite EL. exact (hrow_length (s_inputs s) (s_neurons s) y (wf_groups _ HW)). }
    assert (map (fun h => map (fun i => nth i h (@n0 NumR)) (seq 0 (Nat.min best L))) H' = map (firstn best) H') as ->.
    { apply map_ext_in. intros h Hh. specialize (HW' h Hh). etransitivity; [apply (firstn_keep (Nat.min best L) h); cbn [num NumR] in *; lia|]. symmetry. now apply head_min. }
    apply (mmul_outputs (Nat.min best L)); [apply HBl|]. apply Forall_forall. intros h Hh. apply in_map_iff in Hh as (h0 & <- & Hin). rewrite firstn_length.
    specialize (HW' h0 Hin). cbn [num NumR] in *. lia.
Qed.
End Main.
