(** The order in which neurons are added does not matter for a trained model (C60). *)
From Coq Require Import Reals Lra Permutation.
From Verif Require Import Base Num Mat LinAlg Slfn Strs Elm Mrsr Search Mss Hpelm MatFacts SplitProofs Spec ElmFacts RLin
  AccProofs TrainProofs RidgeProofs WfProofs TrainThms IncrThms SolveThms RangeThms NeuronThms ErrThms SearchThms SelectThms RankThms SubThms FeatureThms RangeTrain Spec RegMore.

Section Units.
Context {K : Num}.

(** the single neurons of a model: function, input weights, bias *)
Definition unit_ : Type := (ftype * list num * num)%type.
Definition units (g : neuron) : list unit_ :=
  map (fun j => (n_func g, mcol (n_W g) j, vget (n_B g) j)) (seq 0 (length (n_B g))).
Definition all_units (ns : list neuron) : list unit_ := concat (map units ns).
Definition uval (x : vec) (u : unit_) : num := act (fst (fst u)) x (snd (fst u)) (snd u).

Lemma hrow_units : forall ns x, hrow ns x = map (uval x) (all_units ns).
Proof.
  intros ns x. unfold hrow, all_units. rewrite concat_map, map_map. f_equal. apply map_ext. intros g.
  unfold units. rewrite map_map. reflexivity.
Qed.

Lemma units_merge : forall i n1' n2' f W1 B1 W2 B2, is_mat i n1' W1 -> length B1 = n1' -> is_mat i n2' W2 -> length B2 = n2' ->
  units (mkNeuron (n1' + n2') f (map2 (@app num) W1 W2) (B1 ++ B2)) = units (mkNeuron n1' f W1 B1) ++ units (mkNeuron n2' f W2 B2).
Proof.
  intros i n1' n2' f W1 B1 W2 B2 [L1 F1] E1 [L2 F2] E2. unfold units. cbn [n_B n_W n_func].
  rewrite app_length, seq_app, map_app. f_equal.
  - apply map_ext_in. intros j Hj. apply in_seq in Hj. cbn in Hj.
    rewrite mcol_hstack_l with (c1 := n1') by (auto; lia). unfold vget. now rewrite app_nth1 by lia.
  - assert (forall m k s, map (fun j => k + j) (seq s m) = seq (k + s) m) as HS.
    { induction m; intros k s; cbn; auto. f_equal. rewrite IHm. f_equal. lia. }
    replace (0 + length B1) with (length B1 + 0) by lia. rewrite <- HS.
    rewrite map_map. apply map_ext_in. intros j Hj. apply in_seq in Hj.
    rewrite E1. rewrite mcol_hstack_r by (auto; lia). unfold vget. rewrite app_nth2 by lia.
    replace (n1' + j - length B1) with j by lia. reflexivity.
Qed.

Lemma merge_units : forall i ns n f W B, Forall (wf_neuron i) ns -> is_mat i n W -> length B = n ->
  Permutation (all_units (merge_neurons ns n f W B)) (units (mkNeuron n f W B) ++ all_units ns).
Proof.
  intros i ns n f W B HF HW HB. induction HF as [|g r [G1 G2] Hr IH]; cbn [merge_neurons].
  - reflexivity.
  - destruct (ftype_eqb (n_func g) f) eqn:Ef.
    + apply ftype_eqb_eq in Ef. subst f. unfold all_units. cbn [map concat].
      rewrite (units_merge i) with (1 := G1) (2 := G2) by auto.
      assert (mkNeuron (n_num g) (n_func g) (n_W g) (n_B g) = g) as -> by (destruct g; reflexivity).
      rewrite app_assoc. apply Permutation_app_tail, Permutation_app_comm.
    + unfold all_units in *. cbn [map concat]. rewrite IH, !app_assoc. apply Permutation_app_tail, Permutation_app_comm.
Qed.

(** a call add_neurons(number, func, W, B) *)
Definition add_call : Type := (Z * func_arg * (nat * mat) * vec)%type.
Definition do_add (e : elm) (c : add_call) : elm * res unit :=
  let '(n, f, W, B) := c in add_neurons e n f (Some W) (Some B) (fun _ => []) (fun _ => []).
Definition rect (c : add_call) : Prop := let '(_, _, (w, W), _) := c in Forall (fun r => length r = w) W.
Definition call_units (c : add_call) : list unit_ :=
  let '(n, f, (_, W), B) := c in match parse_func f with Some ft => units (mkNeuron (Z.to_nat n) ft W B) | None => [] end.

Lemma do_add_units : forall e c e', wf_net (e_net e) -> rect c -> do_add e c = (e', Ok tt) ->
  wf_net (e_net e') /\ Permutation (all_units (s_neurons (e_net e'))) (call_units c ++ all_units (s_neurons (e_net e))) /\
  s_inputs (e_net e') = s_inputs (e_net e) /\ s_outputs (e_net e') = s_outputs (e_net e) /\ s_norm (e_net e') = s_norm (e_net e).
Proof.
  intros e [[[n f] [w W]] B] e' HW HR E. unfold do_add in E. apply add_neurons_inv in E. destruct E as (ft & m & W' & B' & Ef & Em & EW & EB & L1 & L2 & L3 & ->).
  cbn [used_number snd fst] in *. subst W' B' m. cbn [rect] in HR. rewrite L2 in HR.
  assert (is_mat (s_inputs (e_net e)) (Z.to_nat n) W) as SW by (split; auto).
  split; [apply wf_add_neurons_net; auto|].
  cbn [e_net with_net slfn_add_neurons with_B reset with_neurons s_neurons s_inputs s_outputs s_norm call_units]. rewrite Ef.
  split; [|auto]. apply (merge_units (s_inputs (e_net e))); auto. apply (wf_groups _ HW).
Qed.

Lemma run_add_units : forall cs e e', wf_net (e_net e) -> Forall rect cs -> run_all do_add e cs = (e', Ok tt) ->
  wf_net (e_net e') /\ Permutation (all_units (s_neurons (e_net e'))) (concat (map call_units cs) ++ all_units (s_neurons (e_net e))) /\
  s_inputs (e_net e') = s_inputs (e_net e) /\ s_outputs (e_net e') = s_outputs (e_net e) /\ s_norm (e_net e') = s_norm (e_net e).
Proof.
  induction cs as [|c cs IH]; intros e e' HW HF E; cbn [run_all] in E.
  - injection E as <-. repeat split; auto; apply HW.
  - destruct (do_add e c) as [e1 [[]|x]] eqn:E1; [|discriminate]. inversion HF; subst.
    destruct (do_add_units e c e1 HW H1 E1) as (W1 & P1 & I1 & O1 & N1). destruct (IH e1 e' W1 H2 E) as (W2 & P2 & I2 & O2 & N2).
    split; [exact W2|]. split; [|rewrite I2, O2, N2; auto].
    rewrite P2, P1. cbn [map concat]. rewrite !app_assoc. apply Permutation_app_tail, Permutation_app_comm.
Qed.

Lemma perm_index : forall {A} (d : A) l l', Permutation l l' ->
  exists ix, Permutation ix (seq 0 (length l)) /\ l' = map (fun i => nth i l d) ix.
Proof.
  intros A d l l' H. induction H.
  - exists []. split; constructor.
  - destruct IHPermutation as (ix & P & ->). exists (0 :: map S ix). split.
    + cbn [length seq]. constructor. rewrite <- seq_shift. now apply Permutation_map.
    + cbn [map]. f_equal. rewrite map_map. reflexivity.
  - exists (1 :: 0 :: map (fun i => S (S i)) (seq 0 (length l))). split.
    + cbn [length seq]. rewrite <- seq_shift, <- seq_shift, map_map. constructor.
    + cbn [map nth]. do 2 f_equal. rewrite map_map. cbn [nth].
      clear. induction l as [|a l IH]; [reflexivity|]. cbn [length seq map nth]. f_equal. rewrite <- seq_shift, map_map. exact IH.
  - destruct IHPermutation1 as (i1 & P1 & E1), IHPermutation2 as (i2 & P2 & E2).
    exists (map (fun i => nth i i1 0) i2). split.
    + rewrite P2. assert (length l' = length i1) as -> by (rewrite E1; apply map_length).
      assert (map (fun i => nth i i1 0) (seq 0 (length i1)) = i1) as ->; [|exact P1].
      clear. induction i1 as [|a l IH]; [reflexivity|]. cbn [length seq map nth]. f_equal. rewrite <- seq_shift, map_map. exact IH.
    + rewrite E2, map_map. apply map_ext_in. intros i Hi. rewrite E1.
      apply (nth_map_lt (fun i => nth i l d) i1 i 0 d). eapply Permutation_in in Hi; [|exact P2]. apply in_seq in Hi. rewrite E1, map_length in Hi. lia.
Qed.
End Units.

Local Open Scope R_scope.
#[local] Existing Instance NumR.

Lemma ridge_perm : forall L c norm ss Hv ix B, 0 < norm -> good L ss -> Forall (fun h => length h = L) Hv -> Permutation ix (seq 0 L) ->
  ridge_solution L c norm ss B -> ridge_solution (length ix) c norm (map (keep_sample ix) ss) (@rsel NumR B ix) /\
     outputs_of c (@rsel NumR B ix) (map (keep ix) Hv) = outputs_of c B Hv.
Proof.
  intros L c norm ss Hv ix B Hn Hg HV HP (SB & RB & _).
  assert (columns L ix) as Hc.
  { split; [eapply Permutation_NoDup; [apply Permutation_sym; exact HP|apply seq_NoDup]|]. intros i Hi.
    eapply Permutation_in in Hi; [|exact HP]. apply in_seq in Hi. lia. }
  split.
  - apply ridge_solution_of; auto; [now apply (good_keep L)| |].
    + split; [apply map_length|]. apply Forall_forall. intros r Hr. apply in_map_iff in Hr as (i & <- & Hi). apply SB. apply nth_In. destruct SB as [SB _]. cbn [num NumR] in *. rewrite SB. now apply Hc.
    + pose proof (proj1 (solves_msolves _ _ _ _ _) RB) as RB'. clear RB; rename RB' into RB. intros a k Ha Hk. rewrite <- (sub_HH_spec L), <- (rsel_HT_spec L) by auto.
      pose proof (columns_nth _ _ _ Hc Ha) as Ha'. specialize (RB _ k Ha' Hk).
      rewrite sub_HH_mk. transitivity (S_ (length ix) (fun b => (fun j => mR (spec_HH L norm ss) (nth a ix 0%nat) j * mR B j k) (nth b ix 0%nat))).
      * apply sum_ext. intros b Hb. rewrite mget_mk by auto. f_equal. unfold mget, rsel. rewrite nth_map_lt with (da := 0%nat) by auto. reflexivity.
      * etransitivity; [apply (keep_perm_rows L ix HP (fun j => mR (spec_HH L norm ss) (nth a ix 0%nat) j * mR B j k))|]. rewrite RB. unfold mget, rsel. rewrite nth_map_lt with (da := 0%nat) by auto. reflexivity.
  - unfold outputs_of. rewrite map_map. apply map_ext_in. intros h Hh. apply map_ext. intros k. unfold predict1.
    rewrite Forall_forall in HV. rewrite (HV h Hh). unfold keep. rewrite map_length, !Rsum_S.
    etransitivity; [|apply (keep_perm_rows L ix HP (fun i => entry h i * entry (nth i B []) k))].
    apply sum_ext. intros a Ha. change (map (entry h) ix) with (keep ix h). rewrite keep_nth by auto. unfold rsel. rewrite nth_map_lt with (da := 0%nat) by auto. reflexivity.
Qed.

Lemma plain_keep : forall ix H T, plain (map (keep ix) H) T = map (keep_sample ix) (plain H T).
Proof. intros ix. unfold plain. induction H as [|h H IH]; intros [|t T]; cbn [map map2]; auto. rewrite IH. reflexivity. Qed.

Section Train.
Context {SG : Sing} {BR : Brent} {SH : Shuffle}.

Theorem permuted_neurons : forall e1 e2 X T e1' e2',
  trained e1 X T e1' -> trained e2 X T e2' ->
  Permutation (all_units (s_neurons (e_net e1))) (all_units (s_neurons (e_net e2))) ->
  s_inputs (e_net e2) = s_inputs (e_net e1) -> s_outputs (e_net e2) = s_outputs (e_net e1) -> s_norm (e_net e2) = s_norm (e_net e1) ->
  forall n X' Y, elm_predict e1' (Arr2 n X') = Ok Y -> elm_predict e2' (Arr2 n X') = Ok Y.
Proof.
  intros e1 e2 X T e1' e2' H1 H2 HP EI EO En n X' Y EY.
  destruct (predict_wide _ _ _ _ EY) as [-> WX]. pose proof (trained_inv _ _ _ _ H1) as (_ & _ & _ & _ & EI' & _ & _ & _ & HG & _).
  rewrite EI' in *. clear EI'.
  destruct (trained_predict _ _ _ _ H1) as (B1 & _ & R1 & P1). destruct (trained_predict _ _ _ _ H2) as (B2 & _ & R2 & P2).
  rewrite (P1 _ WX) in EY. injection EY as <-. rewrite EI in P2. rewrite (P2 _ WX). apply f_equal.
  destruct (perm_index (Lin, [], 0) _ _ HP) as (ix & PX & EU).
  assert (forall x, length (hidden e1 x) = length (all_units (s_neurons (e_net e1)))) as LU.
  { intros x. unfold hidden. rewrite hrow_units. apply map_length. }
  assert (forall x, hidden e2 x = keep ix (hidden e1 x)) as EH.
  { intros x. unfold hidden. rewrite !hrow_units, EU. unfold keep. rewrite map_map. apply map_ext_in. intros i Hi.
    eapply Permutation_in in Hi; [|exact PX]. apply in_seq in Hi.
    unfold entry. symmetry. apply (nth_map_lt (@uval NumR x)). apply Hi. }
  assert (forall x, length (hidden e1 x) = nneurons (s_neurons (e_net e1))) as HL by (intros x; exact (hrow_length _ _ x (wf_groups _ (tr_wf _ _ _ _ H1)))).
  assert (length (all_units (s_neurons (e_net e1))) = nneurons (s_neurons (e_net e1))) as LL by (rewrite <- (LU []); apply HL).
  assert (Permutation ix (seq 0 (nneurons (s_neurons (e_net e1))))) as PX' by (rewrite <- LL; exact PX). clear PX. rename PX' into PX.
  assert (nneurons (s_neurons (e_net e2)) = length ix) as L2.
  { rewrite <- (hrow_length _ _ [] (wf_groups _ (tr_wf _ _ _ _ H2))). change (hrow (s_neurons (e_net e2)) []) with (hidden e2 []). rewrite EH. apply map_length. }
  assert (forall Z : list (list R), map (hidden e2) Z = map (keep ix) (map (hidden e1) Z)) as EM by (intros Z; rewrite map_map; apply map_ext; exact EH).
  rewrite EM. rewrite EM, plain_keep, L2, EO, En in R2. rewrite EO.
  assert (Forall (fun h => length h = nneurons (s_neurons (e_net e1))) (map (hidden e1) X')) as HV.
  { apply Forall_forall. intros h Hh. apply in_map_iff in Hh as (x & <- & _). apply HL. }
  destruct (ridge_perm _ (s_outputs (e_net e1)) _ _ (map (hidden e1) X') ix B1 (tr_norm _ _ _ _ H1) HG HV PX R1) as (R3 & E3).
  assert (B2 = @rsel NumR B1 ix) as -> by (apply R3; apply R2). exact E3.
Qed.

Theorem neuron_order : forall e cs cs' e1 e2 X T e1' e2',
  wf_net (e_net e) -> Forall rect cs -> Permutation cs cs' ->
  run_all do_add e cs = (e1, Ok tt) -> run_all do_add e cs' = (e2, Ok tt) ->
  trained e1 X T e1' -> trained e2 X T e2' ->
  forall n X' Y, elm_predict e1' (Arr2 n X') = Ok Y -> elm_predict e2' (Arr2 n X') = Ok Y.
Proof.
  intros e cs cs' e1 e2 X T e1' e2' HW HR HP E1 E2 H1 H2.
  destruct (run_add_units cs e e1 HW HR E1) as (_ & P1 & I1 & O1 & N1).
  assert (Forall rect cs') as HR' by (eapply Permutation_Forall; eauto).
  destruct (run_add_units cs' e e2 HW HR' E2) as (_ & P2 & I2 & O2 & N2).
  apply (permuted_neurons e1 e2 X T); auto; try congruence.
  rewrite P1, P2. apply Permutation_app_tail. rewrite <- !flat_map_concat_map. now apply Permutation_flat_map.
Qed.
End Train.
