(** * How far predictions move when the parameters are rounded on loading

    Exact arithmetic apart from the conversion; neurons of types lin, sigm, tanh. *)
From Coq Require Import Reals Lra Lia.
From Verif Require Import Base Num Mat LinAlg Slfn Strs Elm MatFacts ElmFacts RLin AccProofs WfProofs TrainThms LoadThms SubThms RegMore Convert Spec.
Local Open Scope R_scope.
#[local] Existing Instance NumR.

(** ** The activation functions move no more than their arguments *)
Lemma exp_diff : forall a b, a <= b -> exp b - exp a <= (b - a) * exp b.
Proof.
  intros a b H. assert (exp a = exp b * exp (a - b)) as E by (rewrite <- exp_plus; f_equal; lra).
  pose proof (exp_ineq1_le (a - b)). pose proof (exp_pos b). rewrite E. nra.
Qed.
Lemma sigm_lip : forall a b, Rabs (1 / (1 + exp a) - 1 / (1 + exp b)) <= Rabs (a - b).
Proof.
  assert (forall a b, a <= b -> Rabs (1 / (1 + exp a) - 1 / (1 + exp b)) <= Rabs (a - b)) as H.
  { intros a b L. pose proof (exp_pos a). pose proof (exp_pos b). pose proof (exp_diff a b L).
    assert (exp a <= exp b) as ME. { destruct L as [L| ->]; [left; now apply exp_increasing|lra]. }
    replace (1 / (1 + exp a) - 1 / (1 + exp b)) with ((exp b - exp a) / ((1 + exp a) * (1 + exp b))) by (field; lra).
    assert (0 < (1 + exp a) * (1 + exp b)) as P by nra.
    rewrite Rabs_right. 2:{ apply Rle_ge, Rmult_le_pos; [lra|left; now apply Rinv_0_lt_compat]. }
    rewrite (Rabs_left1 (a - b)) by lra. apply Rmult_le_reg_r with ((1 + exp a) * (1 + exp b)); [exact P|].
    unfold Rdiv. rewrite Rmult_assoc, Rinv_l, Rmult_1_r by lra. nra. }
  intros a b. destruct (Rle_dec a b) as [L|L]; [now apply H|].
  rewrite (Rabs_minus_sym a b), (Rabs_minus_sym (1 / _)). apply H. lra.
Qed.
Lemma cosh_pos : forall x, 0 < cosh x.
Proof. intros x. unfold cosh. pose proof (exp_pos x). pose proof (exp_pos (- x)). lra. Qed.
Lemma cosh_sinh : forall x, cosh x * cosh x - sinh x * sinh x = 1.
Proof.
  intros x. unfold cosh, sinh. assert (exp x * exp (- x) = 1) as E by (rewrite <- exp_plus, Rplus_opp_r; apply exp_0).
  replace ((exp x + exp (- x)) / 2 * ((exp x + exp (- x)) / 2) - (exp x - exp (- x)) / 2 * ((exp x - exp (- x)) / 2)) with (exp x * exp (- x)) by field. exact E.
Qed.
Lemma tanh_lip : forall a b, Rabs (tanh a - tanh b) <= Rabs (a - b).
Proof.
  assert (forall a b, a < b -> Rabs (tanh b - tanh a) <= Rabs (b - a)) as H.
  { intros a b L. destruct (MVT_cor2 tanh (fun x => (cosh x * cosh x - sinh x * sinh x) / Rsqr (cosh x)) a b L) as (c & Ec & _).
    { intros c _. pose proof (cosh_pos c). apply (derivable_pt_lim_div sinh cosh c (cosh c) (sinh c)); [apply derivable_pt_lim_sinh|apply derivable_pt_lim_cosh|lra]. }
    rewrite Ec, cosh_sinh. pose proof (cosh_pos c). pose proof (cosh_sinh c). unfold Rsqr.
    assert (1 <= cosh c * cosh c) by nra.
    assert (0 < / (cosh c * cosh c) <= 1) as [I1 I2].
    { split; [apply Rinv_0_lt_compat; lra|]. rewrite <- Rinv_1. apply Rinv_le_contravar; lra. }
    rewrite Rabs_mult. unfold Rdiv. rewrite Rmult_1_l, (Rabs_right (/ _)) by lra. pose proof (Rabs_pos (b - a)). nra. }
  intros a b. destruct (Rtotal_order a b) as [L|[->|L]].
  - rewrite (Rabs_minus_sym a b), (Rabs_minus_sym (tanh a)). now apply H.
  - rewrite !Rminus_eq_0, Rabs_R0. lra.
  - now apply H.
Qed.

Section Bound.
Context {SG : Sing} (u eta : R) (f : R -> R)
  (Hf : forall x, Rabs (f x - x) <= u * Rabs x + eta).

(** how far the argument of a neuron can move for the sample x: weights w, bias b *)
Definition moves (x w : list R) (b : R) : R :=
  Rsum (map2 (fun xi wi => Rabs xi * (u * Rabs wi + eta)) x w) + (u * Rabs b + eta).
Definition group_moves (n : neuron) (x : list R) : list R :=
  map (fun j => moves x (map (fun row => entry row j) (n_W n)) (entry (n_B n) j)) (seq 0 (length (n_B n))).
Definition feature_moves (ns : list neuron) (x : list R) : list R := concat (map (fun n => group_moves n x) ns).

Lemma arg_moves : forall x w b,
  Rabs ((@dotv NumR x (map f w) + f b) - (@dotv NumR x w + b)) <= moves x w b.
Proof.
  intros x w b. unfold moves. replace (@dotv NumR x (map f w) + f b - (@dotv NumR x w + b)) with ((@dotv NumR x (map f w) - @dotv NumR x w) + (f b - b)) by ring.
  apply Rle_trans with (1 := Rabs_triang _ _). apply Rplus_le_compat; [|apply Hf].
  revert w. induction x as [|a x IH]; intros [|c w]; unfold dotv, nsum in *; cbn [map map2 fold_right nadd nmul n0 NumR num Rsum] in *;
    try (rewrite Rminus_eq_0, Rabs_R0; lra).
  specialize (IH w). match goal with |- Rabs (?p + ?q - (?r + ?s)) <= _ => replace (p + q - (r + s)) with ((p - r) + (q - s)) by ring end.
  apply Rle_trans with (1 := Rabs_triang _ _). apply Rplus_le_compat; [|exact IH].
  rewrite <- Rmult_minus_distr_l, Rabs_mult. apply Rmult_le_compat_l; [apply Rabs_pos|apply Hf].
Qed.

Lemma act_moves : forall t x w b, In t [Lin; Sigm; Tanh] ->
  Rabs (@act NumR t x (map f w) (f b) - @act NumR t x w b) <= moves x w b.
Proof.
  intros t x w b Ht. pose proof (arg_moves x w b) as HA.
  destruct Ht as [<-|[<-|[<-|[]]]]; cbn [act]; cbn [nadd ndiv n1 nexp ntanh NumR].
  - exact HA.
  - apply Rle_trans with (1 := sigm_lip _ _). exact HA.
  - apply Rle_trans with (1 := tanh_lip _ _). exact HA.
Qed.

Lemma group_moves_ok : forall i n x, wf_neuron i n -> In (n_func n) [Lin; Sigm; Tanh] ->
  length (group_moves n x) = n_num n /\ length (@nrow NumR n x) = n_num n /\ length (@nrow NumR (convert_neuron f n) x) = n_num n /\
  forall j, (j < n_num n)%nat -> Rabs (entry (@nrow NumR (convert_neuron f n) x) j - entry (@nrow NumR n x) j) <= entry (group_moves n x) j.
Proof.
  intros i n x [[HW1 HW2] HB] Ht. unfold group_moves, nrow, mkv. cbn [convert_neuron n_num n_func n_W n_B].
  rewrite !map_length, !seq_length. repeat split; auto. intros j Hj. rewrite HB.
  unfold entry. rewrite !(nth_map_lt _ (seq 0 (n_num n)) j 0%nat) by (rewrite seq_length; exact Hj). rewrite !seq_nth by exact Hj. cbn [Nat.add].
  match goal with |- Rabs (act _ _ ?m _ - _) <= _ => assert (m = map f (map (fun row => entry row j) (n_W n))) as -> end.
  { unfold mcol. rewrite !map_map. apply map_ext_in. intros r Hr. rewrite Forall_forall in HW2. specialize (HW2 r Hr).
    unfold vget, entry. cbn [num n0 NumR] in *. rewrite (nth_map_lt f r j 0 0) by lia. reflexivity. }
  match goal with |- Rabs (act _ _ _ ?v - _) <= _ => assert (v = f (entry (n_B n) j)) as -> end.
  { unfold vget, entry. cbn [num n0 NumR] in *. rewrite (nth_map_lt f (n_B n) j 0 0) by lia. reflexivity. }
  apply act_moves. exact Ht.
Qed.

Lemma features_move : forall i ns x, Forall (wf_neuron i) ns -> (forall n, In n ns -> In (n_func n) [Lin; Sigm; Tanh]) ->
  length (feature_moves ns x) = nneurons ns /\ length (@hrow NumR ns x) = nneurons ns /\
  length (@hrow NumR (map (convert_neuron f) ns) x) = nneurons ns /\
  forall j, (j < nneurons ns)%nat ->
    Rabs (entry (@hrow NumR (map (convert_neuron f) ns) x) j - entry (@hrow NumR ns x) j) <= entry (feature_moves ns x) j.
Proof.
  intros i ns x HF. unfold feature_moves, hrow, nneurons. induction HF as [|n ns Hn HF IH]; intros Ht.
  - cbn. split; [reflexivity|]. split; [reflexivity|]. split; [reflexivity|]. intros j Hj. lia.
  - destruct IH as (L1 & L2 & L3 & HB); [intros; apply Ht; now right|].
    destruct (group_moves_ok i n x Hn (Ht n (or_introl eq_refl))) as (M1 & M2 & M3 & MB).
    cbn [map concat list_sum fold_right] in *. rewrite !app_length. cbn [num NumR] in *.
    change (fold_right Init.Nat.add 0%nat (map n_num ns)) with (list_sum (map n_num ns)).
    split; [congruence|]. split; [congruence|]. split; [congruence|]. intros j Hj. unfold entry in *.
    destruct (Nat.lt_ge_cases j (n_num n)) as [Lj|Lj].
    + rewrite !app_nth1 by lia. now apply MB.
    + rewrite !app_nth2 by lia. rewrite M1, M2, M3. apply HB. lia.
Qed.

(** the bound for output k of the sample x *)
Definition output_moves (ns : list neuron) (B : list (list R)) (x : list R) (k : nat) : R :=
  Rsum (map (fun j => let b := Rabs (entry (nth j B []) k) in
    Rabs (entry (hrow ns x) j) * (u * b + eta) + entry (feature_moves ns x) j * (b + (u * b + eta))) (seq 0 (nneurons ns))).

Lemma Rsum_bound : forall (l : list nat) p q d, (forall j, In j l -> Rabs (p j - q j) <= d j) ->
  Rabs (Rsum (map p l) - Rsum (map q l)) <= Rsum (map d l).
Proof.
  induction l as [|a l IH]; intros p q d H; cbn [map].
  - cbn. rewrite Rminus_eq_0, Rabs_R0. lra.
  - assert (forall y r, Rsum (y :: r) = y + Rsum r) as C by reflexivity. rewrite !C. replace (p a + Rsum (map p l) - (q a + Rsum (map q l))) with ((p a - q a) + (Rsum (map p l) - Rsum (map q l))) by ring.
    apply Rle_trans with (1 := Rabs_triang _ _). apply Rplus_le_compat; [apply H; now left|]. apply IH. intros; apply H; now right.
Qed.

Theorem loaded_predictions : forall (g : R -> R) (e new : @elm NumR) B X Y,
  wf_net (e_net e) -> usable (e_net e) -> (forall n, In n (s_neurons (e_net e)) -> In (n_func n) [Lin; Sigm; Tanh]) ->
  s_B (e_net e) = Some B -> e_accel new = None -> elm_predict e (Arr2 (s_inputs (e_net e)) X) = Ok Y ->
  exists e' Y', load_as f g new (output_format e) = (e', Ok tt) /\ elm_predict e' (Arr2 (s_inputs (e_net e)) X) = Ok Y' /\
    length Y' = length X /\ length Y = length X /\
    forall i k, (i < length X)%nat -> (k < s_outputs (e_net e))%nat ->
      Rabs (entry (nth i Y' []) k - entry (nth i Y []) k) <= output_moves (s_neurons (e_net e)) B (nth i X []) k.
Proof.
  intros g e new B X Y HW HU Ht HB Ha HP.
  destruct (predict_wide _ _ _ _ HP) as [_ WX].
  destruct (@load_converts NumR NumR f g e new HW (or_introl (proj1 HU)) Ha) as (e' & E & O & HW' & _).
  pose proof (f_equal sv_inputs O) as E1. pose proof (f_equal sv_outputs O) as E2. pose proof (f_equal sv_neurons O) as E3. pose proof (f_equal sv_B O) as E4.
  cbn [output_format sv_inputs sv_outputs sv_neurons sv_B convert] in E1, E2, E3, E4. rewrite HB in E4. cbn [option_map] in E4.
  assert (usable (e_net e')) as HU'.
  { destruct HU as [U1 U2]. split; [rewrite E3; intros C; apply U1; destruct (s_neurons (e_net e)); [reflexivity|discriminate]|].
    rewrite E1, E3. clear -U2. induction (s_neurons (e_net e)) as [|n ns IH]; [reflexivity|]. cbn [map existsb] in *.
    apply Bool.orb_false_elim in U2 as [U2 U3]. rewrite (IH U3), Bool.orb_false_r. rewrite <- U2. unfold bad_group. cbn [convert_neuron n_func n_W]. now rewrite map_length. }
  pose proof (wf_weights _ HW) as WB. rewrite HB in WB. cbn [opt_shape] in WB. destruct WB as [LB RB].
  rewrite (predict_outputs e B X (wf_groups _ HW) HU HB LB WX) in HP. apply Ok_inj in HP. subst Y.
  assert (elm_predict e' (Arr2 (s_inputs (e_net e')) X) = Ok (outputs_of (s_outputs (e_net e')) (map (map f) B) (map (hidden e') X))) as HP'.
  { apply predict_outputs; auto; [apply (wf_groups _ HW')| |].
    - rewrite map_length, E3, conv_nneurons. exact LB.
    - rewrite E1. exact WX. }
  rewrite E1 in HP'. exists e', (outputs_of (s_outputs (e_net e')) (map (map f) B) (map (hidden e') X)). split; [exact E|]. split; [exact HP'|].
  unfold outputs_of. rewrite !map_length. split; [reflexivity|]. split; [reflexivity|].
  intros i k Hi Hk. rewrite !map_map. rewrite !(nth_map_lt _ X i [] []) by exact Hi.
  assert (length (seq 0 (s_outputs (e_net e))) = s_outputs (e_net e)) as LS by apply seq_length.
  unfold entry at 1 2. rewrite E2. rewrite !(nth_map_lt _ (seq 0 (s_outputs (e_net e))) k 0%nat 0) by (rewrite seq_length; exact Hk).
  rewrite !seq_nth by exact Hk. cbn [Nat.add]. set (x := nth i X []).
  destruct (features_move (s_inputs (e_net e)) (s_neurons (e_net e)) x (wf_groups _ HW) Ht) as (L1 & L2 & L3 & HF).
  unfold predict1, hidden. rewrite E3. cbn [num NumR] in *. rewrite L2, L3. unfold output_moves. apply Rsum_bound. intros j Hj. apply in_seq in Hj. cbv zeta.
  set (h' := entry (hrow (map (@convert_neuron NumR NumR f) (s_neurons (e_net e))) x) j). set (h := entry (hrow (s_neurons (e_net e)) x) j).
  set (b := entry (nth j B []) k).
  assert (entry (nth j (map (map f) B) []) k = f b) as ->.
  { rewrite (nth_map_lt (map f) B j [] []) by lia. unfold entry. rewrite Forall_forall in RB.
    assert (length (nth j B []) = s_outputs (e_net e)) as Lr by (apply RB, nth_In; lia). rewrite (nth_map_lt f _ k 0 0) by lia. reflexivity. }
  specialize (HF j ltac:(lia)). fold h h' in HF. pose proof (Hf b) as Hb.
  replace (h' * f b - h * b) with ((h' - h) * f b + h * (f b - b)) by ring.
  apply Rle_trans with (1 := Rabs_triang _ _). rewrite !Rabs_mult. rewrite Rplus_comm. apply Rplus_le_compat.
  - apply Rmult_le_compat_l; [apply Rabs_pos|exact Hb].
  - apply Rmult_le_compat; try apply Rabs_pos; [exact HF|].
    replace (f b) with (b + (f b - b)) by ring. apply Rle_trans with (1 := Rabs_triang _ _). lra.
Qed.
End Bound.
