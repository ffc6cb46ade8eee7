(** Values of the neurons' transformation functions over the reals (C12, C50, C51),
    prediction as features times output weights (C14). *)
From Coq Require Import Reals Lra Permutation.
From Verif Require Import Base Num Mat LinAlg Slfn Strs Elm MatFacts SplitProofs Spec ElmFacts RLin AccProofs WfProofs NeuronThms.
Local Open Scope R_scope.
#[local] Existing Instance NumR.

(** ** Specification: the documented formulas *)
(** x . w *)
Definition inner (n : nat) (x w : list R) : R := Rsum (map (fun i => entry x i * entry w i) (seq 0 n)).
(** m is the maximum of f over 0..n-1 (0 if n = 0) *)
Definition is_maximum (n : nat) (f : nat -> R) (m : R) : Prop :=
  (forall i, (i < n)%nat -> f i <= m) /\ ((n = 0%nat /\ m = 0) \/ exists i, (i < n)%nat /\ m = f i).

Definition neuron_value (n : nat) (f : ftype) (x w : list R) (b v : R) : Prop :=
  match f with
  | Lin => v = inner n x w + b
  | Sigm => v = 1 / (1 + exp (inner n x w + b))     (* as in the code, see C51 *)
  | Tanh => v = tanh (inner n x w + b)
  | RbfL1 => v = exp (- (Rsum (map (fun i => Rabs (entry x i - entry w i)) (seq 0 n))) ^ 2 / b)
  | RbfL2 => v = exp (- Rsum (map (fun i => (entry x i - entry w i) ^ 2) (seq 0 n)) / b)
  | RbfLinf => exists m, is_maximum n (fun i => Rabs (entry x i - entry w i)) m /\ v = exp (- m ^ 2 / b)
  | Ufunc _ => True
  end.

Lemma map2_seq : forall {C} (f : R -> R -> C) (x w : list R) n, length x = n -> length w = n ->
  map2 f x w = map (fun i => f (entry x i) (entry w i)) (seq 0 n).
Proof.
  intros C f x. induction x as [|a x IH]; intros [|b w] [|n] H1 H2; cbn in *; try discriminate; auto.
  f_equal. rewrite <- seq_shift, map_map. apply IH; lia.
Qed.
Lemma dotv_inner : forall (x w : list R) n, length x = n -> length w = n -> dotv x w = inner n x w.
Proof. intros x w n H1 H2. unfold dotv, inner. rewrite (map2_seq _ x w n H1 H2). reflexivity. Qed.

Lemma fold_max : forall l : list R, (forall a, In a l -> 0 <= a) ->
  (forall a, In a l -> a <= fold_right (@nmax NumR) 0 l) /\ 0 <= fold_right (@nmax NumR) 0 l /\
  (fold_right (@nmax NumR) 0 l = 0 \/ In (fold_right (@nmax NumR) 0 l) l).
Proof.
  induction l as [|a l IH]; intros H; cbn [fold_right].
  - split; [intros a []|]. split; [lra|]. auto.
  - destruct IH as (I1 & I2 & I3); [intros; apply H; right; auto|]. set (m := fold_right (@nmax NumR) 0 l) in *.
    pose proof (H a (or_introl eq_refl)) as Ha.
    unfold nmax. change (@nltb NumR a m) with (Rltb a m). destruct (Rltb a m) eqn:E.
    + apply Rltb_spec in E. repeat split; auto.
      * intros y [<-|Hy]; [lra|auto].
      * destruct I3; [auto|right; right; auto].
    + apply Rltb_false in E. repeat split; auto.
      * intros y [<-|Hy]; [lra|]. specialize (I1 y Hy). lra.
      * right. left. auto.
Qed.

Lemma Rsum_nonneg : forall l, (forall a, In a l -> 0 <= a) -> 0 <= Rsum l.
Proof. intros. rewrite Rsum_N. now apply nsum_nonneg. Qed.

Lemma act_value : forall n f (x w : list R) b, length x = n -> length w = n -> neuron_value n f x w b (act f x w b).
Proof.
  intros n f x w b Hx Hw. destruct f; cbn [neuron_value act]; auto.
  - rewrite (dotv_inner x w n) by auto. reflexivity.
  - rewrite (dotv_inner x w n) by auto. reflexivity.
  - rewrite (dotv_inner x w n) by auto. reflexivity.
  - rewrite (map2_seq _ x w n Hx Hw). unfold nsq. cbn. change (@nsum NumR) with Rsum. f_equal. f_equal. ring.
  - rewrite (map2_seq _ x w n Hx Hw). unfold nsq. cbn.
    f_equal. f_equal. f_equal. rewrite sqrt_sqrt.
    + change (@nsum NumR) with Rsum. f_equal. apply map_ext. intros. ring.
    + apply nsum_nonneg. intros y Hy. apply in_map_iff in Hy. destruct Hy as (i & <- & _). apply Rle_0_sqr.
  - rewrite (map2_seq _ x w n Hx Hw). set (l := map _ _).
    destruct (fold_max l) as (I1 & I2 & I3).
    { intros a Ha. apply in_map_iff in Ha. destruct Ha as (i & <- & _). apply Rabs_pos. }
    exists (fold_right (@nmax NumR) 0 l). split.
    + split.
      * intros i Hi. apply I1. apply in_map_iff. exists i. split; auto. apply in_seq. lia.
      * destruct I3 as [E|Hin].
        -- destruct n as [|n]; [left; auto|]. right. exists 0%nat. split; [lia|]. rewrite E.
           assert (Rabs (entry x 0 - entry w 0) <= 0) as Hle.
           { rewrite <- E. apply I1. apply in_map_iff. exists 0%nat. split; auto. apply in_seq. lia. }
           pose proof (Rabs_pos (entry x 0 - entry w 0)). lra.
        -- right. apply in_map_iff in Hin. destruct Hin as (i & E & Hi). apply in_seq in Hi. exists i. split; [lia|]. symmetry; exact E.
    + unfold nsq. cbn. f_equal. f_equal. ring.
Qed.

(** ** C50 *)
Lemma tanh_range : forall z, -1 < tanh z < 1.
Proof.
  intros z. unfold tanh, sinh, cosh. pose proof (exp_pos z). pose proof (exp_pos (- z)).
  split.
  - apply Rmult_lt_reg_r with ((exp z + exp (- z)) / 2); [lra|]. field_simplify; lra.
  - apply Rmult_lt_reg_r with ((exp z + exp (- z)) / 2); [lra|]. field_simplify; lra.
Qed.

Lemma sigm_range : forall z, 0 < 1 / (1 + exp z) < 1.
Proof.
  intros z. pose proof (exp_pos z). split.
  - apply Rdiv_lt_0_compat; lra.
  - apply Rmult_lt_reg_r with (1 + exp z); [lra|]. field_simplify; lra.
Qed.

Lemma exp_neg_range : forall d b, 0 < b -> 0 <= d -> 0 < exp (- d / b) <= 1 /\ (exp (- d / b) = 1 <-> d = 0).
Proof.
  intros d b Hb Hd. assert (0 <= d / b) as Hq by (apply Rmult_le_pos; [lra|]; left; now apply Rinv_0_lt_compat).
  replace (- d / b) with (- (d / b)) by (field; lra). split; [split; [apply exp_pos|]|split].
  - rewrite <- exp_0. destruct (Req_dec (d / b) 0) as [->|]; [rewrite Ropp_0; lra|]. left. apply exp_increasing. lra.
  - intros E. rewrite <- exp_0 in E. apply exp_inv in E. apply Rmult_eq_reg_r with (/ b); [|apply Rinv_neq_0_compat; lra].
    unfold Rdiv in E. lra.
  - intros ->. unfold Rdiv. rewrite Rmult_0_l, Ropp_0. apply exp_0.
Qed.

Lemma Rsum_zero : forall l, (forall a, In a l -> 0 <= a) -> Rsum l = 0 -> forall a, In a l -> a = 0.
Proof.
  induction l as [|x l IH]; intros H E a Ha; [destruct Ha|]. unfold Rsum in E. cbn [fold_right] in E.
  fold (Rsum l) in E. pose proof (H x (or_introl eq_refl)).
  assert (0 <= Rsum l) by (apply Rsum_nonneg; intros; apply H; right; auto).
  destruct Ha as [<-|Ha]; [lra|]. apply IH; auto; [intros; apply H; right; auto|lra].
Qed.

Lemma Rsum_all0 : forall l, (forall a, In a l -> a = 0) -> Rsum l = 0.
Proof.
  induction l as [|x l IH]; intros H; [reflexivity|]. unfold Rsum in *. cbn [fold_right].
  rewrite IH by (intros; apply H; right; auto). rewrite (H x) by (left; auto). ring.
Qed.

Lemma same_vec : forall (x w : list R) n, length x = n -> length w = n ->
  (forall i, (i < n)%nat -> entry x i = entry w i) -> x = w.
Proof. intros x w n H1 H2 H. apply list_ext with (d := 0); [lia|]. intros i Hi. apply H. cbn [num NumR] in *. lia. Qed.

Lemma abs_zero : forall a b, Rabs (a - b) = 0 -> a = b.
Proof. intros a b H. destruct (Req_dec (a - b) 0); [lra|]. apply Rabs_no_R0 in H0. lra. Qed.

Lemma act_ranges : forall n f (x w : list R) b, length x = n -> length w = n ->
  match f with
  | Sigm => 0 < act f x w b < 1
  | Tanh => -1 < act f x w b < 1
  | RbfL1 | RbfL2 | RbfLinf => 0 < b -> 0 < act f x w b <= 1 /\ (act f x w b = 1 <-> x = w)
  | _ => True
  end.
Proof.
  intros n f x w b Hx Hw. pose proof (act_value n f x w b Hx Hw) as V. destruct f; cbn [neuron_value] in V; auto.
  - rewrite V. apply sigm_range.
  - rewrite V. apply tanh_range.
  - intros Hb. rewrite V. set (d := Rsum _).
    assert (0 <= d) as Hd. { apply Rsum_nonneg. intros a Ha. apply in_map_iff in Ha. destruct Ha as (i & <- & _). apply Rabs_pos. }
    destruct (exp_neg_range (d ^ 2) b Hb (pow2_ge_0 d)) as [E1 E2]. split; auto.
    rewrite E2. split.
    + intros E. assert (d = 0) as E' by nra. apply (same_vec x w n Hx Hw). intros i Hi. apply abs_zero.
      unfold d in E'. eapply Rsum_zero in E'; [exact E'| |].
      * intros a Ha. apply in_map_iff in Ha. destruct Ha as (j & <- & _). apply Rabs_pos.
      * apply in_map_iff. exists i. split; auto. apply in_seq. lia.
    + intros ->. assert (d = 0) as ->; [|ring]. unfold d. apply Rsum_all0. intros a Ha. apply in_map_iff in Ha. destruct Ha as (i & <- & _).
      replace (entry w i - entry w i) with 0 by ring. apply Rabs_R0.
  - intros Hb. rewrite V. set (d := Rsum _).
    assert (0 <= d) as Hd. { apply Rsum_nonneg. intros a Ha. apply in_map_iff in Ha. destruct Ha as (i & <- & _). apply pow2_ge_0. }
    destruct (exp_neg_range d b Hb Hd) as [E1 E2]. split; auto.
    rewrite E2. split.
    + intros E'. apply (same_vec x w n Hx Hw). intros i Hi.
      unfold d in E'. assert ((entry x i - entry w i) ^ 2 = 0); [|nra]. eapply Rsum_zero in E'; [exact E'| |].
      * intros a Ha. apply in_map_iff in Ha. destruct Ha as (j & <- & _). apply pow2_ge_0.
      * apply in_map_iff. exists i. split; auto. apply in_seq. lia.
    + intros ->. unfold d. apply Rsum_all0. intros a Ha. apply in_map_iff in Ha. destruct Ha as (i & <- & _). ring.
  - intros Hb. destruct V as (m & (M1 & M2) & ->).
    destruct (exp_neg_range (m ^ 2) b Hb (pow2_ge_0 m)) as [E1 E2]. split; auto. rewrite E2. split.
    + intros E. assert (m = 0) as -> by nra. apply (same_vec x w n Hx Hw). intros i Hi. apply abs_zero.
      specialize (M1 i Hi). pose proof (Rabs_pos (entry x i - entry w i)). lra.
    + intros ->. destruct M2 as [[_ ->]|(i & _ & ->)]; [ring|]. replace (entry w i - entry w i) with 0 by ring.
      rewrite Rabs_R0. ring.
Qed.

(** ** C51 *)
Definition logistic (z : R) : R := 1 / (1 + exp (- z)).

Lemma sigm_mirrored : forall n (x w : list R) b, length x = n -> length w = n ->
  act Sigm x w b = logistic (- (inner n x w + b)).
Proof.
  intros n x w b Hx Hw. rewrite (act_value n Sigm x w b Hx Hw). unfold logistic. now rewrite Ropp_involutive.
Qed.

Lemma inner_opp : forall n x w, inner n x (map Ropp w) = - inner n x w.
Proof.
  intros. unfold inner, Rsum. induction (seq 0 n) as [|i l IH]; cbn [map fold_right]; [ring|].
  rewrite IH. unfold entry.
  assert (nth i (map Ropp w) 0 = - nth i w 0) as ->.
  { rewrite <- (map_nth Ropp). f_equal. ring. }
  ring.
Qed.

(** the same family of functions: negate weights and bias *)
Lemma sigm_negated : forall n (x w : list R) b, length x = n -> length w = n ->
  act Sigm x (map Ropp w) (- b) = logistic (inner n x w + b).
Proof.
  intros n x w b Hx Hw. rewrite (sigm_mirrored n) by (auto; now rewrite map_length). rewrite inner_opp. f_equal. ring.
Qed.

Lemma sigm_wrong : act Sigm [1] [1] 0 <> logistic (inner 1 [1] [1] + 0).
Proof.
  rewrite (sigm_mirrored 1 [1] [1] 0) by reflexivity. unfold logistic, inner. cbn.
  replace (1 * 1 + 0 + 0) with 1 by ring. rewrite Ropp_involutive.
  assert (exp (- 1) < exp 1) by (apply exp_increasing; lra). pose proof (exp_pos (- 1)). pose proof (exp_pos 1).
  intros E. set (u := exp 1) in *. set (v := exp (- 1)) in *. 
  assert ((1 + u) * (1 + v) * (1 / (1 + u)) = (1 + u) * (1 + v) * (1 / (1 + v))) as E2 by now rewrite E.
  replace ((1 + u) * (1 + v) * (1 / (1 + u))) with (1 + v) in E2 by (field; lra).
  replace ((1 + u) * (1 + v) * (1 / (1 + v))) with (1 + u) in E2 by (field; lra). lra.
Qed.

(** ** C14 *)
Section Predict.
Context {SG : Sing}.
Theorem predict_value : forall e c X H B, wf_net (e_net e) -> elm_project e (Arr2 c X) = Ok H ->
  s_B (e_net e) = Some B ->
  elm_predict e (Arr2 c X) = Ok (map (fun h => map (predict1 B h) (seq 0 (s_outputs (e_net e)))) H).
Proof.
  intros e c X H B HW E EB. unfold elm_predict, elm_project, check_arr in *. destruct (c =? _)%nat; [|discriminate].
  cbn [rbind] in *. unfold predict. rewrite EB, E. cbn [rbind]. f_equal.
  apply project_inv in E. destruct E as (_ & _ & ->). unfold mmul. rewrite !map_map. apply map_ext. intros x.
  unfold mkv. apply map_ext. intros k. pose proof (wf_weights _ HW) as HB. rewrite EB in HB. destruct HB as [HB _].
  unfold predict1. pose proof (hrow_length _ _ x (wf_groups _ HW)) as HL. cbn [num NumR] in *. rewrite HL.
  unfold dotv. rewrite (map2_seq _ _ _ (nneurons (s_neurons (e_net e)))).
  - change (@nsum NumR) with Rsum. f_equal. apply map_ext_in. intros i Hi. apply in_seq in Hi. unfold entry.
    change (nth i (@mcol NumR B k) 0) with (@vget NumR (@mcol NumR B k) i). etransitivity; [apply f_equal; apply (@vget_mcol NumR)|reflexivity]. cbn [num NumR] in *. lia.
  - exact HL.
  - etransitivity; [apply (@mcol_length NumR)|]. exact HB.
Qed.
End Predict.
