(** Rational bounds of the exponential, and binary64 values of validation_corr's
    sizes for ten neurons (C79). *)
From Coq Require Import Reals Lra QArith Qreals.
From Verif Require Import Base Num Sizes.
Local Open Scope R_scope.

(** ** partial sums of the exponential series *)
Definition term (x : R) (i : nat) : R := / INR (fact i) * x ^ i.
Definition S_ (n : nat) (x : R) : R := sum_f_R0 (term x) n.

Lemma exp_cv : forall x, Un_cv (fun n => S_ n x) (exp x).
Proof. intros x. unfold exp, S_, term. destruct (exist_exp x) as [l H]. exact H. Qed.
Lemma term_ge0 : forall x i, 0 <= x -> 0 <= term x i.
Proof.
  intros x i Hx. unfold term. apply Rmult_le_pos; [|now apply pow_le]. left. apply Rinv_0_lt_compat, lt_0_INR, lt_O_fact.
Qed.
Lemma exp_lower : forall n x, 0 <= x -> S_ n x <= exp x.
Proof. intros n x Hx. unfold S_. apply sum_incr; [apply exp_cv|]. intros. now apply term_ge0. Qed.

Lemma fact_mul : forall a b, (fact a * fact b <= fact (a + b))%nat.
Proof.
  intros a b. induction a as [|a IH]; [cbn; lia|]. cbn [plus]. change (fact (S a)) with (S a * fact a)%nat. change (fact (S (a + b))) with (S (a + b) * fact (a + b))%nat. nia.
Qed.
Lemma term_mul : forall x a b, 0 <= x -> term x (a + b) <= term x a * term x b.
Proof.
  intros x a b Hx. unfold term. rewrite pow_add.
  assert (0 < INR (fact a)) by apply lt_0_INR, lt_O_fact. assert (0 < INR (fact b)) by apply lt_0_INR, lt_O_fact.
  replace (/ INR (fact a) * x ^ a * (/ INR (fact b) * x ^ b)) with (/ (INR (fact a) * INR (fact b)) * (x ^ a * x ^ b)) by (field; lra).
  apply Rmult_le_compat_r; [apply Rmult_le_pos; now apply pow_le|].
  apply Rinv_le_contravar; [now apply Rmult_lt_0_compat|]. rewrite <- mult_INR. apply le_INR, fact_mul.
Qed.
Lemma tail_bound : forall n m x, 0 <= x -> S_ (S n + m) x <= S_ n x + term x (S n) * S_ m x.
Proof.
  intros n m x Hx. unfold S_. induction m as [|m IH].
  - rewrite Nat.add_0_r. cbn [sum_f_R0]. apply Rplus_le_compat_l. pose proof (term_ge0 x (S n) Hx). unfold term at 3. cbn. lra.
  - rewrite <- plus_n_Sm. rewrite tech5. rewrite (tech5 (term x) m). rewrite plus_n_Sm. pose proof (term_mul x (S n) (S m) Hx). lra.
Qed.
Lemma exp_upper : forall n x, 0 <= x -> exp x * (1 - term x (S n)) <= S_ n x.
Proof.
  intros n x Hx. assert (exp x <= S_ n x + term x (S n) * exp x) as H; [|lra].
  apply (@Rle_cv_lim (fun m => S_ (S n + m) x) (fun m => S_ n x + term x (S n) * S_ m x)).
  - intros m. now apply tail_bound.
  - intros eps He. destruct (exp_cv x eps He) as [N HN]. exists N. intros m Hm. apply HN. lia.
  - apply CV_plus.
    + intros eps He. exists 0%nat. intros. unfold R_dist. rewrite Rminus_diag_eq by reflexivity. rewrite Rabs_R0. exact He.
    + apply CV_mult; [|apply exp_cv]. intros eps He. exists 0%nat. intros. unfold R_dist. rewrite Rminus_diag_eq by reflexivity. rewrite Rabs_R0. exact He.
Qed.

(** ** computed with rational numbers *)
(** 1 + x/k * (1 + x/(k+1) * (...)) *)
Fixpoint hq (fuel : nat) (k : positive) (x : Q) : Q :=
  match fuel with
  | 0%nat => 1
  | S f => 1 + x * hq f (Pos.succ k) x * (1 # k)
  end.
(** partial sum of n+1 terms *)
Definition SQ (n : nat) (x : Q) : Q := hq n 1 x.
(** (5/2)^n / n! *)
Fixpoint tq (n : nat) : Q :=
  match n with
  | 0%nat => 1
  | S m => tq m * (5 # 2 * Pos.of_nat n)
  end.

Lemma term_S : forall x i, term x (S i) = term x i * x / INR (S i).
Proof.
  intros x i. unfold term. change (fact (S i)) with (S i * fact i)%nat. rewrite mult_INR. cbn [pow].
  field. split; [apply INR_fact_neq_0|apply not_0_INR; lia].
Qed.
Lemma Q2R_1 : Q2R 1 = 1.
Proof. unfold Q2R. cbn. lra. Qed.
Lemma Q2R_inv_nat : forall i, Q2R (1 # Pos.of_nat (S i)) = / INR (S i).
Proof.
  intros i. unfold Q2R. cbn [Qnum Qden]. rewrite Rmult_1_l. f_equal. rewrite INR_IZR_INZ. f_equal. lia.
Qed.
Lemma hq_spec : forall f i x, term (Q2R x) i * Q2R (hq f (Pos.of_nat (S i)) x) = sum_f_R0 (fun j => term (Q2R x) (i + j)) f.
Proof.
  induction f as [|f IH]; intros i x.
  - cbn [hq sum_f_R0]. rewrite Q2R_1, Nat.add_0_r. ring.
  - rewrite (decomp_sum (fun j => term (Q2R x) (i + j))) by lia. cbn [pred]. rewrite Nat.add_0_r. cbn [hq].
    assert (Pos.succ (Pos.of_nat (S i)) = Pos.of_nat (S (S i))) as -> by lia.
    rewrite Q2R_plus, !Q2R_mult, Q2R_1, Q2R_inv_nat.
    transitivity (term (Q2R x) i + term (Q2R x) (S i) * Q2R (hq f (Pos.of_nat (S (S i))) x)).
    + rewrite (term_S _ i). unfold Rdiv. ring.
    + rewrite IH. f_equal. apply sum_eq. intros j _. f_equal. lia.
Qed.
Lemma SQ_spec : forall n x, Q2R (SQ n x) = S_ n (Q2R x).
Proof.
  intros n x. unfold SQ, S_. rewrite (sum_eq _ (fun j => term (Q2R x) (0 + j)) n) by (intros; reflexivity). rewrite <- hq_spec.
  unfold term. cbn [fact pow INR Pos.of_nat]. field.
Qed.
Lemma tq_spec : forall n, Q2R (tq n) = term (5 / 2) n.
Proof.
  induction n as [|n IH]; [unfold term; cbn; unfold Q2R; cbn; field|]. cbn [tq]. rewrite term_S, <- IH, Q2R_mult. unfold Rdiv. rewrite Rmult_assoc. f_equal.
  unfold Q2R. cbn [Qnum Qden]. rewrite (INR_IZR_INZ (S n)). assert (Z.of_nat (S n) = Zpos (Pos.of_nat (S n))) as -> by lia.
  rewrite Pos2Z.inj_mul, mult_IZR. field. apply not_0_IZR. discriminate.
Qed.
Lemma term_le : forall x y i, 0 <= x <= y -> term x i <= term y i.
Proof.
  intros x y i H. unfold term. apply Rmult_le_compat_l; [left; apply Rinv_0_lt_compat, lt_0_INR, lt_O_fact|]. now apply pow_incr.
Qed.
Lemma Qpos : forall x, Qle_bool 0 x = true -> 0 <= Q2R x.
Proof. intros x H. apply Qle_bool_iff in H. apply Qle_Rle in H. unfold Q2R in H at 1. cbn in H. lra. Qed.
Lemma exp_ge : forall n x y, Qle_bool 0 x = true -> Qle_bool y (SQ n x) = true -> Q2R y <= exp (Q2R x).
Proof.
  intros n x y Hx Hy. apply Qle_bool_iff in Hy. apply Qle_Rle in Hy. rewrite SQ_spec in Hy.
  pose proof (exp_lower n (Q2R x) (Qpos _ Hx)). lra.
Qed.
Lemma exp_le : forall n x y, Qle_bool 0 x = true -> Qle_bool x (5 # 2) = true -> Qle_bool (tq (S n)) (1 # 2) = true ->
  Qle_bool (SQ n x) (y * (1 - tq (S n))) = true -> exp (Q2R x) <= Q2R y.
Proof.
  intros n x y Hx Hx2 Ht Hy. apply Qle_bool_iff in Hy, Ht, Hx2. apply Qle_Rle in Hy, Ht, Hx2.
  rewrite Q2R_mult, Q2R_minus, SQ_spec, tq_spec, Q2R_1 in Hy. rewrite tq_spec in Ht.
  assert (Q2R (1 # 2) = 1 / 2) as EH by (unfold Q2R; cbn; lra). rewrite EH in Ht.
  assert (Q2R (5 # 2) = 5 / 2) as E5 by (unfold Q2R; cbn; lra). rewrite E5 in Hx2.
  pose proof (term_le (Q2R x) (5 / 2) (S n) (conj (Qpos _ Hx) Hx2)) as HT.
  pose proof (exp_upper n (Q2R x) (Qpos _ Hx)) as HU.
  assert (exp (Q2R x) * (1 - term (5 / 2) (S n)) <= exp (Q2R x) * (1 - term (Q2R x) (S n))).
  { apply Rmult_le_compat_l; [left; apply exp_pos|lra]. }
  apply (Rmult_le_reg_r (1 - term (5 / 2) (S n))); lra.
Qed.

(** ** binary64 *)
(** y is the binary64 number nearest to x (positive normal numbers) *)
Definition round64 (x y : R) : Prop :=
  exists m e, (2 ^ 52 <= m < 2 ^ 53)%Z /\ y = IZR m * powerRZ 2 e /\ Rabs (x - y) <= powerRZ 2 e / 2.

Lemma Q2R_ratio : forall a b, Q2R (a # b) = IZR a / IZR (Zpos b).
Proof. reflexivity. Qed.

(** np.e *)
Definition e64 : Q := 6121026514868073 # 2251799813685248.
(** np.log(10) *)
Definition log10 : Q := 5184960683398422 # 2251799813685248.
(** np.e ** np.log(10) *)
Definition ten64 : Q := 5629499534213121 # 562949953421312.

Lemma pw_neg : forall p, powerRZ 2 (Zneg p) = / IZR (2 ^ Zpos p).
Proof. intros p. cbn [powerRZ]. rewrite pow_IZR. rewrite positive_nat_Z. reflexivity. Qed.

Lemma Rabs_between : forall x y d, y - d <= x <= y + d -> Rabs (x - y) <= d.
Proof. intros x y d H. unfold Rabs. destruct (Rcase_abs (x - y)); lra. Qed.

Lemma e64_round : round64 (exp 1) (Q2R e64).
Proof.
  exists 6121026514868073%Z, (-51)%Z. split; [split; [discriminate|reflexivity]|]. rewrite pw_neg. split; [reflexivity|].
  apply Rabs_between.
  assert (Q2R 1 = 1) as E1 by (unfold Q2R; cbn; lra).
  pose proof (exp_ge 27 1 (e64 - (1 # 4503599627370496)) eq_refl ltac:(vm_compute; reflexivity)) as HL.
  pose proof (exp_le 27 1 (e64 + (1 # 4503599627370496)) eq_refl eq_refl ltac:(vm_compute; reflexivity) ltac:(vm_compute; reflexivity)) as HU.
  rewrite E1 in HL, HU. rewrite Q2R_minus in HL. rewrite Q2R_plus in HU. rewrite (Q2R_ratio 1) in HL, HU.
  change (IZR (2 ^ 51)) with 2251799813685248. lra.
Qed.

Lemma log10_round : round64 (ln 10) (Q2R log10).
Proof.
  exists 5184960683398422%Z, (-51)%Z. split; [split; [discriminate|reflexivity]|]. rewrite pw_neg. split; [reflexivity|].
  unfold log10. apply Rabs_between. change (IZR (2 ^ 51)) with 2251799813685248.
  assert (Q2R 10 = 10) as E1 by (unfold Q2R; cbn; lra).
  pose proof (exp_le 27 (10369921366796843 # 4503599627370496) 10 eq_refl ltac:(vm_compute; reflexivity) ltac:(vm_compute; reflexivity) ltac:(vm_compute; reflexivity)) as HL.
  pose proof (exp_ge 27 (10369921366796845 # 4503599627370496) 10 eq_refl ltac:(vm_compute; reflexivity)) as HU.
  rewrite E1 in HL, HU. rewrite Q2R_ratio in HL, HU. rewrite Q2R_ratio.
  apply ln_mono in HL; [|apply exp_pos]. apply ln_mono in HU; [|lra]. rewrite ln_exp in HL, HU. lra.
Qed.

Lemma ten64_round : round64 (Rpower (Q2R e64) (Q2R log10)) (Q2R ten64).
Proof.
  exists 5629499534213121%Z, (-49)%Z. split; [split; [discriminate|reflexivity]|]. rewrite pw_neg. split; [reflexivity|].
  apply Rabs_between. change (IZR (2 ^ 49)) with 562949953421312.
  set (a := (999999999999999946 # 1000000000000000000)%Q). set (b := (999999999999999947 # 1000000000000000000)%Q).
  assert (Q2R a <= ln (Q2R e64)) as HA.
  { rewrite <- (ln_exp (Q2R a)). apply ln_mono; [apply exp_pos|]. apply (exp_le 27); vm_compute; reflexivity. }
  assert (ln (Q2R e64) <= Q2R b) as HB.
  { rewrite <- (ln_exp (Q2R b)). apply ln_mono; [unfold Q2R, e64; cbn [Qnum Qden]; lra|]. apply (exp_ge 27); vm_compute; reflexivity. }
  assert (0 <= Q2R log10) as HL by (unfold Q2R, log10; cbn [Qnum Qden]; lra).
  unfold Rpower. split.
  - apply Rle_trans with (exp (Q2R (331837483737498990 # 144115188075855872))).
    + apply Rle_trans with (Q2R (ten64 - (1 # 1125899906842624))).
      * rewrite Q2R_minus, (Q2R_ratio 1). lra.
      * apply (exp_ge 27); vm_compute; reflexivity.
    + apply exp_mono. apply Rle_trans with (Q2R (log10 * a)); [apply Qle_Rle, Qle_bool_iff; vm_compute; reflexivity|].
      rewrite Q2R_mult. now apply Rmult_le_compat_l.
  - apply Rle_trans with (exp (Q2R (331837483737498991 # 144115188075855872))).
    + apply exp_mono. apply Rle_trans with (Q2R (log10 * b)); [|apply Qle_Rle, Qle_bool_iff; vm_compute; reflexivity].
      rewrite Q2R_mult. now apply Rmult_le_compat_l.
    + apply Rle_trans with (Q2R (ten64 + (1 # 1125899906842624))).
      * apply (exp_le 27); vm_compute; reflexivity.
      * rewrite Q2R_plus, (Q2R_ratio 1). lra.
Qed.

Theorem sizes_ten : exists e y v,
  round64 (exp 1) e /\ round64 (ln (INR 10)) y /\ round64 (Rpower e y) v /\ forall vs, In v vs -> In 11%nat (sizes_of vs).
Proof.
  exists (Q2R e64), (Q2R log10), (Q2R ten64). split; [apply e64_round|]. split.
  { replace (INR 10) with 10 by (cbn; lra). apply log10_round. }
  split; [apply ten64_round|]. intros vs Hv. unfold sizes_of. apply in_unique, in_map_iff. exists (Q2R ten64). split; [|exact Hv].
  apply ceil_eq. unfold Q2R, ten64. cbn [Qnum Qden Z.of_nat Pos.of_succ_nat Pos.succ]. lra.
Qed.
