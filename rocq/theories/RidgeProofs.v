(** The solvers return the ridge solution (reals). *)
From Coq Require Import Reals Lra Permutation.
From Verif Require Import Base Num Mat LinAlg Slfn MatFacts RLin Spec AccProofs.
Local Open Scope R_scope.
#[local] Existing Instance NumR.

Definition good (L : nat) (ss : list sample) : Prop :=
  forall s, In s ss -> 0 <= sm_w s /\ length (sm_h s) = L.
Definition nonneg (ss : list sample) : Prop := forall s, In s ss -> 0 <= sm_w s.

Notation vR := (@vget NumR).
Notation mR := (@mget NumR).
(** sum over samples of sum over an index *)
Notation SS ss f := (N_ (map f ss)).

Lemma nsum_map_scal_r : forall {A} a (f : A -> num) l, N_ (map (fun x => f x * a) l) = N_ (map f l) * a.
Proof. induction l; [cbn; rlra|]. cbn [map]. rewrite !nsum_cons. rlra. Qed.
Lemma nsum_map_sub : forall {A} (f g : A -> num) l, N_ (map (fun a => f a - g a) l) = N_ (map f l) - N_ (map g l).
Proof. induction l; [cbn; rlra|]. cbn [map]. rewrite !nsum_cons. rlra. Qed.

(** (sum_i a_i)^2 *)
Lemma sum_sq : forall n f, S_ n f * S_ n f = S_ n (fun i => S_ n (fun j => f i * f j)).
Proof.
  intros. rewrite <- sum_scal_r. apply sum_ext. intros. now rewrite sum_scal.
Qed.

Definition dotS (L : nat) (h : list R) (x : nat -> R) : R := S_ L (fun i => vR h i * x i).

Lemma quad_spec : forall L norm ss x,
  quad L (mR (spec_HH L norm ss)) x =
  norm * S_ L (fun i => x i * x i) + SS ss (fun s => sm_w s * (dotS L (sm_h s) x * dotS L (sm_h s) x)).
Proof.
  intros. unfold quad.
  transitivity (S_ L (fun i => S_ L (fun j => (if (i =? j)%nat then norm * (x i * x j) else 0) +
     SS ss (fun s => sm_w s * ((vR (sm_h s) i * x i) * (vR (sm_h s) j * x j)))))).
  { apply sum_ext; intros i Hi. apply sum_ext; intros j Hj.
    rewrite spec_HH_mk, mget_mk by auto.
    rewrite Rmult_plus_distr_l, Rmult_plus_distr_r. f_equal.
    - destruct (i =? j)%nat; ring.
    - rewrite <- nsum_map_scal. rewrite <- nsum_map_scal_r. apply nsum_map_ext. intros; rring. }
  transitivity (S_ L (fun i => norm * (x i * x i)) +
     S_ L (fun i => S_ L (fun j => SS ss (fun s => sm_w s * ((vR (sm_h s) i * x i) * (vR (sm_h s) j * x j)))))).
  { rewrite <- sum_add. apply sum_ext; intros i Hi. rewrite sum_add. f_equal.
    rewrite <- (sum_delta L i (fun j => norm * (x i * x j))) by auto.
    apply sum_ext. intros j Hj. rewrite Nat.eqb_sym. reflexivity. }
  rewrite sum_scal. f_equal.
  transitivity (S_ L (fun i => SS ss (fun s => S_ L (fun j => sm_w s * ((vR (sm_h s) i * x i) * (vR (sm_h s) j * x j)))))).
  { apply sum_ext; intros. symmetry. apply (nsum_sum_swap L (fun s j => sm_w s * ((vR (sm_h s) i * x i) * (vR (sm_h s) j * x j)))). }
  etransitivity; [symmetry; apply (nsum_sum_swap L (fun s i => S_ L (fun j => sm_w s * ((vR (sm_h s) i * x i) * (vR (sm_h s) j * x j)))))|].
  apply nsum_map_ext. intros s _. unfold dotS. rewrite sum_sq, <- sum_scal.
  apply sum_ext; intros. rewrite sum_scal. reflexivity.
Qed.

Lemma PD_spec : forall L norm ss, 0 < norm -> nonneg ss -> PD L (mR (spec_HH L norm ss)).
Proof.
  intros L norm ss Hn Hp x [k [Hk Hx]]. rewrite quad_spec.
  assert (0 < S_ L (fun i => x i * x i)).
  { destruct (Rle_lt_or_eq_dec 0 (S_ L (fun i => x i * x i))) as [H|H]; auto.
    - apply sum_nonneg. intros. apply Rle_0_sqr.
    - exfalso. symmetry in H. pose proof (sum_nonneg_zero L _ ltac:(intros; apply Rle_0_sqr) H k Hk) as E.
      apply Rsqr_0_uniq in E. auto. }
  assert (0 <= SS ss (fun s => sm_w s * (dotS L (sm_h s) x * dotS L (sm_h s) x))).
  { apply nsum_nonneg. intros y Hy. apply in_map_iff in Hy. destruct Hy as [s [<- Hs]].
    specialize (Hp s Hs). apply Rmult_le_pos; [auto|apply Rle_0_sqr]. }
  rn. nra.
Qed.

(** reading the upper triangle of what the solver holds *)
Lemma U_holds : forall k L HH M, holds k L HH M ->
  (forall i j, (i < L)%nat -> (j < L)%nat -> mR M i j = mR M j i) ->
  forall i j, (i < L)%nat -> (j < L)%nat -> U HH i j = mR M i j.
Proof.
  intros k L HH M [_ H] Hs i j Hi Hj. unfold U. rewrite H by lia.
  assert ((Nat.min i j <=? Nat.max i j)%nat = true) as -> by (apply Nat.leb_le; lia).
  cbn [orb]. destruct (Nat.le_ge_cases i j).
  - rewrite Nat.min_l, Nat.max_r by auto. auto.
  - rewrite Nat.min_r, Nat.max_l by auto. auto.
Qed.

Lemma tdot_sum : forall n p q A B i j, length A = n -> length B = n -> (i < p)%nat -> (j < q)%nat ->
  mR (tdot p q A B) i j = S_ n (fun r => mR A r i * mR B r j).
Proof.
  intros n p q A B i j HA HB Hi Hj. unfold tdot. rewrite mget_mk by auto. subst n.
  clear Hi Hj. revert B HB. induction A as [|a A IH]; intros [|b B] HB; cbn [length] in *; try discriminate.
  - reflexivity.
  - cbn [map2]. rewrite nsum_cons, sum_S. rewrite IH by auto. reflexivity.
Qed.

(** a nonsingular symmetric matrix through its normal equations *)
Lemma normal_PD : forall n A, is_mat n n A ->
  (forall x : nat -> R, (forall i, (i < n)%nat -> S_ n (fun j => mR A i j * x j) = 0) ->
     forall j, (j < n)%nat -> x j = 0) ->
  PD n (U (tdot n n A A)).
Proof.
  intros n A [HA _] Hinj x [k [Hk Hx]].
  assert (forall i j, (i < n)%nat -> (j < n)%nat -> U (tdot n n A A) i j = S_ n (fun r => mR A r i * mR A r j)) as E.
  { intros i j Hi Hj. unfold U. rewrite (tdot_sum n) by (auto; lia).
    destruct (Nat.le_ge_cases i j).
    - rewrite Nat.min_l, Nat.max_r by auto. auto.
    - rewrite Nat.min_r, Nat.max_l by auto. apply sum_ext; intros; rring. }
  rewrite (quad_ext n _ _ x E).
  assert (quad n (fun i j => S_ n (fun r => mR A r i * mR A r j)) x =
          S_ n (fun r => S_ n (fun i => mR A r i * x i) * S_ n (fun i => mR A r i * x i))) as ->.
  { unfold quad. transitivity (S_ n (fun i => S_ n (fun r => S_ n (fun j => (mR A r i * x i) * (mR A r j * x j))))).
    - apply sum_ext; intros i Hi. rewrite sum_swap. apply sum_ext; intros j Hj.
      rewrite <- sum_scal. rewrite <- sum_scal_r. apply sum_ext; intros. rring.
    - rewrite sum_swap. apply sum_ext; intros r Hr. now rewrite sum_sq. }
  destruct (Rle_lt_or_eq_dec 0 (S_ n (fun r => S_ n (fun i => mR A r i * x i) * S_ n (fun i => mR A r i * x i)))) as [H|H]; auto.
  - apply sum_nonneg; intros. apply Rle_0_sqr.
  - exfalso. apply Hx. apply Hinj; auto. intros i Hi.
    pose proof (sum_nonneg_zero n _ ltac:(intros; apply Rle_0_sqr) (eq_sym H) i Hi) as Z0. apply Rsqr_0_uniq in Z0. exact Z0.
Qed.

Definition msolves (n c : nat) (A X Y : mat) : Prop :=
  forall i k, (i < n)%nat -> (k < c)%nat -> S_ n (fun j => mR A i j * mR X j k) = mR Y i k.

(** A invertible (on functions) with the transpose injective too *)
Definition minj (n : nat) (A : nat -> nat -> R) : Prop :=
  forall x : nat -> R, (forall i, (i < n)%nat -> S_ n (fun j => A i j * x j) = 0) ->
    forall j, (j < n)%nat -> x j = 0.

Lemma PD_minj : forall n A, PD n A -> minj n A.
Proof.
  intros n A H x Hx j Hj. apply (PD_inj n A x (fun _ => 0)); auto.
  intros i Hi. rewrite Hx by auto. symmetry. apply sum_zero. intros; rring.
Qed.

Lemma U_tdot : forall n A i j, length A = n -> (i < n)%nat -> (j < n)%nat ->
  U (tdot n n A A) i j = S_ n (fun r => mR A r i * mR A r j).
Proof.
  intros n A i j HA Hi Hj. unfold U. rewrite (tdot_sum n) by (auto; lia).
  destruct (Nat.le_ge_cases i j).
  - rewrite Nat.min_l, Nat.max_r by auto. auto.
  - rewrite Nat.min_r, Nat.max_l by auto. apply sum_ext; intros; rring.
Qed.

(** solutions of A'A X = A'Y solve A X = Y when A' is injective *)
Lemma normal_solves : forall n c A X Y, is_mat n n A -> minj n (fun i j => mR A j i) ->
  (forall i k, (i < n)%nat -> (k < c)%nat ->
     S_ n (fun j => U (tdot n n A A) i j * mR X j k) = S_ n (fun r => mR A r i * mR Y r k)) ->
  msolves n c A X Y.
Proof.
  intros n c A X Y [HA _] Hinj H i k Hi Hk.
  assert (S_ n (fun j => mR A i j * mR X j k) - mR Y i k = 0); [|rlra].
  apply (Hinj (fun i => S_ n (fun j => mR A i j * mR X j k) - mR Y i k)); auto.
  intros p Hp. transitivity (S_ n (fun r => mR A r p * S_ n (fun j => mR A r j * mR X j k))
     - S_ n (fun r => mR A r p * mR Y r k)).
  { rewrite <- sum_sub. apply sum_ext; intros; rring. }
  rewrite <- H by auto.
  assert (S_ n (fun r => mR A r p * S_ n (fun j => mR A r j * mR X j k)) =
          S_ n (fun j => U (tdot n n A A) p j * mR X j k)); [|rlra].
  transitivity (S_ n (fun r => S_ n (fun j => mR A r p * mR A r j * mR X j k))).
  { apply sum_ext; intros. rewrite <- sum_scal. apply sum_ext; intros; rring. }
  rewrite sum_swap. apply sum_ext; intros j Hj. rewrite U_tdot by auto.
  now rewrite sum_scal_r.
Qed.

Lemma posv_normal : forall n c A R, is_mat n n A -> minj n (mR A) ->
  exists X, posv n c (tdot n n A A) R = Some X.
Proof. intros. apply posv_PD. apply normal_PD; auto. Qed.

Lemma mget_transp : forall n (A : mat) i j, (i < n)%nat -> (j < n)%nat -> mR (transp n A) i j = mR A j i.
Proof. intros; unfold transp. now rewrite mget_mk. Qed.
Lemma mget_eye : forall n i j, (i < n)%nat -> (j < n)%nat -> mR (eye n) i j = if (i =? j)%nat then 1 else 0.
Proof. intros; unfold eye, scaled_eye. now rewrite mget_mk. Qed.

Section Solve.
Context {SG : Sing}.

Lemma pinv_solves : forall n A, is_mat n n A -> minj n (mR A) -> minj n (fun i j => mR A j i) ->
  is_mat n n (pinv n A) /\ msolves n n A (pinv n A) (eye n) /\ inv n A = Ok (pinv n A).
Proof.
  intros n A HA H1 H2. unfold pinv, inv.
  destruct (posv_normal n n A (transp n A) HA H1) as [X E]. rewrite E.
  destruct (posv_sound _ _ _ _ _ E) as [HX Hs]. split; auto. split; auto.
  apply normal_solves; auto. intros i k Hi Hk. rewrite Hs by auto. rewrite mget_transp by auto.
  transitivity (S_ n (fun r => if (r =? k)%nat then mR A r i else 0)).
  - now rewrite (sum_delta n k (fun r => mR A r i)).
  - apply sum_ext; intros r Hr. rewrite mget_eye by auto. destruct (r =? k)%nat; rring.
Qed.

(** multiplying an inverse *)
Lemma inv_mul_solves : forall n c A P Y, is_mat n n P -> is_mat n c Y -> msolves n n A P (eye n) ->
  msolves n c A (mmul c P Y) Y.
Proof.
  intros n c A P Y HP HY H i k Hi Hk.
  transitivity (S_ n (fun j => mR A i j * S_ n (fun r => mR P j r * mR Y r k))).
  { apply sum_ext; intros j Hj. f_equal. rewrite mget_mmul by (auto; destruct HP; lia).
    rewrite (dotv_sum _ _ n).
    - apply sum_ext; intros r Hr. rewrite vget_mcol; [reflexivity|destruct HY; lia].
    - eapply is_mat_row; eauto.
    - rewrite mcol_length. apply HY. }
  transitivity (S_ n (fun r => S_ n (fun j => mR A i j * mR P j r) * mR Y r k)).
  { transitivity (S_ n (fun j => S_ n (fun r => mR A i j * mR P j r * mR Y r k))).
    - apply sum_ext; intros. rewrite <- sum_scal. apply sum_ext; intros; rring.
    - rewrite sum_swap. apply sum_ext; intros. now rewrite sum_scal_r. }
  transitivity (S_ n (fun r => if (r =? i)%nat then mR Y r k else 0)).
  { apply sum_ext; intros r Hr. rewrite H by auto. rewrite mget_eye by auto. rewrite (Nat.eqb_sym i r).
    destruct (r =? i)%nat; rring. }
  now rewrite (sum_delta n i (fun r => mR Y r k)).
Qed.

(** the solver on a positive definite system *)
Theorem solve_corr_PD : forall s n HH HT M,
  holds (s_kind s) n HH M -> (forall i j, (i < n)%nat -> (j < n)%nat -> mR M i j = mR M j i) ->
  PD n (mR M) -> is_mat n (s_outputs s) HT ->
  is_mat n (s_outputs s) (solve_corr s n HH HT) /\ msolves n (s_outputs s) M (solve_corr s n HH HT) HT.
Proof.
  intros s n HH HT M Hh Hs HP HT'. unfold solve_corr.
  pose proof (U_holds _ _ _ _ Hh Hs) as HU.
  assert (PD n (U HH)) as HPU. { eapply PD_ext; [|exact HP]. intros; symmetry; auto. }
  destruct (s_kind s) eqn:Ek.
  2,3,4: destruct (proj2 (posv_PD n (s_outputs s) HH HT) HPU) as [X E]; rewrite E;
    destruct (posv_sound _ _ _ _ _ E) as [HX Hsol]; split; auto;
    intros i k Hi Hk; rewrite <- Hsol by auto; apply sum_ext; intros; now rewrite HU.
  destruct Hh as [Hm Hh]. cbn [full_kind] in Hh.
  assert (forall i j, (i < n)%nat -> (j < n)%nat -> mR HH i j = mR M i j) as EM.
  { intros. rewrite Hh by auto. now rewrite orb_true_r. }
  assert (minj n (mR M)) as I1 by now apply PD_minj.
  assert (minj n (mR HH)) as I2.
  { intros x Hx. apply I1. intros i Hi. rewrite <- (Hx i Hi). apply sum_ext; intros. now rewrite EM. }
  assert (minj n (fun i j => mR HH j i)) as I3.
  { intros x Hx. apply I1. intros i Hi. rewrite <- (Hx i Hi). apply sum_ext; intros.
    rewrite EM by auto. now rewrite Hs. }
  destruct (pinv_solves n HH Hm I2 I3) as (P1 & P2 & _).
  split.
  - pose proof (is_mat_mmul (s_outputs s) (pinv n HH) HT) as Hp.
    destruct P1 as [P1 _]. rewrite P1 in Hp. exact Hp.
  - intros i k Hi Hk. rewrite <- (inv_mul_solves n (s_outputs s) HH (pinv n HH) HT P1 HT' P2 i k Hi Hk).
    apply sum_ext; intros. now rewrite EM.
Qed.
End Solve.

(** ** Optimality *)
Definition col (B : mat) (k : nat) (i : nat) : R := mR B i k.

Lemma predict1_dotS : forall B h k, predict1 B h k = dotS (length h) h (col B k).
Proof. reflexivity. Qed.

Definition loss1 (L : nat) (norm : R) (ss : list sample) (k : nat) (x : nat -> R) : R :=
  SS ss (fun s => sm_w s * (dotS L (sm_h s) x - vR (sm_t s) k) ^ 2) + norm * S_ L (fun i => x i ^ 2).

Lemma ridge_loss_cols : forall L c norm ss B, good L ss ->
  ridge_loss L c norm ss B = S_ c (fun k => loss1 L norm ss k (col B k)).
Proof.
  intros L c norm ss B Hg. unfold ridge_loss, loss1. rewrite sum_add. f_equal.
  - transitivity (SS ss (fun s => S_ c (fun k => sm_w s * (dotS L (sm_h s) (col B k) - vR (sm_t s) k) ^ 2))).
    + apply nsum_map_ext. intros s Hs. apply sum_ext. intros k Hk. rewrite predict1_dotS.
      destruct (Hg s Hs) as [_ ->]. reflexivity.
    + apply (nsum_sum_swap c (fun s k => sm_w s * (dotS L (sm_h s) (col B k) - vR (sm_t s) k) ^ 2)).
  - rewrite sum_scal. f_equal.
    exact (sum_swap L c (fun i k => col B k i ^ 2)).
Qed.

Lemma dotS_add : forall L h x y, dotS L h (fun i => x i + y i) = dotS L h x + dotS L h y.
Proof. intros; unfold dotS. rewrite <- sum_add. apply sum_ext; intros; rring. Qed.

(** J(x + d) = J(x) + quad(d) when x solves the normal equations *)
Lemma loss_expand : forall L norm ss k x d,
  (forall i, (i < L)%nat -> S_ L (fun j => mR (spec_HH L norm ss) i j * x j) =
                           SS ss (fun s => sm_w s * vR (sm_h s) i * vR (sm_t s) k)) ->
  loss1 L norm ss k (fun i => x i + d i) = loss1 L norm ss k x + quad L (mR (spec_HH L norm ss)) d.
Proof.
  intros L norm ss k x d H. rewrite quad_spec. unfold loss1.
  (* cross term *)
  assert (SS ss (fun s => sm_w s * (dotS L (sm_h s) x - vR (sm_t s) k) * dotS L (sm_h s) d)
          + norm * S_ L (fun i => x i * d i) = 0) as Hc.
  { assert (S_ L (fun i => d i * (S_ L (fun j => mR (spec_HH L norm ss) i j * x j) -
                       SS ss (fun s => sm_w s * vR (sm_h s) i * vR (sm_t s) k))) = 0) as Z0.
    { apply sum_zero. intros i Hi. rewrite H by auto. rring. }
    rewrite <- Z0. clear Z0 H.
    transitivity (S_ L (fun i => d i * (norm * x i +
       SS ss (fun s => sm_w s * vR (sm_h s) i * (dotS L (sm_h s) x - vR (sm_t s) k))))).
    - transitivity (S_ L (fun i => norm * (x i * d i)) +
         S_ L (fun i => SS ss (fun s => d i * (sm_w s * vR (sm_h s) i * (dotS L (sm_h s) x - vR (sm_t s) k))))).
      + rewrite sum_scal, Rplus_comm. f_equal.
        etransitivity; [|apply (nsum_sum_swap L (fun s i => d i * (sm_w s * vR (sm_h s) i * (dotS L (sm_h s) x - vR (sm_t s) k))))].
        apply nsum_map_ext. intros s _. unfold dotS at 2. rewrite <- sum_scal. apply sum_ext; intros; rring.
      + rewrite <- sum_add. apply sum_ext; intros i Hi. rewrite nsum_map_scal. rring.
    - apply sum_ext; intros i Hi. f_equal.
      transitivity (S_ L (fun j => (if (i =? j)%nat then norm * x j else 0) + SS ss (fun s => sm_w s * vR (sm_h s) i * (vR (sm_h s) j * x j)))
         - SS ss (fun s => sm_w s * vR (sm_h s) i * vR (sm_t s) k)).
      + assert (S_ L (fun j => if (i =? j)%nat then norm * x j else 0) = norm * x i) as Ed.
        { rewrite <- (sum_delta L i (fun j => norm * x j)) by auto. apply sum_ext; intros j Hj.
          now rewrite Nat.eqb_sym. }
        transitivity ((norm * x i + S_ L (fun j => SS ss (fun s => sm_w s * vR (sm_h s) i * (vR (sm_h s) j * x j))))
          - SS ss (fun s => sm_w s * vR (sm_h s) i * vR (sm_t s) k));
        [|rewrite sum_add; apply f_equal2; [apply f_equal2; [symmetry; exact Ed|reflexivity]|reflexivity]].
        rewrite <- (nsum_sum_swap L (fun s j => sm_w s * vR (sm_h s) i * (vR (sm_h s) j * x j))).
        assert (SS ss (fun s => sm_w s * vR (sm_h s) i * (dotS L (sm_h s) x - vR (sm_t s) k)) =
                SS ss (fun s => S_ L (fun j => sm_w s * vR (sm_h s) i * (vR (sm_h s) j * x j))) -
                SS ss (fun s => sm_w s * vR (sm_h s) i * vR (sm_t s) k)) as ->; [|rring].
        rewrite <- nsum_map_sub. apply nsum_map_ext. intros s _. rewrite sum_scal. unfold dotS. rring.
      + f_equal. apply sum_ext; intros j Hj. rewrite spec_HH_mk, mget_mk by auto.
        rewrite Rmult_plus_distr_r. f_equal; [destruct (i =? j)%nat; rring|].
        rewrite <- nsum_map_scal_r. apply nsum_map_ext; intros; rring. }
  assert (SS ss (fun s => sm_w s * (dotS L (sm_h s) (fun i => x i + d i) - vR (sm_t s) k) ^ 2) =
          SS ss (fun s => sm_w s * (dotS L (sm_h s) x - vR (sm_t s) k) ^ 2) +
          2 * SS ss (fun s => sm_w s * (dotS L (sm_h s) x - vR (sm_t s) k) * dotS L (sm_h s) d) +
          SS ss (fun s => sm_w s * (dotS L (sm_h s) d * dotS L (sm_h s) d))) as ->.
  { rewrite <- nsum_map_scal, <- !nsum_map_add. apply nsum_map_ext. intros s _. rewrite dotS_add. rring. }
  assert (S_ L (fun i => (x i + d i) ^ 2) = S_ L (fun i => x i ^ 2) + 2 * S_ L (fun i => x i * d i) + S_ L (fun i => d i * d i)) as ->.
  { rewrite <- sum_scal, <- !sum_add. apply sum_ext; intros; rring. }
  rn. nra.
Qed.

Theorem ridge_optimal : forall L c norm ss B B', 0 < norm -> good L ss ->
  msolves L c (spec_HH L norm ss) B (spec_HT L c ss) ->
  ridge_loss L c norm ss B <= ridge_loss L c norm ss B'.
Proof.
  intros L c norm ss B B' Hn Hg Hs. rewrite !ridge_loss_cols by auto. apply sum_le. intros k Hk.
  assert (loss1 L norm ss k (col B' k) = loss1 L norm ss k (fun i => col B k i + (col B' k i - col B k i))) as ->.
  { unfold loss1. f_equal.
    - apply nsum_map_ext. intros s _. do 3 f_equal. apply sum_ext; intros; rring.
    - f_equal. apply sum_ext; intros; rring. }
  rewrite loss_expand.
  - assert (0 <= quad L (mR (spec_HH L norm ss)) (fun i => col B' k i - col B k i)); [|rlra].
    destruct (zero_dec L (fun i => col B' k i - col B k i)) as [E|E].
    + apply Rlt_le. apply PD_spec; auto. intros s Hin. apply (Hg s Hin).
    + unfold quad. apply Req_le. symmetry. apply sum_zero. intros i Hi. apply sum_zero. intros j Hj.
      rewrite (E i Hi). rring.
  - intros i Hi. unfold col. rewrite Hs by auto. rewrite spec_HT_mk, mget_mk by auto. reflexivity.
Qed.

Theorem ridge_unique : forall L c norm ss B B', 0 < norm -> nonneg ss ->
  is_mat L c B -> is_mat L c B' ->
  msolves L c (spec_HH L norm ss) B (spec_HT L c ss) ->
  msolves L c (spec_HH L norm ss) B' (spec_HT L c ss) -> B = B'.
Proof.
  intros L c norm ss B B' Hn Hg H1 H2 S1 S2. apply mat_ext with L c; auto. intros i k Hi Hk.
  apply (PD_inj L (mR (spec_HH L norm ss)) (fun i => mR B i k) (fun i => mR B' i k)); auto.
  - now apply PD_spec.
  - intros p Hp. rewrite S1, S2 by auto. reflexivity.
Qed.
