(** Linear algebra over the reals: finite sums, elimination ([posv]) is correct
    and succeeds exactly on positive definite matrices. *)
From Coq Require Import Reals Lra Permutation.
From Verif Require Import Base Num Mat LinAlg MatFacts.
Local Open Scope R_scope.
#[local] Existing Instance NumR.

(** Expose the real operations behind the class projections. *)
Ltac rn := cbn [num n0 n1 nadd nsub nmul ndiv nopp nabs nexp ntanh nsqrt nltb neqb NumR] in *.
Ltac rlra := rn; lra.
Ltac reqR := try match goal with |- @eq _ ?a ?b => apply (Rplus_eq_reg_l 0 a b) end.
Ltac rring := rn; reqR; ring.
Ltac rfield := rn; reqR; field.

Lemma Rltb_spec : forall a b, Rltb a b = true <-> a < b.
Proof. intros; unfold Rltb; destruct (Rlt_dec a b); split; intros; auto; discriminate. Qed.
Lemma Rltb_false : forall a b, Rltb a b = false <-> b <= a.
Proof. intros; unfold Rltb; destruct (Rlt_dec a b); split; intros; auto; try discriminate; lra. Qed.
Lemma Reqb_spec : forall a b, Reqb a b = true <-> a = b.
Proof. intros; unfold Reqb; destruct (Req_EM_T a b); split; intros; auto; discriminate. Qed.
Lemma Reqb_refl : forall a, Reqb a a = true.
Proof. intros; now apply Reqb_spec. Qed.
Lemma Reqb_false : forall a b, Reqb a b = false <-> a <> b.
Proof. intros; unfold Reqb; destruct (Req_EM_T a b); split; intros; auto; try discriminate; tauto. Qed.

(** ** sums *)
Notation S_ := (@sumn NumR).

Lemma sum_0 : forall f, S_ 0 f = 0.
Proof. reflexivity. Qed.
Lemma sum_S : forall n f, S_ (S n) f = f O + S_ n (fun i => f (S i)).
Proof. intros; unfold sumn; simpl. f_equal. now rewrite <- seq_shift, map_map. Qed.
Lemma sum_ext : forall n f g, (forall i, (i < n)%nat -> f i = g i) -> S_ n f = S_ n g.
Proof.
  induction n; intros; [reflexivity|]. rewrite !sum_S. rewrite (H O) by lia.
  rewrite (IHn _ (fun i => g (S i))); auto. intros; apply H; lia.
Qed.
Lemma sum_zero : forall n f, (forall i, (i < n)%nat -> f i = 0) -> S_ n f = 0.
Proof.
  induction n; intros; [reflexivity|]. rewrite sum_S, H by lia. rewrite IHn; [lra|].
  intros; apply H; lia.
Qed.
Lemma sum_add : forall n f g, S_ n (fun i => f i + g i) = S_ n f + S_ n g.
Proof. induction n; intros; [rewrite !sum_0; lra|]. rewrite !sum_S, IHn. lra. Qed.
Lemma sum_sub : forall n f g, S_ n (fun i => f i - g i) = S_ n f - S_ n g.
Proof. induction n; intros; [rewrite !sum_0; lra|]. rewrite !sum_S, IHn. lra. Qed.
Lemma sum_scal : forall n a f, S_ n (fun i => a * f i) = a * S_ n f.
Proof. induction n; intros; [rewrite !sum_0; lra|]. rewrite !sum_S, IHn. lra. Qed.
Lemma sum_scal_r : forall n a f, S_ n (fun i => f i * a) = S_ n f * a.
Proof. induction n; intros; [rewrite !sum_0; lra|]. rewrite !sum_S, IHn. lra. Qed.
Lemma sum_div : forall n a f, S_ n (fun i => f i / a) = S_ n f / a.
Proof. intros; unfold Rdiv; apply sum_scal_r. Qed.
Lemma sum_opp : forall n f, S_ n (fun i => - f i) = - S_ n f.
Proof. induction n; intros; [rewrite !sum_0; lra|]. rewrite !sum_S, IHn. lra. Qed.
Lemma sum_swap : forall n m f, S_ n (fun i => S_ m (fun j => f i j)) = S_ m (fun j => S_ n (fun i => f i j)).
Proof.
  induction n; intros.
  - rewrite sum_0. symmetry. apply sum_zero. intros; apply sum_0.
  - rewrite sum_S, IHn, <- sum_add. apply sum_ext; intros. now rewrite sum_S.
Qed.
Lemma sum_const : forall n a, S_ n (fun _ => a) = INR n * a.
Proof. induction n; intros; [rewrite sum_0; simpl; lra|]. rewrite sum_S, IHn, S_INR. lra. Qed.
Lemma sum_nonneg : forall n f, (forall i, (i < n)%nat -> 0 <= f i) -> 0 <= S_ n f.
Proof.
  induction n; intros; [rewrite sum_0; lra|]. rewrite sum_S.
  pose proof (H O ltac:(lia)). assert (0 <= S_ n (fun i => f (S i))) by (apply IHn; intros; apply H; lia). lra.
Qed.
Lemma sum_le : forall n f g, (forall i, (i < n)%nat -> f i <= g i) -> S_ n f <= S_ n g.
Proof.
  intros. cut (0 <= S_ n (fun i => g i - f i)). { rewrite sum_sub; lra. }
  apply sum_nonneg. intros; specialize (H i H0); lra.
Qed.
Lemma sum_nonneg_zero : forall n f, (forall i, (i < n)%nat -> 0 <= f i) -> S_ n f = 0 ->
  forall i, (i < n)%nat -> f i = 0.
Proof.
  induction n; intros f H E i Hi; [lia|]. rewrite sum_S in E.
  pose proof (H O ltac:(lia)).
  assert (0 <= S_ n (fun i => f (S i))) by (apply sum_nonneg; intros; apply H; lia).
  destruct i; [lra|]. apply (IHn (fun i => f (S i))); [intros; apply H; lia|lra|lia].
Qed.
Lemma sum_delta : forall n k f, (k < n)%nat -> S_ n (fun i => if (i =? k)%nat then f i else 0) = f k.
Proof.
  induction n; intros k f Hk; [lia|]. rewrite sum_S. destruct k.
  - simpl. rewrite sum_zero; [lra|]. intros; reflexivity.
  - simpl (0 =? S k)%nat. cbv iota.
    rewrite (sum_ext n _ (fun i => if (i =? k)%nat then f (S i) else 0)) by reflexivity.
    rewrite (IHn k (fun i => f (S i))) by lia. lra.
Qed.

(** sums over lists *)
Notation N_ := (@nsum NumR).
Lemma nsum_cons : forall x l, N_ (x :: l) = x + N_ l.
Proof. reflexivity. Qed.
Lemma nsum_nil : N_ [] = 0.
Proof. reflexivity. Qed.
Lemma nsum_app : forall l m : list num, N_ (l ++ m) = N_ l + N_ m.
Proof. induction l; intros; cbn [app]; [cbn; rlra|]. rewrite !nsum_cons, IHl; rlra. Qed.
Lemma nsum_map_add : forall {A} (f g : A -> num) l, N_ (map (fun a => f a + g a) l) = N_ (map f l) + N_ (map g l).
Proof. induction l; [cbn; rlra|]. cbn [map]. rewrite !nsum_cons. rlra. Qed.
Lemma nsum_map_scal : forall {A} a (f : A -> num) l, N_ (map (fun x => a * f x) l) = a * N_ (map f l).
Proof. induction l; [cbn; rlra|]. cbn [map]. rewrite !nsum_cons. rlra. Qed.
Lemma nsum_map_ext : forall {A} (f g : A -> num) l, (forall a, In a l -> f a = g a) -> N_ (map f l) = N_ (map g l).
Proof. intros. f_equal. now apply map_ext_in. Qed.
Lemma nsum_perm : forall l m, Permutation l m -> N_ l = N_ m.
Proof. induction 1; rewrite ?nsum_cons in *; rlra. Qed.
Lemma nsum_nth : forall l, N_ l = S_ (length l) (fun i => nth i l 0).
Proof.
  induction l; [reflexivity|]. cbn [length]. rewrite sum_S. cbn. f_equal. apply IHl.
Qed.
Lemma nsum_nonneg : forall l, (forall x, In x l -> 0 <= x) -> 0 <= N_ l.
Proof. induction l; intros; [cbn; rlra|]. pose proof (H a (or_introl eq_refl)).
  assert (0 <= N_ l) by (apply IHl; intros; apply H; simpl; auto). rewrite nsum_cons; rlra. Qed.
Lemma nsum_sum_swap : forall {A} n (f : A -> nat -> num) l,
  N_ (map (fun a => S_ n (f a)) l) = S_ n (fun i => N_ (map (fun a => f a i) l)).
Proof.
  induction l; intros.
  - cbn. symmetry. apply sum_zero; reflexivity.
  - cbn [map]. rewrite nsum_cons, IHl. rn. rewrite <- sum_add. reflexivity.
Qed.

Lemma dotv_sum : forall (x y : vec) n, length x = n -> length y = n ->
  dotv x y = S_ n (fun i => vget x i * vget y i).
Proof.
  intros x; induction x as [|a x IH]; intros [|b y] n Hx Hy; cbn [length] in *; subst; try discriminate.
  - reflexivity.
  - rewrite sum_S. change (dotv (a :: x) (b :: y)) with (a * b + dotv x y).
    rewrite (IH y (length x)) by auto. reflexivity.
Qed.

(** upper triangle read as a symmetric matrix *)
Definition U (A : mat) (i j : nat) : R := mget A (Nat.min i j) (Nat.max i j).
Lemma U_sym : forall A i j, U A i j = U A j i.
Proof. intros; unfold U. now rewrite Nat.min_comm, Nat.max_comm. Qed.

Definition quad (n : nat) (A : nat -> nat -> R) (x : nat -> R) : R :=
  S_ n (fun i => S_ n (fun j => x i * A i j * x j)).
Definition PD (n : nat) (A : nat -> nat -> R) : Prop :=
  forall x, (exists i, (i < n)%nat /\ x i <> 0) -> 0 < quad n A x.

Lemma quad_ext : forall n A B x, (forall i j, (i < n)%nat -> (j < n)%nat -> A i j = B i j) ->
  quad n A x = quad n B x.
Proof. intros; unfold quad. apply sum_ext; intros. apply sum_ext; intros. now rewrite H. Qed.
Lemma PD_ext : forall n A B, (forall i j, (i < n)%nat -> (j < n)%nat -> A i j = B i j) -> PD n A -> PD n B.
Proof. unfold PD; intros. rewrite <- (quad_ext n A B) by auto. auto. Qed.

(** Schur complement *)
Definition schur (A : nat -> nat -> R) (i j : nat) : R := A (S i) (S j) - A O (S i) * A O (S j) / A O O.

Lemma quad_schur : forall n A x, A O O <> 0 -> (forall i j, A i j = A j i) ->
  quad (S n) A x =
  A O O * (x O + S_ n (fun j => A O (S j) * x (S j)) / A O O) ^ 2 + quad n (schur A) (fun i => x (S i)).
Proof.
  intros n A x Ha Hs. unfold quad. rewrite sum_S, sum_S.
  set (v := S_ n (fun j => A O (S j) * x (S j))).
  replace (S_ n (fun i => x O * A O (S i) * x (S i))) with (x O * v).
  2:{ unfold v. rewrite <- sum_scal. apply sum_ext; intros; rring. }
  replace (S_ n (fun i => S_ (S n) (fun j => x (S i) * A (S i) j * x j)))
    with (x O * v + S_ n (fun i => S_ n (fun j => x (S i) * A (S i) (S j) * x (S j)))).
  2:{ unfold v. rewrite <- sum_scal, <- sum_add. apply sum_ext; intros i Hi. rewrite sum_S.
      rewrite (Hs (S i) O). rring. }
  replace (S_ n (fun i => S_ n (fun j => x (S i) * schur A i j * x (S j))))
    with (S_ n (fun i => S_ n (fun j => x (S i) * A (S i) (S j) * x (S j))) - v * v / A O O).
  { rfield; auto. }
  replace (v * v / A O O) with (S_ n (fun i => S_ n (fun j => x (S i) * (A O (S i) * A O (S j) / A O O) * x (S j)))).
  { rewrite <- sum_sub. apply sum_ext; intros. rewrite <- sum_sub. apply sum_ext; intros.
    unfold schur. rring. }
  unfold v at 1 2. unfold Rdiv. rewrite <- sum_scal_r with (a := S_ n (fun j => A O (S j) * x (S j))).
  rewrite <- sum_scal_r. apply sum_ext; intros. fold v.
  replace (A O (S i) * x (S i) * v * / A O O) with ((A O (S i) * x (S i) * / A O O) * v) by rring.
  unfold v. rewrite <- sum_scal. apply sum_ext; intros. rring.
Qed.

Lemma PD_pivot : forall n A, PD (S n) A -> 0 < A O O.
Proof.
  intros n A H. specialize (H (fun i => if (i =? 0)%nat then 1 else 0)).
  assert (0 < quad (S n) A (fun i => if (i =? 0)%nat then 1 else 0)).
  { apply H. exists O; split; [lia|simpl; rlra]. }
  unfold quad in H0. rewrite sum_S, sum_S in H0. simpl in H0.
  rewrite sum_zero in H0 by (intros; rring).
  rewrite sum_zero in H0; [rlra|]. intros. apply sum_zero; intros; rring.
Qed.

Lemma PD_schur : forall n A, (forall i j, A i j = A j i) -> PD (S n) A -> PD n (schur A).
Proof.
  intros n A Hs H x [i [Hi Hx]]. pose proof (PD_pivot n A H) as Ha.
  set (y := fun k => match k with O => - S_ n (fun j => A O (S j) * x j) / A O O | S k => x k end).
  assert (0 < quad (S n) A y). { apply H. exists (S i); split; [lia|auto]. }
  rewrite quad_schur in H0 by (auto; rlra). simpl in H0.
  replace (- S_ n (fun j => A O (S j) * x j) / A O O + S_ n (fun j => A O (S j) * x j) / A O O) with 0 in H0
    by (rfield; rlra).
  change (fun i => x i) with x in H0. rlra.
Qed.



Lemma zero_dec : forall n (x : nat -> R), (exists j, (j < n)%nat /\ x j <> 0) \/ (forall j, (j < n)%nat -> x j = 0).
Proof.
  induction n; intros; [right; intros; lia|].
  destruct (IHn x) as [[j [H1 H2]]|H]; [left; exists j; split; auto; lia|].
  destruct (Req_EM_T (x n) 0) as [E|E]; [|left; exists n; split; auto].
  right; intros j Hj. destruct (Nat.eq_dec j n); subst; auto. apply H; lia.
Qed.

Lemma PD_schur_conv : forall n A, (forall i j, A i j = A j i) -> 0 < A O O -> PD n (schur A) -> PD (S n) A.
Proof.
  intros n A Hs Ha H x [i [Hi Hx]]. rewrite quad_schur by (auto; rlra).
  destruct (zero_dec n (fun j => x (S j))) as [E|E].
  - specialize (H _ E). assert (0 <= A O O * (x O + S_ n (fun j => A O (S j) * x (S j)) / A O O) ^ 2).
    { apply Rmult_le_pos; [rlra|apply pow2_ge_0]. } rlra.
  - destruct i; [|exfalso; apply Hx; apply E; lia].
    rewrite (sum_zero n) by (intros; rewrite E by auto; rring).
    assert (quad n (schur A) (fun i => x (S i)) = 0) as ->.
    { unfold quad. apply sum_zero; intros. apply sum_zero; intros. rewrite E by auto. rring. }
    replace (x O + 0 / A O O) with (x O) by (rfield; rlra).
    assert (0 < x O ^ 2). { destruct (Rdichotomy _ _ Hx); nra. } nra.
Qed.

(** ** posv *)
Definition posv_A' (m : nat) (A : mat) : mat :=
  mk m m (fun i j => mget A (S i) (S j) - mget A O (S i) * mget A O (S j) / mget A O O).

Lemma U_A' : forall m A i j, (i < m)%nat -> (j < m)%nat -> U (posv_A' m A) i j = schur (U A) i j.
Proof.
  intros. unfold U at 1, posv_A'. rewrite mget_mk by lia. unfold schur, U. simpl.
  destruct (Nat.le_ge_cases i j).
  - rewrite Nat.min_l, Nat.max_r by auto. reflexivity.
  - rewrite Nat.min_r, Nat.max_l by auto. unfold Rdiv; rring.
Qed.

Definition posv_R' (m c : nat) (A R : mat) : mat :=
  mk m c (fun i k => mget R (S i) k - mget A O (S i) * mget R O k / mget A O O).
Definition posv_row (m c : nat) (A R X : mat) : vec :=
  mkv c (fun k => (mget R O k - S_ m (fun j => mget A O (S j) * mget X j k)) / mget A O O).
Lemma posv_S : forall m c A R, posv (S m) c A R =
  if Rltb 0 (mget A 0 0) then
    match posv m c (posv_A' m A) (posv_R' m c A R) with
    | Some X => Some (posv_row m c A R X :: X)
    | None => None
    end
  else None.
Proof. reflexivity. Qed.

Lemma posv_sound : forall n c A R X, posv n c A R = Some X ->
  is_mat n c X /\ forall i k, (i < n)%nat -> (k < c)%nat -> S_ n (fun j => U A i j * mget X j k) = mget R i k.
Proof.
  induction n as [|m IH]; intros c A R X H.
  - inversion H; subst. split; [split; [reflexivity|constructor]|intros; lia].
  - rewrite posv_S in H.
    destruct (Rltb 0 (mget A 0 0)) eqn:Ea; [|discriminate]. apply Rltb_spec in Ea.
    destruct (posv m c (posv_A' m A) (posv_R' m c A R)) as [X'|] eqn:E; [|discriminate].
    apply Some_inj in H; subst X. destruct (IH _ _ _ _ E) as [HX Hs].
    split.
    { apply is_mat_cons; split; auto. apply mkv_length. }
    intros i k Hi Hk. rewrite sum_S. unfold mget at 1. cbn [nth]. unfold posv_row at 1. rewrite vget_mkv by auto.
    change (fun j => U A i (S j) * mget (posv_row m c A R X' :: X') (S j) k) with (fun j => U A i (S j) * mget X' j k).
    set (w := S_ m (fun j => mget A 0 (S j) * mget X' j k)).
    destruct i.
    + replace (S_ m (fun j => U A 0 (S j) * mget X' j k)) with w by (unfold w; apply sum_ext; reflexivity).
      unfold U. cbn [Nat.min Nat.max]. rfield. rlra.
    + specialize (Hs i k ltac:(lia) Hk). unfold posv_R' in Hs. rewrite mget_mk in Hs by lia.
      rewrite (sum_ext m _ (fun j => U A (S i) (S j) * mget X' j k - (mget A 0 (S i) / mget A 0 0) * (mget A 0 (S j) * mget X' j k))) in Hs.
      2:{ intros j Hj. rewrite U_A' by lia. unfold schur. unfold U at 2 3 4. cbn [Nat.min Nat.max]. rfield. rlra. }
      rewrite sum_sub, sum_scal in Hs. fold w in Hs.
      unfold U at 1. cbn [Nat.min Nat.max].
      set (a := mget A 0 0) in *. set (b := mget A 0 (S i)) in *. set (r := mget R 0 k) in *.
      set (t := mget R (S i) k) in *. set (s := S_ m (fun j => U A (S i) (S j) * mget X' j k)) in *.
      clearbody a b r t s w. rn. replace (s) with (t - b * r / a + b / a * w) by lra.
      field. lra.
Qed.

Lemma posv_PD : forall n c A R, (exists X, posv n c A R = Some X) <-> PD n (U A).
Proof.
  induction n as [|m IH]; intros c A R.
  - split; [intros _ x [i [Hi _]]; lia|intros; exists []; reflexivity].
  - rewrite posv_S. split.
    + intros [X H]. destruct (Rltb 0 (mget A 0 0)) eqn:Ea; [|discriminate]. apply Rltb_spec in Ea.
      destruct (posv m c (posv_A' m A) (posv_R' m c A R)) as [X'|] eqn:E; [|discriminate].
      apply PD_schur_conv; [apply U_sym|exact Ea|].
      apply PD_ext with (U (posv_A' m A)); [intros; now apply U_A'|].
      apply (IH c (posv_A' m A) (posv_R' m c A R)). eauto.
    + intros H. pose proof (PD_pivot _ _ H) as Ha. unfold U in Ha; cbn [Nat.min Nat.max] in Ha.
      apply Rltb_spec in Ha. rewrite Ha.
      destruct (IH c (posv_A' m A) (posv_R' m c A R)) as [_ Hi]. destruct Hi as [X' E].
      { apply PD_ext with (schur (U A)); [intros; symmetry; now apply U_A'|]. apply PD_schur; auto. apply U_sym. }
      rewrite E. eauto.
Qed.

(** a PD matrix is injective *)
Lemma PD_inj : forall n A (x y : nat -> R), PD n A ->
  (forall i, (i < n)%nat -> S_ n (fun j => A i j * x j) = S_ n (fun j => A i j * y j)) ->
  forall i, (i < n)%nat -> x i = y i.
Proof.
  intros n A x y H E i Hi.
  destruct (zero_dec n (fun j => x j - y j)) as [Hn|Hz]; [|specialize (Hz i Hi); simpl in Hz; rlra].
  specialize (H _ Hn). exfalso.
  assert (quad n A (fun j => x j - y j) = 0); [|rlra].
  unfold quad. apply sum_zero. intros k Hk.
  rewrite (sum_ext n _ (fun j => (x k - y k) * (A k j * x j - A k j * y j))) by (intros; rring).
  rewrite sum_scal, sum_sub, E by auto. rring.
Qed.
