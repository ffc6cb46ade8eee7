(** The numbers of neurons tried by validation_corr (C79; reals). *)
From Coq Require Import Reals Lra Sorted FinFun.
From Verif Require Import Base Num.
Local Open Scope R_scope.

(** hp_elm.py:420: np.logspace(np.log(3), np.log(L), steps, base=np.e, endpoint=True), exactly *)
Definition logspace (L steps i : nat) : R :=
  Rpower (exp 1) (ln 3 + INR i * ((ln (INR L) - ln 3) / INR (steps - 1))).
(** hp_elm.py:421: np.ceil(Ls).astype(int) *)
Definition ceil (x : R) : Z := (- Int_part (- x))%Z.
(** hp_elm.py:422: np.unique, the distinct values in increasing order *)
Definition unique (l : list Z) : list nat :=
  filter (fun k => existsb (Z.eqb (Z.of_nat k)) l) (seq 0 (S (Z.to_nat (fold_right Z.max 0%Z l)))).
Definition sizes_of (vs : list R) : list nat := unique (map ceil vs).
Definition vc_sizes (L steps : nat) : list nat := sizes_of (map (logspace L steps) (seq 0 steps)).

Lemma ceil_spec : forall x, IZR (ceil x) - 1 < x <= IZR (ceil x).
Proof.
  intros x. unfold ceil. destruct (base_Int_part (- x)) as [H1 H2]. rewrite opp_IZR. lra.
Qed.
Lemma ceil_eq : forall x z, IZR z - 1 < x <= IZR z -> ceil x = z.
Proof.
  intros x z [H1 H2]. destruct (ceil_spec x) as [H3 H4].
  assert (IZR z < IZR (ceil x) + 1) by lra. assert (IZR (ceil x) < IZR z + 1) by lra.
  rewrite <- plus_IZR in *. apply lt_IZR in H, H0. lia.
Qed.
Lemma ceil_le : forall x n, x <= IZR n -> (ceil x <= n)%Z.
Proof.
  intros x n H. destruct (ceil_spec x) as [H1 _]. assert (IZR (ceil x) < IZR n + 1) as HL by lra. rewrite <- plus_IZR in HL. apply lt_IZR in HL. lia.
Qed.
Lemma ceil_ge : forall x n, IZR n <= x -> (n <= ceil x)%Z.
Proof. intros x n H. destruct (ceil_spec x) as [_ H1]. apply le_IZR. lra. Qed.

Lemma max_ge : forall l z, In z l -> (z <= fold_right Z.max 0 l)%Z.
Proof. induction l as [|a l IH]; intros z H; [contradiction|]. cbn. destruct H as [->|H]; [lia|]. specialize (IH z H). lia. Qed.
Lemma in_unique : forall l k, In k (unique l) <-> In (Z.of_nat k) l.
Proof.
  intros l k. unfold unique. rewrite filter_In, existsb_exists. split.
  - intros (_ & z & Hz & E). apply Z.eqb_eq in E. now subst.
  - intros H. split.
    + apply in_seq. pose proof (max_ge _ _ H). lia.
    + exists (Z.of_nat k). split; [auto|]. apply Z.eqb_refl.
Qed.
Lemma sorted_seq : forall n a, StronglySorted lt (seq a n).
Proof.
  induction n as [|n IH]; intros a; cbn; constructor; auto. apply Forall_forall. intros x Hx. apply in_seq in Hx. lia.
Qed.
Lemma sorted_filter : forall P l, StronglySorted lt l -> StronglySorted lt (filter P l).
Proof.
  intros P l H. induction H as [|a l H IH HF]; cbn; [constructor|]. destruct (P a); auto. constructor; auto.
  rewrite Forall_forall in *. intros x Hx. apply filter_In in Hx as [Hx _]. auto.
Qed.
Lemma unique_sorted : forall l, StronglySorted lt (unique l).
Proof. intros. apply sorted_filter, sorted_seq. Qed.
Lemma sorted_nodup : forall l, StronglySorted lt l -> NoDup l.
Proof.
  induction 1 as [|a l H IH HF]; constructor; auto. intros C. rewrite Forall_forall in HF. specialize (HF a C). lia.
Qed.
Lemma unique_length : forall l, (length (unique l) <= length l)%nat.
Proof.
  intros l. assert (length (map Z.of_nat (unique l)) <= length l)%nat as H.
  { apply NoDup_incl_length.
    - apply Injective_map_NoDup; [intros a b; lia|]. apply sorted_nodup, unique_sorted.
    - intros z Hz. apply in_map_iff in Hz as (k & <- & Hk). now apply in_unique. }
  now rewrite map_length in H.
Qed.

Lemma logspace_exp : forall L steps i, logspace L steps i = exp (ln 3 + INR i * ((ln (INR L) - ln 3) / INR (steps - 1))).
Proof. intros. unfold logspace, Rpower. rewrite ln_exp. f_equal. ring. Qed.
Lemma logspace_first : forall L steps, logspace L steps 0 = 3.
Proof. intros. rewrite logspace_exp. cbn [INR]. rewrite Rmult_0_l, Rplus_0_r. apply exp_ln. lra. Qed.
Lemma logspace_last : forall L steps, (1 <= L)%nat -> (2 <= steps)%nat -> logspace L steps (steps - 1) = INR L.
Proof.
  intros L steps HL Hs. rewrite logspace_exp.
  assert (INR (steps - 1) <> 0) by (apply not_0_INR; lia).
  replace (ln 3 + INR (steps - 1) * ((ln (INR L) - ln 3) / INR (steps - 1))) with (ln (INR L)) by (field; auto).
  apply exp_ln. apply lt_0_INR. lia.
Qed.
Lemma exp_mono : forall a b, a <= b -> exp a <= exp b.
Proof. intros a b [H| ->]; [left; now apply exp_increasing|lra]. Qed.
Lemma ln_mono : forall a b, 0 < a -> a <= b -> ln a <= ln b.
Proof. intros a b Ha [H| ->]; [left; now apply ln_increasing|lra]. Qed.
Lemma logspace_range : forall L steps i, (3 <= L)%nat -> (2 <= steps)%nat -> (i < steps)%nat -> 3 <= logspace L steps i <= INR L.
Proof.
  intros L steps i HL Hs Hi. rewrite <- (logspace_last L steps) at 1 by lia. rewrite <- (logspace_first L steps) at 1. rewrite !logspace_exp.
  assert (3 <= INR L) as H3 by (replace 3 with (INR 3) by (cbn; lra); now apply le_INR).
  assert (0 <= ln (INR L) - ln 3) as HD by (pose proof (ln_mono 3 (INR L) ltac:(lra) H3); lra).
  assert (0 < INR (steps - 1)) as HS by (apply lt_0_INR; lia).
  assert (0 <= (ln (INR L) - ln 3) / INR (steps - 1)) as HQ by (apply Rmult_le_pos; [auto|left; now apply Rinv_0_lt_compat]).
  assert (0 <= INR i <= INR (steps - 1)) as [I1 I2] by (split; [apply pos_INR|apply le_INR; lia]).
  split; apply exp_mono; cbn [INR]; nra.
Qed.

Theorem vc_sizes_range : forall L steps, (3 <= L)%nat -> (2 <= steps)%nat ->
  StronglySorted lt (vc_sizes L steps) /\ (length (vc_sizes L steps) <= steps)%nat /\
  In 3%nat (vc_sizes L steps) /\ In L (vc_sizes L steps) /\ forall l, In l (vc_sizes L steps) -> (3 <= l <= L)%nat.
Proof.
  intros L steps HL Hs. unfold vc_sizes, sizes_of. split; [apply unique_sorted|]. split.
  { etransitivity; [apply unique_length|]. now rewrite !map_length, seq_length. }
  split; [|split].
  - apply in_unique. apply in_map_iff. exists 3. split; [apply ceil_eq; cbn; lra|].
    apply in_map_iff. exists 0%nat. split; [apply logspace_first|]. apply in_seq. lia.
  - apply in_unique. apply in_map_iff. exists (INR L). split; [apply ceil_eq; rewrite <- INR_IZR_INZ; lra|].
    apply in_map_iff. exists (steps - 1)%nat. split; [apply logspace_last; lia|]. apply in_seq. lia.
  - intros l Hl. apply in_unique, in_map_iff in Hl as (v & E & Hv). apply in_map_iff in Hv as (i & <- & Hi). apply in_seq in Hi.
    destruct (logspace_range L steps i HL Hs ltac:(lia)) as [H1 H2].
    pose proof (ceil_ge _ 3 H1). rewrite INR_IZR_INZ in H2. pose proof (ceil_le _ _ H2). lia.
Qed.

(** steps = 1: only three neurons *)
Theorem vc_sizes_one : forall L, vc_sizes L 1 = [3%nat].
Proof.
  intros L. unfold vc_sizes, sizes_of. cbn [seq map]. rewrite logspace_first. replace (ceil 3) with 3%Z by (symmetry; apply ceil_eq; cbn; lra). reflexivity.
Qed.
(** fewer than three neurons: a size that does not exist *)
Theorem vc_sizes_small : forall L steps, (1 <= steps)%nat -> In 3%nat (vc_sizes L steps).
Proof.
  intros L steps Hs. unfold vc_sizes, sizes_of. apply in_unique. apply in_map_iff. exists 3. split; [apply ceil_eq; cbn; lra|].
  apply in_map_iff. exists 0%nat. split; [apply logspace_first|]. apply in_seq. lia.
Qed.

(** ** With rounded values *)
(** computed values with a relative error below 1/L name at most one size too many *)
Theorem sizes_rounded : forall L steps (vs : list R) d, (3 <= L)%nat -> (2 <= steps)%nat -> 0 <= d -> d * INR L < 1 -> 3 * d < 1 ->
  Forall2 (fun v i => Rabs (v - logspace L steps i) <= d * logspace L steps i) vs (seq 0 steps) ->
  (length (sizes_of vs) <= steps)%nat /\ forall l, In l (sizes_of vs) -> (3 <= l <= S L)%nat.
Proof.
  intros L steps vs d HL Hs Hd HdL Hd3 HF.
  assert (length vs = steps) as EL by (rewrite <- (seq_length steps 0); clear -HF; induction HF; cbn; auto).
  split. { unfold sizes_of. etransitivity; [apply unique_length|]. now rewrite map_length, EL. }
  intros l Hl. apply in_unique, in_map_iff in Hl as (v & E & Hv).
  assert (exists i, (i < steps)%nat /\ Rabs (v - logspace L steps i) <= d * logspace L steps i) as (i & Hi & Hr).
  { clear -HF Hv. assert (forall x, In x (seq 0 steps) -> (x < steps)%nat) as HI by (intros x Hx; apply in_seq in Hx; lia).
    induction HF as [|v' i vs is H HF IH]; [contradiction|]. destruct Hv as [->|Hv]; [exists i; split; [apply HI; now left|auto]|]. apply IH; auto. intros x Hx. apply HI. now right. }
  destruct (logspace_range L steps i HL Hs Hi) as [H1 H2]. set (x := logspace L steps i) in *.
  assert (- (d * x) <= v - x <= d * x) as [Hr1 Hr2] by (unfold Rabs in Hr; destruct (Rcase_abs (v - x)); nra).
  assert (v <= IZR (Z.of_nat (S L))) as U by (rewrite <- INR_IZR_INZ, S_INR; nra).
  assert (2 < v) as U2 by nra.
  pose proof (ceil_le _ _ U). destruct (ceil_spec v) as [_ C2]. assert (2 < IZR (ceil v)) as C3 by lra. apply lt_IZR in C3. lia.
Qed.
