(** The steps of mrsr form a path in the sense of MrsrSpec. *)
From Coq Require Import Reals Lra Permutation.
From Verif Require Import Base Num Mat LinAlg Mrsr MatFacts RankThms RLin ErrThms RidgeProofs RankMore MrsrSpec Spec.
Local Open Scope R_scope.
#[local] Existing Instance NumR.

Section Path.
Context {SG : @Sing NumR} {BR : @Brent NumR}.
Variables n m p : nat.
Variables H T : list (list R).
Hypothesis HX : @is_mat NumR n m H.
Hypothesis HT : @is_mat NumR n p T.

(** correlations of column j with the columns of the matrix f *)
Definition cv (f : nat -> nat -> R) (j : nat) : list R := map (fun o => total n (fun i => at_ H i j * f i o)) (seq 0 p).
Definition res_of (Y : nat -> nat -> R) (i o : nat) : R := at_ T i o - Y i o.

Lemma lt_len : forall {A} (l : list A) i k, length l = k -> (i < k)%nat -> (i < length l)%nat.
Proof. intros A l i k <- ?. auto. Qed.
Lemma total_S : forall k f, total k f = S_ k f.
Proof. reflexivity. Qed.
Ltac tot := repeat match goal with |- context [total ?k ?f] => change (total k f) with (S_ k f) end.
Lemma at_mR : forall M i j, at_ M i j = mR M i j.
Proof. reflexivity. Qed.
Lemma cv_length : forall f j, length (cv f j) = p.
Proof. intros. unfold cv. now rewrite map_length, seq_length. Qed.
Lemma cv_ext : forall f g j, (forall i o, (i < n)%nat -> (o < p)%nat -> f i o = g i o) -> cv f j = cv g j.
Proof.
  intros f g j E. unfold cv. apply map_ext_in. intros o Ho. apply in_seq in Ho. rewrite !total_S. apply sum_ext. intros i Hi. rewrite E by lia. reflexivity.
Qed.
Lemma strength_cv : forall Y j, residual_strength n p H T Y j = asum (cv (res_of Y) j).
Proof. intros. unfold residual_strength, asum, cv, total. rewrite map_map. reflexivity. Qed.
Lemma strength_ext : forall Y Y' j, (forall i o, (i < n)%nat -> (o < p)%nat -> Y i o = Y' i o) ->
  residual_strength n p H T Y j = residual_strength n p H T Y' j.
Proof. intros Y Y' j E. rewrite !strength_cv. f_equal. apply cv_ext. intros. unfold res_of. now rewrite E. Qed.
Lemma mix_cv : forall g f h j, mix g (cv f j) (cv h j) = cv (fun i o => f i o - g * h i o) j.
Proof.
  intros. unfold mix, cv. rewrite map2_map_l, map2_map_r. generalize (seq 0 p). induction l as [|o l IH]; [reflexivity|]. cbn [map2 map]. f_equal; [|exact IH].
  rewrite !total_S. rewrite <- (sum_scal n g). rewrite <- sum_sub. apply sum_ext. intros. rring.
Qed.
Lemma asum_scal : forall a v, asum (map (Rmult a) v) = Rabs a * asum v.
Proof. intros. unfold asum. induction v as [|x v IH]; unfold Rsum in *; cbn [map fold_right]; [ring|]. rewrite IH, Rabs_mult. ring. Qed.

(** all strengths of the chosen neurons are equal to that of the next one *)
Lemma path_equal : forall ks Y j, mrsr_path n m p H T ks Y -> strongest n m p H T Y ks j ->
  forall i, In i ks -> residual_strength n p H T Y i = residual_strength n p H T Y j.
Proof.
  intros ks Y j P (S1 & S2 & S3) i Hi. destruct P as [|ks Y0 j0 Yls g Y c P _ _ _ _ E1 E2 (l & L1 & L2 & L3)]; [destruct Hi|].
  rewrite (E1 i Hi). apply Rle_antisym; [|auto]. rewrite <- L3. apply S3; auto.
Qed.

Lemma path_next : forall ks Y j Yls rest A B g Y', mrsr_path n m p H T ks Y -> strongest n m p H T Y ks j ->
  best_fit n p H T (ks ++ [j]) Yls -> split_of m (ks ++ [j]) rest -> length A = p -> length B = p ->
  (forall l, (l < length rest)%nat -> @mcol NumR A l = cv (res_of Y) (nth l rest O)) ->
  (forall l, (l < length rest)%nat -> @mcol NumR B l = cv (fun i o => Yls i o - Y i o) (nth l rest O)) ->
  @min_step NumR (@g_matrix NumR p (length rest) (residual_strength n p H T Y j) A B) = Ok g ->
  (forall i o, (i < n)%nat -> (o < p)%nat -> Y' i o = (1 - g) * Y i o + g * Yls i o) ->
  mrsr_path n m p H T (ks ++ [j]) Y'.
Proof.
  intros ks Y j Yls rest A B g Y' P S LS SP LA LB EA EB Eg EY. set (cmax := residual_strength n p H T Y j) in *.
  assert (forall i, In i rest <-> (i < m)%nat /\ ~ In i (ks ++ [j])) as HR.
  { intros i. unfold split_of in SP. assert (NoDup ((ks ++ [j]) ++ rest)) as ND by (eapply Permutation_NoDup; [symmetry; exact SP|apply seq_NoDup]).
    split.
    - intros Hi. split; [|intros Q].
      + assert (In i (seq 0 m)) as Q by (eapply Permutation_in; [exact SP|]; apply in_or_app; auto). apply in_seq in Q. lia.
      + clear - ND Hi Q. induction (ks ++ [j]) as [|x l IH]; [destruct Q|]. cbn in ND. inversion ND as [|? ? N1 N2]; subst. destruct Q as [<-|Q]; [|auto].
        apply N1. apply in_or_app. auto.
    - intros [Hi Q]. assert (In i ((ks ++ [j]) ++ rest)) as Q2 by (eapply Permutation_in; [symmetry; exact SP|apply in_seq; lia]).
      apply in_app_or in Q2. tauto. }
  destruct (step_length p (length rest) cmax A B g LA LB) as (G0 & G1 & (l0 & Hl0 & G2)); [|exact Eg|].
  { intros l Hl. rewrite EA by auto. rewrite <- strength_cv. destruct S as (S1 & S2 & S3). apply S3.
    - apply HR. apply nth_In. auto.
    - intros Q. assert (In (nth l rest O) rest) as Q1 by (apply nth_In; auto). apply HR in Q1. apply Q1. apply in_or_app. auto. }
  assert (forall i, cv (fun i o => res_of Y i o - g * (Yls i o - Y i o)) i = cv (res_of Y') i) as EC.
  { intros i. apply cv_ext. intros a o Ha Ho. unfold res_of. rewrite EY by auto. ring. }
  assert (forall l, (l < length rest)%nat -> mix g (@mcol NumR A l) (@mcol NumR B l) = cv (res_of Y') (nth l rest O)) as EM.
  { intros l Hl. rewrite EA, EB by auto. rewrite mix_cv. apply EC. }
  assert (0 <= (1 - g) * cmax) as Hpos by (rewrite <- G2; apply asum_pos).
  assert (forall i, In i (ks ++ [j]) -> residual_strength n p H T Y' i = (1 - g) * cmax) as Hact.
  { intros i Hi. rewrite strength_cv. rewrite <- EC.
    assert (cv (fun a o => res_of Y a o - g * (Yls a o - Y a o)) i = map (Rmult (1 - g)) (cv (res_of Y) i)) as ->.
    { unfold cv. rewrite map_map. apply map_ext_in. intros o Ho. apply in_seq in Ho. destruct LS as [_ LS]. specialize (LS i o Hi ltac:(lia)).
      rewrite !total_S in *. unfold res_of.
      transitivity ((1 - g) * S_ n (fun a => at_ H a i * (at_ T a o - Y a o)) + g * S_ n (fun a => at_ H a i * (at_ T a o - Yls a o))).
      - rewrite <- !sum_scal, <- sum_add. apply sum_ext. intros. rring.
      - rewrite LS. rewrite Rmult_0_r, Rplus_0_r. reflexivity. }
    rewrite asum_scal, <- strength_cv.
    assert (residual_strength n p H T Y i = cmax) as ->.
    { apply in_app_or in Hi. destruct Hi as [Hi|[<-|[]]]; [|reflexivity]. apply (path_equal ks Y j P S i Hi). }
    assert (0 <= cmax) as Hc by (unfold cmax; rewrite strength_cv; apply asum_pos).
    rewrite <- (Rabs_pos_eq ((1 - g) * cmax)) by exact Hpos. rewrite Rabs_mult. now rewrite (Rabs_pos_eq cmax). }
  apply (Path_step n m p H T ks Y j Yls g Y' ((1 - g) * cmax)); auto.
  - intros i Hi. destruct (in_dec Nat.eq_dec i (ks ++ [j])) as [Q|Q]; [rewrite Hact by auto; lra|].
    assert (In i rest) as Hr by (apply HR; auto). destruct (In_nth rest i O Hr) as (l & Hl & <-). rewrite strength_cv, <- EM by auto. auto.
  - exists (nth l0 rest O). assert (In (nth l0 rest O) rest) as Q by (apply nth_In; auto). apply HR in Q. destruct Q. split; [auto|]. split; [auto|].
    rewrite strength_cv, <- EM by auto. exact G2.
Qed.

(** ---- matrices of the model ---- *)
Lemma mcol_tdot : forall c A B j, length A = n -> length B = n -> (j < c)%nat ->
  @mcol NumR (@tdot NumR p c A B) j = map (fun o => S_ n (fun i => mR B i j * mR A i o)) (seq 0 p).
Proof.
  intros c A B j LA LB Hj. unfold mcol, tdot, mk. rewrite map_map. apply map_ext_in. intros o Ho. apply in_seq in Ho.
  pose proof (tdot_sum n p c A B o j LA LB ltac:(lia) Hj) as E. unfold mget, tdot in E. rewrite nth_mk in E by lia. unfold num, NumR in *. rewrite E.
  apply sum_ext. intros. apply Rmult_comm.
Qed.
Lemma at_csel : forall ix i l, (i < n)%nat -> (l < length ix)%nat -> mR (@csel NumR H ix) i l = at_ H i (nth l ix O).
Proof.
  intros ix i l Hi Hl. unfold mget, csel, at_. rewrite (nth_map_lt _ H i [] []) by (eapply lt_len; [apply HX|auto]).
  unfold vsel, vget. rewrite (nth_map_lt _ ix l O 0) by auto. reflexivity.
Qed.
Lemma mcol_csel_cv : forall A ix l, length A = n -> (l < length ix)%nat ->
  @mcol NumR (@tdot NumR p (length ix) A (@csel NumR H ix)) l = cv (mR A) (nth l ix O).
Proof.
  intros A ix l LA Hl. rewrite mcol_tdot; auto.
  - unfold cv. apply map_ext_in. intros o _. tot. apply sum_ext. intros i Hi. rewrite at_csel by auto. reflexivity.
  - unfold csel. rewrite map_length. apply HX.
Qed.
Definition skip (c l : nat) : nat := if (l <? c)%nat then l else S l.
Lemma nth_del : forall {A} (d : A) c l j, nth j (del_nth c l) d = nth (skip c j) l d.
Proof.
  unfold skip. induction c as [|c IH]; intros [|x l] j; cbn [del_nth].
  - destruct j; reflexivity.
  - reflexivity.
  - destruct (j <? S c)%nat; destruct j; reflexivity.
  - destruct j as [|j]; [reflexivity|]. cbn [nth]. rewrite IH. change (S j <? S c)%nat with (j <? c)%nat. destruct (j <? c)%nat; reflexivity.
Qed.
Lemma mcol_del : forall c M l, @mcol NumR (@del_col NumR c M) l = @mcol NumR M (skip c l).
Proof. intros. unfold mcol, del_col. rewrite map_map. apply map_ext. intros row. unfold vget. apply nth_del. Qed.
Lemma skip_lt : forall {A} c l (ix : list A), (c < length ix)%nat -> (l < length (del_nth c ix))%nat -> (skip c l < length ix)%nat.
Proof. intros A c l ix Hc Hl. pose proof (del_nth_length c ix Hc). unfold skip. destruct (l <? c)%nat; lia. Qed.
Lemma colsum_asum : forall c A j, (j < c)%nat -> @vget NumR (@abs_colsum NumR c A) j = asum (@mcol NumR A j).
Proof. intros c A j Hj. unfold abs_colsum. rewrite vget_mkv by auto. unfold asum, mcol. rewrite map_map. reflexivity. Qed.
Lemma mR_sub : forall A B i o, @is_mat NumR n p A -> @is_mat NumR n p B -> (i < n)%nat -> (o < p)%nat -> mR (@msubm NumR A B) i o = mR A i o - mR B i o.
Proof.
  intros A B i o HA HB Hi Ho. unfold mget, msubm. rewrite (nth_map2 _ A B i [] [] []) by (eapply lt_len; [first [apply HA|apply HB]|auto]).
  unfold vget. pose proof (is_mat_row _ _ _ i HA Hi) as R1. pose proof (is_mat_row _ _ _ i HB Hi) as R2.
  rewrite (nth_map2 _ _ _ o n0 n0 n0) by (eapply lt_len; [first [exact R1|exact R2]|auto]). reflexivity.
Qed.
Lemma is_mat_msubm : forall A B, @is_mat NumR n p A -> @is_mat NumR n p B -> @is_mat NumR n p (@msubm NumR A B).
Proof.
  intros A B [L1 F1] [L2 F2]. unfold msubm. split; [rewrite map2_length, L1, L2; apply Nat.min_id|].
  clear L1 L2 HX HT. revert B F2. induction F1 as [|a A Ha F1 IH]; intros B F2; [constructor|]. destruct F2 as [|b B Hb F2]; [constructor|]. cbn [map2]. constructor; [|auto].
  rewrite map2_length, Ha, Hb. apply Nat.min_id.
Qed.
Lemma is_mat_mscale : forall a A, @is_mat NumR n p A -> @is_mat NumR n p (@mscale NumR a A).
Proof.
  intros a A [L F]. split; [unfold mscale; now rewrite map_length|]. unfold mscale. apply Forall_map. eapply Forall_impl; [|exact F]. intros r Hr. cbv beta. now rewrite map_length.
Qed.
Lemma mR_scale : forall a A i o, @is_mat NumR n p A -> (i < n)%nat -> (o < p)%nat -> mR (@mscale NumR a A) i o = a * mR A i o.
Proof.
  intros a A i o HA Hi Ho. unfold mget, mscale. rewrite (nth_map_lt _ A i [] []) by (eapply lt_len; [apply HA|auto]).
  unfold vget. pose proof (is_mat_row _ _ _ i HA Hi) as R1. rewrite (nth_map_lt _ _ o n0 n0) by (eapply lt_len; [exact R1|auto]). reflexivity.
Qed.

(** ---- the least squares solution ---- *)
Hypothesis IND : independent n m H.

Lemma gram_inj : forall ks, NoDup ks -> (forall k, In k ks -> (k < m)%nat) ->
  minj (length ks) (mR (@tdot NumR (length ks) (length ks) (@csel NumR H ks) (@csel NumR H ks))).
Proof.
  intros ks ND Hk x Hx. set (q := length ks) in *.
  assert (length (@csel NumR H ks) = n) as LC by (unfold csel; rewrite map_length; apply HX).
  set (z := fun i => S_ q (fun l => mR (@csel NumR H ks) i l * x l)).
  assert (S_ n (fun i => z i * z i) = 0) as Hz.
  { transitivity (S_ q (fun a => x a * S_ q (fun l => mR (@tdot NumR q q (@csel NumR H ks) (@csel NumR H ks)) a l * x l))).
    - transitivity (S_ n (fun i => S_ q (fun a => x a * (mR (@csel NumR H ks) i a * z i)))).
      + apply sum_ext. intros i Hi. unfold z at 1. rewrite <- sum_scal_r. apply sum_ext. intros. rring.
      + rewrite sum_swap. apply sum_ext. intros a Ha. rewrite sum_scal. f_equal.
        transitivity (S_ n (fun i => S_ q (fun l => mR (@csel NumR H ks) i a * mR (@csel NumR H ks) i l * x l))).
        * apply sum_ext. intros i Hi. unfold z. rewrite <- sum_scal. apply sum_ext. intros. rring.
        * rewrite sum_swap. apply sum_ext. intros l Hl. rewrite (tdot_sum n) by auto. now rewrite sum_scal_r.
    - apply sum_zero. intros a Ha. rewrite Hx by auto. rring. }
  assert (forall i, (i < n)%nat -> z i = 0) as Hz0.
  { intros i Hi. pose proof (sum_nonneg_zero n _ ltac:(intros; apply Rle_0_sqr) Hz i Hi) as Z0. apply Rsqr_0_uniq in Z0. exact Z0. }
  set (y := fun j => S_ q (fun l => if (nth l ks O =? j)%nat then x l else 0)).
  assert (forall j, (j < m)%nat -> y j = 0) as Hy.
  { apply IND. intros i Hi. rewrite <- (Hz0 i Hi). tot. unfold y, z.
    transitivity (S_ m (fun j => S_ q (fun l => if (j =? nth l ks O)%nat then at_ H i j * x l else 0))).
    - apply sum_ext. intros j Hj. rewrite <- sum_scal. apply sum_ext. intros l Hl. rewrite Nat.eqb_sym. destruct (j =? nth l ks O)%nat; rring.
    - rewrite sum_swap. apply sum_ext. intros l Hl. rewrite (sum_delta m (nth l ks O) (fun j => at_ H i j * x l)).
      + rewrite at_csel by auto. reflexivity.
      + apply Hk. apply nth_In. auto. }
  intros l Hl. specialize (Hy (nth l ks O) ltac:(apply Hk; apply nth_In; auto)). unfold y in Hy. rewrite <- Hy.
  transitivity (S_ q (fun a => if (a =? l)%nat then x a else 0)); [now rewrite (sum_delta q l x)|].
  apply sum_ext. intros a Ha. destruct (Nat.eqb_spec a l) as [->|N]; [now rewrite Nat.eqb_refl|].
  destruct (Nat.eqb_spec (nth a ks O) (nth l ks O)) as [E|]; [|reflexivity]. exfalso. apply N. eapply NoDup_nth; eauto.
Qed.

Lemma ls_fit : forall ks P, NoDup ks -> (forall k, In k ks -> (k < m)%nat) ->
  (P = match @inv NumR (length ks) (@tdot NumR (length ks) (length ks) (@csel NumR H ks) (@csel NumR H ks)) with
       | Ok M => M | Err _ => @pinv NumR SG (length ks) (@tdot NumR (length ks) (length ks) (@csel NumR H ks) (@csel NumR H ks)) end) ->
  let Yols := @mmul NumR p (@csel NumR H ks) (@mmul NumR p P (@rsel NumR (@tdot NumR m p H T) ks)) in
  @is_mat NumR n p Yols /\ best_fit n p H T ks (mR Yols).
Proof.
  intros ks P ND Hk EP Yols. set (q := length ks) in *. set (G := @tdot NumR q q (@csel NumR H ks) (@csel NumR H ks)) in *.
  assert (length (@csel NumR H ks) = n) as LC by (unfold csel; rewrite map_length; apply HX).
  assert (minj q (mR G)) as MJ by (apply gram_inj; auto).
  assert (forall i j, (i < q)%nat -> (j < q)%nat -> mR G i j = mR G j i) as SY.
  { intros i j Hi Hj. unfold G. rewrite !(tdot_sum n) by auto. apply sum_ext. intros. rring. }
  assert (minj q (fun i j => mR G j i)) as MJ'.
  { intros x Hx. apply MJ. intros i Hi. rewrite <- (Hx i Hi). apply sum_ext. intros j Hj. now rewrite SY. }
  destruct (pinv_solves q G (is_mat_tdot _ _ _ _) MJ MJ') as (SP & MP & EI). rewrite EI in EP. subst P. set (P := @pinv NumR SG q G) in *. clearbody P.
  set (XT := @rsel NumR (@tdot NumR m p H T) ks) in *.
  assert (@is_mat NumR q p XT) as SX.
  { unfold XT, rsel. split; [now rewrite map_length|]. apply Forall_map. apply Forall_forall. intros k Hkk. eapply is_mat_row; [apply is_mat_tdot|auto]. }
  pose proof (inv_mul_solves q p G P XT SP SX MP) as SOL. set (W := @mmul NumR p P XT) in *.
  assert (length W = q) as LW by (unfold W, mmul; rewrite map_length; apply SP).
  assert (forall i o, (i < n)%nat -> (o < p)%nat -> mR Yols i o = S_ q (fun l => mR (@csel NumR H ks) i l * mR W l o)) as EY.
  { intros i o Hi Ho. unfold Yols. rewrite mget_mmul by (auto; lia). rewrite (dotv_sum _ _ q).
    - apply sum_ext. intros l Hl. rewrite vget_mcol by lia. reflexivity.
    - unfold csel. rewrite (nth_map_lt _ H i [] []) by (eapply lt_len; [apply HX|auto]). unfold vsel. now rewrite map_length.
    - now rewrite mcol_length. }
  split; [unfold Yols; rewrite <- LC at 1; apply is_mat_mmul|]. split.
  - exists (mR W). intros i o Hi Ho. rewrite EY by auto. fold q. tot. apply sum_ext. intros l Hl. now rewrite at_csel by auto.
  - intros k o Hkk Ho. destruct (In_nth ks k O Hkk) as (l & Hl & <-). fold q in Hl. specialize (SOL l o Hl Ho).
    tot. transitivity (S_ n (fun i => at_ H i (nth l ks O) * at_ T i o) - S_ n (fun i => at_ H i (nth l ks O) * mR Yols i o)).
    { rewrite <- sum_sub. apply sum_ext. intros. rring. }
    assert (S_ n (fun i => at_ H i (nth l ks O) * at_ T i o) = mR XT l o) as E1.
    { unfold XT, mget, rsel. rewrite (nth_map_lt _ ks l O []) by auto. symmetry. apply (tdot_sum n m p H T (nth l ks O) o); auto; [apply HX|apply HT]. }
    assert (S_ n (fun i => at_ H i (nth l ks O) * mR Yols i o) = S_ q (fun a => mR G l a * mR W a o)) as E2.
    { transitivity (S_ n (fun i => S_ q (fun a => mR (@csel NumR H ks) i l * mR (@csel NumR H ks) i a * mR W a o))).
      - apply sum_ext. intros i Hi. rewrite EY by auto. rewrite <- sum_scal. apply sum_ext. intros a Ha. rewrite !at_csel by auto. rring.
      - rewrite sum_swap. apply sum_ext. intros a Ha. unfold G. rewrite (tdot_sum n) by auto. now rewrite sum_scal_r. }
    rewrite E1, E2, SOL. rring.
Qed.

Definition on_path (st : @mst NumR) : Prop :=
  mrsr_path n m p H T (i1 st) (mR (mY st)) /\ @is_mat NumR n p (mY st) /\ split_of m (i1 st) (i2 st).

Lemma split_facts : forall a b, split_of m a b -> NoDup a /\ (forall k, In k a -> (k < m)%nat) /\
  (forall k, In k b <-> (k < m)%nat /\ ~ In k a).
Proof.
  intros a b SP. unfold split_of in SP. assert (NoDup (a ++ b)) as ND by (eapply Permutation_NoDup; [symmetry; exact SP|apply seq_NoDup]).
  assert (forall k, In k (a ++ b) <-> (k < m)%nat) as HI.
  { intros k. split; intros Q.
    - apply (Permutation_in _ SP) in Q. apply in_seq in Q. lia.
    - eapply Permutation_in; [symmetry; exact SP|]. apply in_seq. lia. }
  split; [|split].
  - clear - ND. induction a as [|x a IH]; [constructor|]. inversion ND as [|? ? N1 N2]; subst. constructor; [|auto]. intros Q. apply N1. apply in_or_app. auto.
  - intros k Hk. apply HI. apply in_or_app. auto.
  - intros k. split.
    + intros Hk. split; [apply HI; apply in_or_app; auto|]. intros Q. clear - ND Hk Q. induction a as [|x a IH]; [destruct Q|].
      inversion ND as [|? ? N1 N2]; subst. destruct Q as [<-|Q]; [apply N1; apply in_or_app; auto|auto].
    + intros [Hk Q]. apply HI in Hk. apply in_app_or in Hk. tauto.
Qed.

(** the neuron chosen in a step is the strongest of the remaining ones *)
Lemma chosen : forall ks rest Y (A0 : list (list R)), split_of m ks rest -> rest <> [] ->
  (forall l, (l < length rest)%nat -> @mcol NumR A0 l = cv (res_of Y) (nth l rest O)) ->
  let cind := @argmax NumR (@abs_colsum NumR (length rest) A0) in
  (cind < length rest)%nat /\ strongest n m p H T Y ks (nth cind rest O) /\
  @vget NumR (@abs_colsum NumR (length rest) A0) cind = residual_strength n p H T Y (nth cind rest O).
Proof.
  intros ks rest Y A0 SP Hne EA cind. destruct (split_facts ks rest SP) as (F1 & F2 & F3).
  assert (length (@abs_colsum NumR (length rest) A0) = length rest) as HL by apply abs_colsum_length.
  assert (@abs_colsum NumR (length rest) A0 <> []) as Hss by (intros Q; rewrite Q in HL; destruct rest; [congruence|discriminate]).
  destruct (argmax_first _ Hss) as (A1 & A2 & _). fold cind in A1, A2. cbn [num NumR] in *. rewrite HL in *.
  assert (forall l, (l < length rest)%nat -> @vget NumR (@abs_colsum NumR (length rest) A0) l = residual_strength n p H T Y (nth l rest O)) as HE.
  { intros l Hl. rewrite colsum_asum by auto. rewrite EA by auto. now rewrite strength_cv. }
  split; [exact A1|]. split; [|apply HE; exact A1].
  assert (In (nth cind rest O) rest) as Hin by (apply nth_In; exact A1). apply F3 in Hin. destruct Hin as [Q1 Q2].
  split; [exact Q1|]. split; [exact Q2|]. intros i Hi Hn. assert (In i rest) as Hr by (apply F3; auto).
  destruct (In_nth rest i O Hr) as (l & Hl & <-). rewrite <- (HE l Hl), <- (HE cind A1). exact (A2 l Hl).
Qed.

Lemma del_split : forall ks rest c, split_of m ks rest -> (c < length rest)%nat -> split_of m (ks ++ [nth c rest O]) (del_nth c rest).
Proof. intros ks rest c SP Hc. unfold split_of in *. rewrite <- SP, <- app_assoc. apply Permutation_app_head. cbn [app]. now apply del_nth_perm. Qed.

Lemma step_on_path : forall kmax k st st', on_path st -> @mrsr_step NumR SG H T m p kmax k st = Ok st' ->
  (exists j, i1 st' = i1 st ++ [j] /\ strongest n m p H T (mR (mY st)) (i1 st) j) /\ (k <> kmax -> on_path st').
Proof.
  intros kmax k st st' (P & SY & SP) E. unfold mrsr_step in E.
  set (A0 := @tdot NumR p (length (i2 st)) (@msubm NumR T (mY st)) (@csel NumR H (i2 st))) in *.
  assert (forall l, (l < length (i2 st))%nat -> @mcol NumR A0 l = cv (res_of (mR (mY st))) (nth l (i2 st) O)) as EA.
  { intros l Hl. unfold A0. rewrite mcol_csel_cv; [|apply (is_mat_msubm T (mY st) HT SY)|exact Hl]. apply cv_ext. intros i o Hi Ho. rewrite mR_sub by auto. reflexivity. }
  assert (@abs_colsum NumR (length (i2 st)) A0 <> []) as Hss by (intros Q; rewrite Q in E; discriminate).
  assert (i2 st <> []) as Hne by (intros Q; apply Hss; rewrite Q; reflexivity).
  destruct (chosen (i1 st) (i2 st) (mR (mY st)) A0 SP Hne EA) as (C1 & C2 & C3).
  destruct (@abs_colsum NumR (length (i2 st)) A0) as [|s0 ss] eqn:Ess; [congruence|]. clear Hss. cbv zeta in E.
  set (cind := @argmax NumR (s0 :: ss)) in *. set (ind := nth cind (i2 st) O) in *. set (rest := del_nth cind (i2 st)) in *.
  pose proof (del_split (i1 st) (i2 st) cind SP C1) as SP'. fold ind rest in SP'.
  destruct (split_facts _ _ SP') as (F1 & F2 & F3).
  set (act := i1 st ++ [ind]) in *.
  destruct (ls_fit act _ F1 F2 eq_refl) as (SYo & LS). cbv zeta in SYo, LS.
  match type of LS with best_fit _ _ _ _ _ (mR ?Y0) => set (Yols := Y0) in * end.
  assert (length (i2 st) - 1 = length rest)%nat as Hlen by (pose proof (del_nth_length cind (i2 st) C1) as Q; fold rest in Q; lia).
  rewrite Hlen in E. destruct (Nat.eqb_spec k kmax) as [Hk|Hk].
  - injection E as <-. cbn [i1]. split; [exists ind; split; [reflexivity|exact C2]|]. congruence.
  - match type of E with context [@g_matrix NumR p _ ?cm ?A ?B] => set (A1 := A) in *; set (B1 := B) in * end.
    destruct (min_step _) as [g|] eqn:Eg; cbn [rbind] in E; [|discriminate]. injection E as <-. cbn [i1 i2 mY].
    split; [exists ind; split; [reflexivity|exact C2]|]. intros _.
    assert (@is_mat NumR n p (@madd NumR (@mscale NumR (1 - g) (mY st)) (@mscale NumR g Yols))) as SN by (apply is_mat_madd; apply is_mat_mscale; auto).
    split; [|split; [exact SN|exact SP']].
    apply (path_next (i1 st) (mR (mY st)) ind (mR Yols) rest A1 B1 g); auto.
    + unfold A1, del_col. rewrite map_length. apply mk_length.
    + apply mk_length.
    + intros l Hl. unfold A1. rewrite mcol_del. rewrite EA by (apply (skip_lt cind l (i2 st)); auto). f_equal. symmetry. apply (nth_del O cind (i2 st) l).
    + intros l Hl. unfold B1. rewrite mcol_csel_cv; [|apply (is_mat_msubm Yols (mY st) SYo SY)|exact Hl]. apply cv_ext. intros i o Hi Ho. rewrite mR_sub by auto. reflexivity.
    + rewrite <- C3. exact Eg.
    + intros i o Hi Ho. cbn [mY]. pose proof (@mget_madd NumR n p (@mscale NumR (1 - g) (mY st)) (@mscale NumR g Yols) i o (is_mat_mscale _ _ SY) (is_mat_mscale _ _ SYo) Hi Ho) as Q. rewrite !mR_scale in Q by auto. exact Q.
Qed.

Lemma loop_on_path : forall kmax len k st st', on_path st -> (k + len = S kmax)%nat -> (1 <= len)%nat ->
  @mrsr_loop NumR SG H T m p kmax (seq k len) st = Ok st' ->
  exists ks Y j, i1 st' = ks ++ [j] /\ mrsr_path n m p H T ks Y /\ strongest n m p H T Y ks j.
Proof.
  induction len as [|len IH]; intros k st st' P Hk Hl E; [lia|]. cbn [seq mrsr_loop] in E.
  destruct (mrsr_step _ _ _ _ _ _ st) as [st1|] eqn:E1; cbn [rbind] in E; [|discriminate].
  destruct (step_on_path kmax k st st1 P E1) as ((j & Q1 & Q2) & Q3). destruct len as [|len].
  - cbn [seq mrsr_loop] in E. injection E as <-. exists (i1 st), (mR (mY st)), j. split; [exact Q1|]. split; [apply P|exact Q2].
  - apply (IH (S k) st1 st'); auto; try lia. apply Q3. lia.
Qed.

Lemma first_on_path : forall st, @mrsr_first NumR H T m p = Ok st ->
  on_path st /\ exists j, i1 st = [j] /\ strongest n m p H T (fun _ _ => 0) [] j.
Proof.
  intros st E. pose proof (mrsr_first_split H T m p st E) as [SP0 _]. unfold mrsr_first in E.
  set (A0 := @tdot NumR p m T H) in *.
  assert (forall l, (l < m)%nat -> @mcol NumR A0 l = cv (res_of (fun _ _ => 0)) l) as EA.
  { intros l Hl. unfold A0. rewrite mcol_tdot; [|apply HT|apply HX|exact Hl]. unfold cv. apply map_ext_in. intros o _. tot. apply sum_ext. intros i Hi.
    unfold res_of. rewrite Rminus_0_r. reflexivity. }
  assert (split_of m [] (seq 0 m)) as SPs by (unfold split_of; apply Permutation_refl).
  assert (@abs_colsum NumR m A0 <> []) as Hss by (intros Q; rewrite Q in E; discriminate).
  assert (length (seq 0 m) = m) as Hm by apply seq_length.
  assert (seq 0 m <> []) as Hne by (intros Q; apply Hss; rewrite Q in Hm; cbn in Hm; subst m; reflexivity).
  destruct (chosen [] (seq 0 m) (fun _ _ => 0) A0 SPs Hne) as (C1 & C2 & C3).
  { intros l Hl. rewrite Hm in Hl. rewrite EA by auto. f_equal. symmetry. now apply seq_nth_lt. }
  rewrite Hm in *. destruct (@abs_colsum NumR m A0) as [|s0 ss] eqn:Ess; [congruence|]. clear Hss. cbv zeta in E.
  set (cind := @argmax NumR (s0 :: ss)) in *. set (ind := nth cind (seq 0 m) O) in *. set (rest := del_nth cind (seq 0 m)) in *.
  assert (cind < length (seq 0 m))%nat as C1' by now rewrite Hm.
  pose proof (del_split [] (seq 0 m) cind SPs C1') as SP'. fold ind rest in SP'. cbn [app] in SP'.
  destruct (np_div _ _) as [iv| | |] eqn:Ei; try discriminate.
  assert (m - 1 = length rest)%nat as Hlen by (pose proof (del_nth_length cind (seq 0 m) C1') as Q; fold rest in Q; lia).
  rewrite Hlen in E.
  match type of E with context [@mscale NumR _ ?Y0] => set (Yols := Y0) in * end.
  match type of E with context [@g_matrix NumR p _ ?cm ?A ?B] => set (A1 := A) in *; set (B1 := B) in * end.
  destruct (min_step _) as [g|] eqn:Eg; cbn [rbind] in E; [|discriminate]. injection E as <-. cbn [i1 i2 mY] in *.
  split; [|exists ind; split; [reflexivity|exact C2]].
  assert (ind < m)%nat as Hind by apply C2.
  assert (length (nth ind (@tdot NumR m p H T) []) = p) as Lw by (eapply is_mat_row; [apply is_mat_tdot|exact Hind]).
  assert (@is_mat NumR n p Yols) as SYo.
  { unfold Yols. split; [rewrite map_length; unfold mcol; rewrite map_length; apply HX|]. apply Forall_map. apply Forall_forall. intros x _. rewrite !map_length. exact Lw. }
  assert (iv * total n (fun i => at_ H i ind * at_ H i ind) = 1) as Hiv.
  { unfold np_div in Ei. change (@neqb NumR) with Reqb in Ei. unfold Reqb in Ei. change (@n0 NumR) with 0 in Ei.
    assert (@dotv NumR (@mcol NumR H ind) (@mcol NumR H ind) = total n (fun i => at_ H i ind * at_ H i ind)) as Ed.
    { rewrite (dotv_sum _ _ n); [|rewrite mcol_length; apply HX|rewrite mcol_length; apply HX]. tot. apply sum_ext. intros i Hi.
      rewrite vget_mcol by (eapply lt_len; [apply HX|auto]). reflexivity. }
    cbn [num NumR] in *. rewrite Ed in Ei. destruct (Req_EM_T _ 0) as [Z|Z]; [destruct (Req_EM_T _ 0); [discriminate|unfold xinf in Ei; destruct (nltb _ _); discriminate]|].
    injection Ei as <-. change (1 / total n (fun i => at_ H i ind * at_ H i ind) * total n (fun i => at_ H i ind * at_ H i ind) = 1). field. exact Z. }
  assert (forall i o, (i < n)%nat -> (o < p)%nat -> mR Yols i o = at_ H i ind * (iv * total n (fun a => at_ H a ind * at_ T a o))) as EY.
  { intros i o Hi Ho. unfold Yols, mget. rewrite (nth_map_lt _ (@mcol NumR H ind) i 0 []) by (rewrite mcol_length; eapply lt_len; [apply HX|auto]).
    unfold vget. rewrite (nth_map_lt _ _ o 0 0) by (rewrite map_length; eapply lt_len; [exact Lw|auto]).
    rewrite (nth_map_lt _ _ o 0 0) by (eapply lt_len; [exact Lw|auto]).
    change (@vget NumR (@mcol NumR H ind) i * (iv * mR (@tdot NumR m p H T) ind o) = at_ H i ind * (iv * total n (fun a => at_ H a ind * at_ T a o))).
    rewrite vget_mcol by (eapply lt_len; [apply HX|auto]). rewrite (tdot_sum n) by (first [apply HX|apply HT|auto]). reflexivity. }
  assert (best_fit n p H T ([] ++ [ind]) (mR Yols)) as LS.
  { split.
    - exists (fun _ o => iv * total n (fun a => at_ H a ind * at_ T a o)). intros i o Hi Ho. rewrite EY by auto. cbn [app length]. unfold total at 2. cbn. unfold Rsum. cbn. ring.
    - intros k o [<-|[]] Ho. set (t := total n (fun a => at_ H a ind * at_ T a o)).
      transitivity (t - iv * total n (fun i => at_ H i ind * at_ H i ind) * t).
      + unfold t at 1. tot. rewrite <- (sum_scal n iv). rewrite <- sum_scal_r. rewrite <- sum_sub. apply sum_ext. intros i Hi. rewrite EY by auto. fold t. rring.
      + rewrite Hiv. ring. }
  split; [|split; [apply is_mat_mscale; exact SYo|exact SP']].
  apply (path_next [] (fun _ _ => 0) ind (mR Yols) rest A1 B1 g); auto.
  - constructor.
  - unfold A1, del_col. rewrite map_length. apply mk_length.
  - apply mk_length.
  - intros l Hl. unfold A1. rewrite mcol_del. pose proof (skip_lt cind l (seq 0 m) C1' Hl) as Hs. rewrite Hm in Hs. rewrite EA by exact Hs. f_equal.
    unfold rest. rewrite nth_del. symmetry. now apply seq_nth_lt.
  - intros l Hl. unfold B1. rewrite mcol_csel_cv; [|apply SYo|exact Hl]. apply cv_ext. intros i o Hi Ho. symmetry. apply Rminus_0_r.
  - rewrite <- C3. exact Eg.
  - intros i o Hi Ho. cbn [mY]. rewrite mR_scale by auto. rring.
Qed.

(** the ranking is read off a path: every neuron is the strongest one at its turn *)
Theorem mrsr_on_path : forall kmax r, @mrsr NumR SG H T m p kmax = Ok r ->
  exists ks Y j, r = ks ++ [j] /\ mrsr_path n m p H T ks Y /\ strongest n m p H T Y ks j.
Proof.
  intros kmax r E. unfold mrsr in E. destruct (@mrsr_first NumR H T m p) as [st|] eqn:E1; cbn [rbind] in E; [|discriminate].
  destruct (mrsr_loop _ _ _ _ _ _ st) as [st2|] eqn:E2; cbn [rbind] in E; [|discriminate]. injection E as <-.
  destruct (first_on_path st E1) as (P & j & Q1 & Q2). destruct (Nat.min kmax m - 1)%nat as [|len] eqn:Hlen.
  - cbn [seq mrsr_loop] in E2. injection E2 as <-. exists [], (fun _ _ => 0), j. split; [exact Q1|]. split; [constructor|exact Q2].
  - rewrite <- Hlen in E2. apply (loop_on_path (Nat.min kmax m) (Nat.min kmax m - 1) 2 st st2 P); auto; lia.
Qed.

(** ---- when the ranking succeeds ---- *)
Lemma xmin_from_fin : forall l x, (exists a, x = @Fin NumR a \/ In (@Fin NumR a) l) -> exists g, @xmin_from NumR x l = Fin g.
Proof.
  induction l as [|y l IH]; intros x (a & [->|Ha]); cbn [xmin_from]; try (exists a; reflexivity); try contradiction.
  - destruct y; apply IH; eexists; left; reflexivity.
  - destruct Ha as [->|Ha].
    + destruct x; apply IH; eexists; left; reflexivity.
    + destruct y as [b| | |]; [destruct x; apply IH; eexists; left; reflexivity| | |]; apply IH; exists a; auto.
Qed.
Lemma min_step_some : forall G a, In (@Fin NumR a) G -> 0 <= a -> exists g, @min_step NumR G = Ok g.
Proof.
  intros G a Hin Ha. unfold min_step. assert (In (@Fin NumR a) (filter (@xnonneg NumR) G)) as Q.
  { apply filter_In. split; [exact Hin|]. cbn [xnonneg]. change (@nltb NumR a (@n0 NumR)) with (Rltb a 0). unfold Rltb. destruct (Rlt_dec a 0); [lra|reflexivity]. }
  destruct (xmin_from_fin (filter (@xnonneg NumR) G) PInf (ex_intro _ a (or_intror Q))) as (g & Eg).
  destruct (filter _ G) as [|x l]; [destruct Q|]. rewrite Eg. eauto.
Qed.
Lemma min_step_ok : forall c cmax (A B : list (list R)), length A = p -> length B = p -> (0 < c)%nat -> 0 < cmax ->
  (forall j, (j < c)%nat -> asum (@mcol NumR A j) <= cmax) -> exists g, @min_step NumR (@g_matrix NumR p c cmax A B) = Ok g.
Proof.
  intros c cmax A B LA LB Hc Hpos HA.
  destruct (sign_exists (repeat 0 p)) as (s & Hs & _). rewrite repeat_length in Hs.
  assert (exists s', In s' (@signs NumR p) /\ forall v, length v = p -> @dotv NumR s' v = - @dotv NumR s v) as (s' & Hs' & Es').
  { clear - Hs. revert s Hs. generalize p. induction p0 as [|q IH]; intros s Hs; cbn [signs] in Hs.
    - destruct Hs as [<-|[]]. exists []. split; [left; reflexivity|]. intros [|? ?] ?; [|discriminate]. unfold dotv. cbn. lra.
    - apply in_app_or in Hs. destruct Hs as [Hs|Hs]; apply in_map_iff in Hs; destruct Hs as (t & <- & Ht); destruct (IH t Ht) as (t' & Ht' & Et').
      + exists (1 :: t'). split; [cbn [signs]; apply in_or_app; right; apply in_map; exact Ht'|]. intros [|a v] Hv; [discriminate|]. injection Hv as Hv.
        rewrite !dotv_cons, (Et' v Hv). change (@nopp NumR (@n1 NumR)) with (- (1)). rring.
      + exists (- (1) :: t'). split; [cbn [signs]; apply in_or_app; left; apply in_map; exact Ht'|]. intros [|a v] Hv; [discriminate|]. injection Hv as Hv.
        rewrite !dotv_cons, (Et' v Hv). change (@n1 NumR) with 1. rring. }
  assert (length (@mcol NumR A O) = p) as La by (rewrite mcol_length; exact LA). assert (length (@mcol NumR B O) = p) as Lb by (rewrite mcol_length; exact LB).
  pose proof (sign_bound p s _ Hs La) as Sb. specialize (HA O Hc). pose proof (Es' _ La) as Ea. pose proof (Es' _ Lb) as Eb.
  set (a := @dotv NumR s (@mcol NumR A O)) in *. set (b := @dotv NumR s (@mcol NumR B O)) in *.
  assert (forall t x y, In t (@signs NumR p) -> @dotv NumR t (@mcol NumR A O) = x -> @dotv NumR t (@mcol NumR B O) = y -> 0 <= cmax + x -> 0 < cmax + y ->
    exists g, @min_step NumR (@g_matrix NumR p c cmax A B) = Ok g) as K.
  { intros t x y Ht Ex Ey Hx Hy. apply (min_step_some _ ((cmax + x) / (cmax + y))).
    - apply in_g_matrix. exists t, O. split; [exact Ht|]. split; [exact Hc|]. rewrite Ex, Ey. unfold np_div. change (@neqb NumR) with Reqb. unfold Reqb. change (@n0 NumR) with 0.
      destruct (Req_EM_T (cmax + y) 0); [lra|reflexivity].
    - apply Rmult_le_pos; [lra|left; now apply Rinv_0_lt_compat]. }
  cbn [num NumR] in *. destruct (Rlt_le_dec 0 (cmax + b)) as [Q|Q].
  - apply (K s a b); auto; lra.
  - apply (K s' (- a) (- b)); auto; lra.
Qed.

Lemma cmax_zero : forall ks Y j, mrsr_path n m p H T ks Y -> strongest n m p H T Y ks j -> residual_strength n p H T Y j <= 0 ->
  forall i, (i < m)%nat -> residual_strength n p H T Y i = 0.
Proof.
  intros ks Y j P S Z i Hi. assert (0 <= residual_strength n p H T Y i) as Q by (rewrite strength_cv; apply asum_pos).
  assert (0 <= residual_strength n p H T Y j) as Q' by (rewrite strength_cv; apply asum_pos).
  destruct (in_dec Nat.eq_dec i ks) as [I|I].
  - rewrite (path_equal ks Y j P S i I). lra.
  - destruct S as (_ & _ & S3). specialize (S3 i Hi I). lra.
Qed.

Lemma filter_none : forall (G : list (@xnum NumR)), (forall x, In x G -> @xnonneg NumR x = false) -> @min_step NumR G = Err ValueError.
Proof.
  intros G HG. unfold min_step. assert (filter (@xnonneg NumR) G = []) as ->; [|reflexivity].
  induction G as [|x G IH]; [reflexivity|]. cbn [filter]. rewrite HG by (left; reflexivity). apply IH. intros y Hy. apply HG. right. exact Hy.
Qed.
Lemma min_step_err : forall G x, @min_step NumR G = Err x -> x = ValueError \/ (exists y, In y (filter (@xnonneg NumR) G)).
Proof. intros G x E. unfold min_step in E. destruct (filter _ G) as [|y l]; [left; congruence|right; exists y; left; reflexivity]. Qed.

(** Y is a combination of the columns ks, with the coefficients w *)
Definition spanned (ks : list nat) (Y w : nat -> nat -> R) : Prop :=
  (forall i o, (i < n)%nat -> (o < p)%nat -> Y i o = total m (fun j => at_ H i j * w j o)) /\
  (forall j o, ~ In j ks -> w j o = 0).

Lemma fit_spanned : forall ks Y, (forall k, In k ks -> (k < m)%nat) -> best_fit n p H T ks Y -> exists w, spanned ks Y w.
Proof.
  intros ks Y Hk [(W & EW) _]. exists (fun j o => S_ (length ks) (fun l => if (nth l ks O =? j)%nat then W l o else 0)). split.
  - intros i o Hi Ho. rewrite EW by auto. tot. symmetry.
    transitivity (S_ m (fun j => S_ (length ks) (fun l => if (j =? nth l ks O)%nat then at_ H i j * W l o else 0))).
    + apply sum_ext. intros j Hj. rewrite <- sum_scal. apply sum_ext. intros l Hl. rewrite Nat.eqb_sym. destruct (j =? nth l ks O)%nat; rring.
    + rewrite sum_swap. apply sum_ext. intros l Hl. rewrite (sum_delta m (nth l ks O) (fun j => at_ H i j * W l o)); [reflexivity|]. apply Hk. apply nth_In. auto.
  - intros j o Hj. apply sum_zero. intros l Hl. destruct (Nat.eqb_spec (nth l ks O) j) as [<-|]; [|reflexivity]. exfalso. apply Hj. apply nth_In. auto.
Qed.
Lemma spanned_mix : forall ks ks' Y Y' Z w w' g, spanned ks Y w -> spanned ks' Y' w' -> incl ks ks' ->
  (forall i o, (i < n)%nat -> (o < p)%nat -> Z i o = (1 - g) * Y i o + g * Y' i o) -> spanned ks' Z (fun j o => (1 - g) * w j o + g * w' j o).
Proof.
  intros ks ks' Y Y' Z w w' g [S1 S2] [S1' S2'] HI EZ. split.
  - intros i o Hi Ho. rewrite EZ, S1, S1' by auto. tot. rewrite <- !sum_scal, <- sum_add. apply sum_ext. intros. rring.
  - intros j o Hj. rewrite S2, S2' by auto. ring.
Qed.
Lemma path_bound : forall ks Y, mrsr_path n m p H T ks Y -> forall k, In k ks -> (k < m)%nat.
Proof.
  intros ks Y P. induction P as [|ks Y j Yls g Y' c P IH (S1 & _)]; [intros k []|]. intros k Hk. apply in_app_or in Hk. destruct Hk as [Hk|[<-|[]]]; auto.
Qed.
Lemma path_nodup : forall ks Y, mrsr_path n m p H T ks Y -> NoDup ks.
Proof.
  intros ks Y P. induction P as [|ks Y j Yls g Y' c P IH (_ & S2 & _)]; [constructor|].
  apply (Permutation_NoDup (l := j :: ks)); [apply Permutation_cons_append|constructor; auto].
Qed.
Lemma path_spanned : forall ks Y, mrsr_path n m p H T ks Y -> exists w, spanned ks Y w.
Proof.
  intros ks Y P. induction P as [|ks Y j Yls g Y' c P (w & IH) S LS G0 EY Q1 Q2 Q3].
  - exists (fun _ _ => 0). split; [|auto]. intros i o _ _. tot. symmetry. apply sum_zero. intros. rring.
  - destruct (fit_spanned (ks ++ [j]) Yls) as (w' & Sw); [|exact LS|].
    + intros k Hk. apply in_app_or in Hk. destruct Hk as [Hk|[<-|[]]]; [eapply path_bound; eauto|apply S].
    + exists (fun a o => (1 - g) * w a o + g * w' a o). eapply spanned_mix; eauto. intros a Ha. apply in_or_app. auto.
Qed.
(** a combination of the columns ks orthogonal to them vanishes *)
Lemma spanned_zero : forall ks D w, spanned ks D w -> (forall k o, In k ks -> (k < m)%nat -> (o < p)%nat -> total n (fun i => at_ H i k * D i o) = 0) ->
  forall i o, (i < n)%nat -> (o < p)%nat -> D i o = 0.
Proof.
  intros ks D w [S1 S2] HO i o Hi Ho.
  assert (S_ n (fun a => D a o * D a o) = 0) as Z.
  { transitivity (S_ m (fun j => w j o * S_ n (fun a => at_ H a j * D a o))).
    - transitivity (S_ n (fun a => S_ m (fun j => w j o * (at_ H a j * D a o)))).
      + apply sum_ext. intros a Ha. rewrite (S1 a o Ha Ho) at 1. tot. rewrite <- sum_scal_r. apply sum_ext. intros. rring.
      + rewrite sum_swap. apply sum_ext. intros j Hj. now rewrite sum_scal.
    - apply sum_zero. intros j Hj. destruct (in_dec Nat.eq_dec j ks) as [I|I]; [|rewrite S2 by auto; rring].
      pose proof (HO j o I Hj Ho) as Q. change (S_ n (fun a => at_ H a j * D a o) = 0) in Q. rewrite Q. rring. }
  pose proof (sum_nonneg_zero n _ ltac:(intros; apply Rle_0_sqr) Z i Hi) as Z0. apply Rsqr_0_uniq in Z0. exact Z0.
Qed.
Lemma strength_zero : forall Y k, residual_strength n p H T Y k = 0 -> forall o, (o < p)%nat -> total n (fun i => at_ H i k * (at_ T i o - Y i o)) = 0.
Proof.
  intros Y k Z o Ho. unfold residual_strength in Z. change (S_ p (fun o => Rabs (total n (fun i => at_ H i k * (at_ T i o - Y i o)))) = 0) in Z.
  pose proof (sum_nonneg_zero p _ ltac:(intros; apply Rabs_pos) Z o Ho) as Q. destruct (Req_dec (total n (fun i => at_ H i k * (at_ T i o - Y i o))) 0) as [E|E]; [exact E|].
  exfalso. apply (Rabs_no_R0 _ E). exact Q.
Qed.

(** with nothing left to explain every candidate step is 0/0 *)
Lemma no_step : forall ks Y j Yls rest (A B : list (list R)), mrsr_path n m p H T ks Y -> strongest n m p H T Y ks j ->
  best_fit n p H T (ks ++ [j]) Yls -> split_of m (ks ++ [j]) rest ->
  (forall l, (l < length rest)%nat -> @mcol NumR A l = cv (res_of Y) (nth l rest O)) ->
  (forall l, (l < length rest)%nat -> @mcol NumR B l = cv (fun i o => Yls i o - Y i o) (nth l rest O)) ->
  residual_strength n p H T Y j <= 0 ->
  @min_step NumR (@g_matrix NumR p (length rest) (residual_strength n p H T Y j) A B) = Err ValueError.
Proof.
  intros ks Y j Yls rest A B P S LS SP EA EB Z. pose proof (cmax_zero ks Y j P S Z) as ZZ.
  assert (residual_strength n p H T Y j = 0) as -> by (apply ZZ; apply S).
  assert (forall k, In k (ks ++ [j]) -> (k < m)%nat) as Hk.
  { intros k Hk. apply in_app_or in Hk. destruct Hk as [Hk|[<-|[]]]; [eapply path_bound; eauto|apply S]. }
  assert (forall i o, (i < n)%nat -> (o < p)%nat -> Yls i o - Y i o = 0) as HD.
  { destruct (path_spanned ks Y P) as (w & Sw). destruct (fit_spanned (ks ++ [j]) Yls Hk LS) as (w' & Sw').
    apply (spanned_zero (ks ++ [j]) (fun i o => Yls i o - Y i o) (fun a o => w' a o - w a o)).
    - destruct Sw as [A1 A2], Sw' as [B1 B2]. split.
      + intros i o Hi Ho. rewrite A1, B1 by auto. tot. rewrite <- sum_sub. apply sum_ext. intros. rring.
      + intros a o Ha. rewrite A2, B2; [ring|exact Ha|]. intros Q. apply Ha. apply in_or_app. auto.
    - intros k o Hin Hkm Ho. destruct LS as [_ LS]. pose proof (LS k o Hin Ho) as Q1. pose proof (strength_zero Y k (ZZ k Hkm) o Ho) as Q2.
      transitivity (total n (fun i => at_ H i k * (at_ T i o - Y i o)) - total n (fun i => at_ H i k * (at_ T i o - Yls i o))); [|rewrite Q1, Q2; ring].
      tot. rewrite <- sum_sub. apply sum_ext. intros. rring. }
  assert (forall s v, In s (@signs NumR p) -> (forall x, In x v -> x = 0) -> @dotv NumR s v = 0) as DZ.
  { intros s v _. revert s. induction v as [|x v IH]; intros s Hv; destruct s as [|y s]; try reflexivity. rewrite dotv_cons, IH by (intros; apply Hv; right; auto).
    rewrite (Hv x) by (left; reflexivity). rring. }
  apply filter_none. intros x Hx. apply in_g_matrix in Hx. destruct Hx as (s & l & Hs & Hl & ->).
  assert (nth l rest O < m)%nat as Hm.
  { destruct (split_facts _ _ SP) as (_ & _ & F3). apply F3. apply nth_In. exact Hl. }
  assert (@dotv NumR s (@mcol NumR A l) = 0) as ->.
  { rewrite EA by auto. apply DZ; [exact Hs|]. intros x Hx. apply in_map_iff in Hx. destruct Hx as (o & <- & Ho). apply in_seq in Ho. apply (strength_zero Y (nth l rest O)); [auto|lia]. }
  assert (@dotv NumR s (@mcol NumR B l) = 0) as ->.
  { rewrite EB by auto. apply DZ; [exact Hs|]. intros x Hx. apply in_map_iff in Hx. destruct Hx as (o & <- & Ho). apply in_seq in Ho. tot. apply sum_zero. intros i Hi. rewrite HD by (auto; lia). rring. }
  unfold np_div. change (@neqb NumR) with Reqb. unfold Reqb. change (@n0 NumR) with 0. rewrite Rplus_0_r. destruct (Req_EM_T 0 0); [reflexivity|congruence].
Qed.

Definition step_data (ks rest : list nat) (Y Yls : nat -> nat -> R) (j : nat) (A B : list (list R)) : Prop :=
  strongest n m p H T Y ks j /\ best_fit n p H T (ks ++ [j]) Yls /\ split_of m (ks ++ [j]) rest /\ length A = p /\ length B = p /\
  (forall l, (l < length rest)%nat -> @mcol NumR A l = cv (res_of Y) (nth l rest O)) /\
  (forall l, (l < length rest)%nat -> @mcol NumR B l = cv (fun i o => Yls i o - Y i o) (nth l rest O)).

Lemma step_shape : forall st, on_path st -> i2 st <> [] -> exists j rest A B Yols N,
  step_data (i1 st) rest (mR (mY st)) (mR Yols) j A B /\ S (length rest) = length (i2 st) /\
  forall kmax k, @mrsr_step NumR SG H T m p kmax k st =
    if (k =? kmax)%nat then Ok (mkMst (i1 st ++ [j]) rest Yols)
    else let? g := @min_step NumR (@g_matrix NumR p (length rest) (residual_strength n p H T (mR (mY st)) j) A B) in Ok (mkMst (i1 st ++ [j]) rest (N g)).
Proof.
  intros st (P & SY & SP) Hne. unfold mrsr_step.
  set (A0 := @tdot NumR p (length (i2 st)) (@msubm NumR T (mY st)) (@csel NumR H (i2 st))).
  assert (forall l, (l < length (i2 st))%nat -> @mcol NumR A0 l = cv (res_of (mR (mY st))) (nth l (i2 st) O)) as EA.
  { intros l Hl. unfold A0. rewrite mcol_csel_cv; [|apply (is_mat_msubm T (mY st) HT SY)|exact Hl]. apply cv_ext. intros i o Hi Ho. rewrite mR_sub by auto. reflexivity. }
  assert (@abs_colsum NumR (length (i2 st)) A0 <> []) as Hss.
  { intros Q. pose proof (abs_colsum_length (length (i2 st)) A0) as L. unfold num, NumR in *. rewrite Q in L. destruct (i2 st); [congruence|discriminate]. }
  destruct (chosen (i1 st) (i2 st) (mR (mY st)) A0 SP Hne EA) as (C1 & C2 & C3).
  destruct (@abs_colsum NumR (length (i2 st)) A0) as [|s0 ss] eqn:Ess; [congruence|]. clear Hss. cbv zeta.
  set (cind := @argmax NumR (s0 :: ss)) in *. set (ind := nth cind (i2 st) O) in *. set (rest := del_nth cind (i2 st)) in *.
  pose proof (del_split (i1 st) (i2 st) cind SP C1) as SP'. fold ind rest in SP'.
  destruct (split_facts _ _ SP') as (F1 & F2 & F3).
  set (act := i1 st ++ [ind]) in *.
  destruct (ls_fit act _ F1 F2 eq_refl) as (SYo & LS). cbv zeta in SYo, LS.
  match type of LS with best_fit _ _ _ _ _ (mR ?Y0) => set (Yols := Y0) in * end.
  assert (S (length rest) = length (i2 st))%nat as Hlen by (apply (del_nth_length cind (i2 st) C1)).
  assert (length (i2 st) - 1 = length rest)%nat as -> by lia.
  exists ind, rest, (@del_col NumR cind A0), (@tdot NumR p (length rest) (@msubm NumR Yols (mY st)) (@csel NumR H rest)), Yols,
    (fun g => @madd NumR (@mscale NumR (1 - g) (mY st)) (@mscale NumR g Yols)).
  split; [|split; [exact Hlen|]].
  - split; [exact C2|]. split; [exact LS|]. split; [exact SP'|]. split; [unfold del_col; rewrite map_length; apply mk_length|]. split; [exact (@mk_length NumR p (length rest) _)|]. split.
    + intros l Hl. rewrite mcol_del. rewrite EA by (apply (skip_lt cind l (i2 st)); auto). f_equal. symmetry. apply (nth_del O cind (i2 st) l).
    + intros l Hl. rewrite mcol_csel_cv; [|apply (is_mat_msubm Yols (mY st) SYo SY)|exact Hl]. apply cv_ext. intros i o Hi Ho. rewrite mR_sub by auto. reflexivity.
  - intros kmax k. rewrite <- C3. reflexivity.
Qed.

(** the chosen step exists exactly if something is left to explain *)
Lemma step_or_stop : forall ks rest Y Yls j A B, mrsr_path n m p H T ks Y -> step_data ks rest Y Yls j A B -> rest <> [] ->
  (exists g, @min_step NumR (@g_matrix NumR p (length rest) (residual_strength n p H T Y j) A B) = Ok g) \/
  (@min_step NumR (@g_matrix NumR p (length rest) (residual_strength n p H T Y j) A B) = Err ValueError /\
   forall i, (i < m)%nat -> residual_strength n p H T Y i = 0).
Proof.
  intros ks rest Y Yls j A B P (D1 & D2 & D3 & D4 & D5 & D6 & D7) Hne. destruct (Rle_lt_dec (residual_strength n p H T Y j) 0) as [Z|Z].
  - right. split; [eapply no_step; eauto|]. eapply cmax_zero; eauto.
  - left. apply min_step_ok; auto; [destruct rest; [congruence|cbn; lia]|]. intros l Hl. rewrite D6 by auto. rewrite <- strength_cv.
    destruct (split_facts _ _ D3) as (_ & _ & F3). assert (In (nth l rest O) rest) as Q by (apply nth_In; auto). apply F3 in Q. destruct Q as [Q1 Q2].
    destruct D1 as (_ & _ & D1). apply D1; [exact Q1|]. intros Q. apply Q2. apply in_or_app. auto.
Qed.

Lemma loop_outcome : forall kmax len k st, on_path st -> (k + len = S kmax)%nat -> (length (i1 st) + 1 = k)%nat -> (kmax <= m)%nat ->
  (exists st', @mrsr_loop NumR SG H T m p kmax (seq k len) st = Ok st') \/
  (@mrsr_loop NumR SG H T m p kmax (seq k len) st = Err ValueError /\ exists ks Y, mrsr_path n m p H T ks Y /\ (S (length ks) < kmax)%nat /\
     forall i, (i < m)%nat -> residual_strength n p H T Y i = 0).
Proof.
  induction len as [|len IH]; intros k st P Hk Hi Hm; cbn [seq mrsr_loop]; [left; eauto|].
  assert (length (i1 st) + length (i2 st) = m)%nat as Hsum.
  { destruct P as (_ & _ & SP). apply Permutation_length in SP. rewrite app_length, seq_length in SP. exact SP. }
  assert (i2 st <> []) as Hne by (intros Q; rewrite Q in Hsum; cbn in Hsum; lia).
  destruct (step_shape st P Hne) as (j & rest & A & B & Yols & N & D & HL & E).
  destruct (Nat.eqb_spec k kmax) as [Q|Q].
  - assert (len = 0)%nat as -> by lia. pose proof (E kmax k) as Ek. apply Nat.eqb_eq in Q. rewrite Q in Ek. rewrite Ek. cbn [rbind seq mrsr_loop]. left. eauto.
  - assert (rest <> []) as Hr by (intros Z; rewrite Z in HL; cbn in HL; lia).
    pose proof (E kmax k) as Ek. apply Nat.eqb_neq in Q. rewrite Q in Ek. apply Nat.eqb_neq in Q.
    destruct (step_or_stop _ _ _ _ _ _ _ (proj1 P) D Hr) as [(g & Eg)|(Eg & Z)].
    + rewrite Eg in Ek. cbn [rbind] in Ek. destruct (step_on_path kmax k st _ P Ek) as (_ & P1). rewrite Ek. cbn [rbind].
      apply (IH (S k)); [apply P1; exact Q|lia| |exact Hm]. cbn [i1]. rewrite app_length. cbn [length]. lia.
    + rewrite Eg in Ek. cbn [rbind] in Ek. rewrite Ek. cbn [rbind]. right. split; [reflexivity|]. exists (i1 st), (mR (mY st)). split; [apply P|]. split; [lia|exact Z].
Qed.

Lemma first_shape : (2 <= m)%nat -> exists j rest A B Yols N,
  step_data [] rest (fun _ _ => 0) (mR Yols) j A B /\ S (length rest) = m /\
  @mrsr_first NumR H T m p =
    let? g := @min_step NumR (@g_matrix NumR p (length rest) (residual_strength n p H T (fun _ _ => 0) j) A B) in Ok (mkMst [j] rest (N g)).
Proof.
  intros H2. unfold mrsr_first.
  set (A0 := @tdot NumR p m T H).
  assert (forall l, (l < m)%nat -> @mcol NumR A0 l = cv (res_of (fun _ _ => 0)) l) as EA.
  { intros l Hl. unfold A0. rewrite mcol_tdot; [|apply HT|apply HX|exact Hl]. unfold cv. apply map_ext_in. intros o _. tot. apply sum_ext. intros i Hi.
    unfold res_of. rewrite Rminus_0_r. reflexivity. }
  assert (split_of m [] (seq 0 m)) as SPs by (unfold split_of; apply Permutation_refl).
  assert (length (seq 0 m) = m) as Hm by apply seq_length.
  assert (seq 0 m <> []) as Hne by (destruct m; [lia|discriminate]).
  assert (@abs_colsum NumR m A0 <> []) as Hss.
  { intros Q. pose proof (abs_colsum_length m A0) as L. unfold num, NumR in *. rewrite Q in L. cbn in L. lia. }
  destruct (chosen [] (seq 0 m) (fun _ _ => 0) A0 SPs Hne) as (C1 & C2 & C3).
  { intros l Hl. rewrite Hm in Hl. rewrite EA by auto. f_equal. symmetry. now apply seq_nth_lt. }
  rewrite Hm in *. destruct (@abs_colsum NumR m A0) as [|s0 ss] eqn:Ess; [congruence|]. clear Hss. cbv zeta.
  set (cind := @argmax NumR (s0 :: ss)) in *. set (ind := nth cind (seq 0 m) O) in *. set (rest := del_nth cind (seq 0 m)) in *.
  assert (cind < length (seq 0 m))%nat as C1' by now rewrite Hm.
  pose proof (del_split [] (seq 0 m) cind SPs C1') as SP'. fold ind rest in SP'. cbn [app] in SP'.
  assert (S (length rest) = m)%nat as Hlen by (pose proof (del_nth_length cind (seq 0 m) C1') as Q; fold rest in Q; lia).
  assert (ind < m)%nat as Hind by apply C2.
  assert (@dotv NumR (@mcol NumR H ind) (@mcol NumR H ind) = total n (fun i => at_ H i ind * at_ H i ind)) as Ed.
  { rewrite (dotv_sum _ _ n); [|rewrite mcol_length; apply HX|rewrite mcol_length; apply HX]. tot. apply sum_ext. intros i Hi.
    rewrite vget_mcol by (eapply lt_len; [apply HX|auto]). reflexivity. }
  assert (total n (fun i => at_ H i ind * at_ H i ind) <> 0) as Hd.
  { intros Z. assert (forall i, (i < n)%nat -> at_ H i ind = 0) as Z0.
    { intros i Hi. pose proof (sum_nonneg_zero n _ ltac:(intros; apply Rle_0_sqr) Z i Hi) as Q. apply Rsqr_0_uniq in Q. exact Q. }
    assert (1 = 0) as C; [|lra]. assert ((fun j => if (j =? ind)%nat then 1 else 0) ind = 0) as Q.
    { apply (IND (fun j => if (j =? ind)%nat then 1 else 0)); [|exact Hind]. intros i Hi. tot. transitivity (S_ m (fun j => if (j =? ind)%nat then at_ H i j else 0)).
      - apply sum_ext. intros j Hj. destruct (j =? ind)%nat; rring.
      - rewrite (sum_delta m ind (fun j => at_ H i j)) by auto. auto. }
    cbv beta in Q. rewrite Nat.eqb_refl in Q. exact Q. }
  assert (@np_div NumR (@n1 NumR) (@dotv NumR (@mcol NumR H ind) (@mcol NumR H ind)) = Fin (1 / total n (fun i => at_ H i ind * at_ H i ind))) as Ei.
  { rewrite Ed. unfold np_div. change (@neqb NumR) with Reqb. unfold Reqb. change (@n0 NumR) with 0. destruct (Req_EM_T _ 0); [contradiction|reflexivity]. }
  set (iv := 1 / total n (fun i => at_ H i ind * at_ H i ind)) in *.
  assert (iv * total n (fun i => at_ H i ind * at_ H i ind) = 1) as Hiv by (unfold iv; field; exact Hd).
  rewrite Ei. assert (m - 1 = length rest)%nat as -> by lia.
  match goal with |- context [@mscale NumR _ ?Y0] => set (Yols := Y0) end.
  assert (length (nth ind (@tdot NumR m p H T) []) = p) as Lw by (eapply is_mat_row; [apply is_mat_tdot|exact Hind]).
  assert (@is_mat NumR n p Yols) as SYo.
  { unfold Yols. split; [rewrite map_length; unfold mcol; rewrite map_length; apply HX|]. apply Forall_map. apply Forall_forall. intros x _. rewrite !map_length. exact Lw. }
  assert (forall i o, (i < n)%nat -> (o < p)%nat -> mR Yols i o = at_ H i ind * (iv * total n (fun a => at_ H a ind * at_ T a o))) as EY.
  { intros i o Hi Ho. unfold Yols, mget. rewrite (nth_map_lt _ (@mcol NumR H ind) i 0 []) by (rewrite mcol_length; eapply lt_len; [apply HX|auto]).
    unfold vget. rewrite (nth_map_lt _ _ o 0 0) by (rewrite map_length; eapply lt_len; [exact Lw|auto]).
    rewrite (nth_map_lt _ _ o 0 0) by (eapply lt_len; [exact Lw|auto]).
    change (@vget NumR (@mcol NumR H ind) i * (iv * mR (@tdot NumR m p H T) ind o) = at_ H i ind * (iv * total n (fun a => at_ H a ind * at_ T a o))).
    rewrite vget_mcol by (eapply lt_len; [apply HX|auto]). rewrite (tdot_sum n) by (first [apply HX|apply HT|auto]). reflexivity. }
  assert (best_fit n p H T ([] ++ [ind]) (mR Yols)) as LS.
  { split.
    - exists (fun _ o => iv * total n (fun a => at_ H a ind * at_ T a o)). intros i o Hi Ho. rewrite EY by auto. cbn [app length]. unfold total at 2. cbn. unfold Rsum. cbn. ring.
    - intros k o [<-|[]] Ho. set (t := total n (fun a => at_ H a ind * at_ T a o)).
      transitivity (t - iv * total n (fun i => at_ H i ind * at_ H i ind) * t).
      + unfold t at 1. tot. rewrite <- (sum_scal n iv). rewrite <- sum_scal_r. rewrite <- sum_sub. apply sum_ext. intros i Hi. rewrite EY by auto. fold t. rring.
      + rewrite Hiv. ring. }
  exists ind, rest, (@del_col NumR cind A0), (@tdot NumR p (length rest) Yols (@csel NumR H rest)), Yols, (fun g => @mscale NumR g Yols).
  split; [|split; [exact Hlen|rewrite <- C3; reflexivity]].
  split; [exact C2|]. split; [exact LS|]. split; [exact SP'|]. split; [unfold del_col; rewrite map_length; apply mk_length|]. split; [exact (@mk_length NumR p (length rest) _)|]. split.
  - intros l Hl. rewrite mcol_del. pose proof (skip_lt cind l (seq 0 m) C1' Hl) as Hs. rewrite Hm in Hs. rewrite EA by exact Hs. f_equal.
    unfold rest. rewrite nth_del. symmetry. now apply seq_nth_lt.
  - intros l Hl. rewrite mcol_csel_cv; [|apply SYo|exact Hl]. apply cv_ext. intros i o Hi Ho. symmetry. apply Rminus_0_r.
Qed.

(** the ranking fails only if a model with fewer neurons explains everything the neurons can *)
Theorem mrsr_outcome : forall kmax, (2 <= m)%nat ->
  (exists r, @mrsr NumR SG H T m p kmax = Ok r) \/
  (@mrsr NumR SG H T m p kmax = Err ValueError /\ exists ks Y, mrsr_path n m p H T ks Y /\ (ks = [] \/ (S (length ks) < Nat.min kmax m)%nat) /\
     forall i, (i < m)%nat -> residual_strength n p H T Y i = 0).
Proof.
  intros kmax H2. unfold mrsr. destruct (first_shape H2) as (j & rest & A & B & Yols & N & D & HL & E).
  assert (rest <> []) as Hr by (intros Z; rewrite Z in HL; cbn in HL; lia).
  destruct (step_or_stop [] rest (fun _ _ => 0) _ _ _ _ (Path_start n m p H T) D Hr) as [(g & Eg)|(Eg & Z)].
  - rewrite Eg in E. cbn [rbind] in E. destruct (first_on_path _ E) as (P & _). rewrite E. cbn [rbind].
    destruct (Nat.min kmax m - 1)%nat as [|len] eqn:Hlen; [left; cbn [seq mrsr_loop rbind]; eauto|].
    destruct (loop_outcome (Nat.min kmax m) (S len) 2 _ P ltac:(lia) ltac:(cbn; lia) ltac:(lia)) as [(st' & El)|(El & ks & Y & Q1 & Q2 & Q3)];
      rewrite El; cbn [rbind]; [left; eauto|]. right. split; [reflexivity|]. exists ks, Y. auto.
  - rewrite Eg in E. cbn [rbind] in E. rewrite E. cbn [rbind]. right. split; [reflexivity|]. exists [], (fun _ _ => 0). split; [constructor|]. split; [auto|exact Z].
Qed.
(** targets orthogonal to all neurons cannot be ranked *)
Theorem mrsr_orthogonal : forall kmax, (2 <= m)%nat -> (forall i, (i < m)%nat -> residual_strength n p H T (fun _ _ => 0) i = 0) ->
  @mrsr NumR SG H T m p kmax = Err ValueError.
Proof.
  intros kmax H2 Z. unfold mrsr. destruct (first_shape H2) as (j & rest & A & B & Yols & N & (D1 & D2 & D3 & D4 & D5 & D6 & D7) & HL & E).
  rewrite (no_step [] (fun _ _ => 0) j (mR Yols) rest A B) in E; auto; [|constructor|rewrite (Z j (proj1 D1)); lra]. cbn [rbind] in E. rewrite E. reflexivity.
Qed.

(** the full least squares solution W with enough neurons that matter *)
Theorem mrsr_succeeds : forall kmax (W : nat -> nat -> R) used, (2 <= m)%nat ->
  (forall j o, (j < m)%nat -> (o < p)%nat -> total n (fun i => at_ H i j * (at_ T i o - total m (fun l => at_ H i l * W l o))) = 0) ->
  NoDup used -> (forall j, In j used -> (j < m)%nat /\ exists o, (o < p)%nat /\ W j o <> 0) ->
  used <> [] -> (Nat.min kmax m <= S (length used))%nat ->
  exists r, @mrsr NumR SG H T m p kmax = Ok r.
Proof.
  intros kmax W used H2 NE ND HU Hne Hlen. destruct (mrsr_outcome kmax H2) as [Q|(_ & ks & Y & P & Hl & Z)]; [exact Q|]. exfalso.
  destruct (path_spanned ks Y P) as (w & S1 & S2).
  assert (forall i o, (i < n)%nat -> (o < p)%nat -> total m (fun j => at_ H i j * (W j o - w j o)) = 0) as ZD.
  { apply (spanned_zero (seq 0 m) (fun i o => total m (fun j => at_ H i j * (W j o - w j o))) (fun j o => if (j <? m)%nat then W j o - w j o else 0)).
    - split.
      + intros i o Hi Ho. tot. apply sum_ext. intros j Hj. apply Nat.ltb_lt in Hj. now rewrite Hj.
      + intros j o Hj. destruct (Nat.ltb_spec j m) as [Q|Q]; [|reflexivity]. exfalso. apply Hj. apply in_seq. lia.
    - intros k o _ Hk Ho. pose proof (NE k o Hk Ho) as Q1. pose proof (strength_zero Y k (Z k Hk) o Ho) as Q2.
      transitivity (total n (fun i => at_ H i k * (at_ T i o - Y i o)) - total n (fun i => at_ H i k * (at_ T i o - total m (fun l => at_ H i l * W l o)))); [|rewrite Q1, Q2; ring].
      tot. rewrite <- sum_sub. apply sum_ext. intros i Hi. rewrite (S1 i o Hi Ho).
      transitivity (at_ H i k * (total m (fun l => at_ H i l * W l o) - total m (fun l => at_ H i l * w l o))); [|rring].
      f_equal. tot. rewrite <- sum_sub. apply sum_ext. intros. rring. }
  assert (incl used ks) as Hin.
  { intros j Hj. destruct (HU j Hj) as (Hjm & o & Ho & Hw). destruct (in_dec Nat.eq_dec j ks) as [I|I]; [exact I|]. exfalso. apply Hw.
    assert (W j o - w j o = 0) as Q by (apply (IND (fun j => W j o - w j o)); auto). rewrite (S2 j o I) in Q. lra. }
  pose proof (NoDup_incl_length ND Hin) as Q. destruct Hl as [->|Hl]; [destruct used; [congruence|cbn in Q; lia]|]. lia.
Qed.
End Path.
