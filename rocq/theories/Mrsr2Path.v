(** What mrsr2 does: every step goes towards the least squares fit of the chosen neurons, the new one
    included; the correlations of the chosen neurons with the residual shrink by the same factor. *)
From Coq Require Import Reals Lra Permutation.
From Verif Require Import Base Num Mat LinAlg Mrsr MatFacts RankThms RLin ErrThms WfProofs RidgeProofs RankMore MrsrSpec MrsrPath Spec.
Local Open Scope R_scope.
#[local] Existing Instance NumR.

(** ---- specification ---- *)
(** correlation of neuron j with the residual of output o *)
Definition residual_corr (n : nat) (H T : list (list R)) (Y : nat -> nat -> R) (j o : nat) : R :=
  total n (fun i => MrsrSpec.at_ H i j * (MrsrSpec.at_ T i o - Y i o)).
Inductive mrsr2_path (n m p : nat) (H T : list (list R)) : list nat -> (nat -> nat -> R) -> Prop :=
| Path2_first : forall j, (j < m)%nat -> mrsr2_path n m p H T [j] (fun _ _ => 0)
| Path2_step : forall ks Y j Yls y Y', mrsr2_path n m p H T ks Y -> (j < m)%nat -> ~ In j ks ->
    best_fit n p H T (ks ++ [j]) Yls ->
    (forall i o, (i < n)%nat -> (o < p)%nat -> Y' i o = (1 - y) * Y i o + y * Yls i o) ->
    mrsr2_path n m p H T (ks ++ [j]) Y'.

(** correlations of all chosen neurons, also of the new one, shrink by one factor in a step *)
Lemma step_shrinks : forall n p H T ks Yls y Y Y', best_fit n p H T ks Yls ->
  (forall i o, (i < n)%nat -> (o < p)%nat -> Y' i o = (1 - y) * Y i o + y * Yls i o) ->
  forall k o, In k ks -> (o < p)%nat -> residual_corr n H T Y' k o = (1 - y) * residual_corr n H T Y k o.
Proof.
  intros n p H T ks Yls y Y Y' (_ & HB) HY k o Hk Ho. specialize (HB k o Hk Ho). unfold residual_corr. rewrite !total_S in *.
  transitivity ((1 - y) * S_ n (fun i => MrsrSpec.at_ H i k * (MrsrSpec.at_ T i o - Y i o)) + y * S_ n (fun i => MrsrSpec.at_ H i k * (MrsrSpec.at_ T i o - Yls i o))).
  - rewrite <- !sum_scal, <- sum_add. apply sum_ext. intros i Hi. rewrite HY by auto. rring.
  - rewrite HB. rewrite Rmult_0_r, Rplus_0_r. reflexivity.
Qed.

Section Path.
Context {SG : @Sing NumR} {BR : @Brent NumR}.
Variables n m p : nat.
Variables H T : list (list R).
Hypothesis HX : @is_mat NumR n m H.
Hypothesis HT : @is_mat NumR n p T.
Hypothesis IND : independent n m H.
Ltac tot := repeat match goal with |- context [total ?k ?f] => change (total k f) with (S_ k f) end.

Lemma lu_fit : forall ks, NoDup ks -> (forall k, In k ks -> (k < m)%nat) ->
  let Yols := @mmul NumR p (@csel NumR H ks) (@lu_solve NumR SG (length ks) p (@tdot NumR (length ks) (length ks) (@csel NumR H ks) (@csel NumR H ks)) (@rsel NumR (@tdot NumR m p H T) ks)) in
  @is_mat NumR n p Yols /\ best_fit n p H T ks (mR Yols).
Proof.
  intros ks ND Hk Yols. set (q := length ks) in *. set (G := @tdot NumR q q (@csel NumR H ks) (@csel NumR H ks)) in *.
  assert (length (@csel NumR H ks) = n) as LC by (unfold csel; rewrite map_length; apply HX).
  assert (minj q (mR G)) as MJ by (apply (gram_inj n m H HX IND); auto).
  assert (forall i j, (i < q)%nat -> (j < q)%nat -> mR G i j = mR G j i) as SY.
  { intros i j Hi Hj. unfold G. rewrite !(tdot_sum n) by auto. apply sum_ext. intros. rring. }
  assert (minj q (fun i j => mR G j i)) as MJ'.
  { intros x Hx. apply MJ. intros i Hi. rewrite <- (Hx i Hi). apply sum_ext. intros j Hj. now rewrite SY. }
  set (XT := @rsel NumR (@tdot NumR m p H T) ks) in *.
  assert (@is_mat NumR q p XT) as SX.
  { unfold XT, rsel. split; [now rewrite map_length|]. apply Forall_map. apply Forall_forall. intros k Hkk. eapply is_mat_row; [apply is_mat_tdot|auto]. }
  set (W := @lu_solve NumR SG q p G XT) in *.
  assert (@is_mat NumR q p W /\ msolves q p G W XT) as (SW & SOL).
  { unfold W, lu_solve. destruct (posv_normal q p G (@tdot NumR q p G XT) (is_mat_tdot _ _ _ _) MJ) as [Z EZ]. rewrite EZ.
    destruct (posv_sound _ _ _ _ _ EZ) as [HZ Hs]. split; [exact HZ|].
    apply normal_solves; auto; [apply is_mat_tdot|]. intros i k Hi Hkk. rewrite Hs by auto. apply (tdot_sum q); auto; [apply (is_mat_tdot q q (@csel NumR H ks) (@csel NumR H ks))|apply SX]. }
  clearbody W.
  assert (length W = q) as LW by apply SW.
  assert (forall i o, (i < n)%nat -> (o < p)%nat -> mR Yols i o = S_ q (fun l => mR (@csel NumR H ks) i l * mR W l o)) as EY.
  { intros i o Hi Ho. unfold Yols. rewrite mget_mmul by (auto; lia). rewrite (dotv_sum _ _ q).
    - apply sum_ext. intros l Hl. rewrite vget_mcol by lia. reflexivity.
    - unfold csel. rewrite (nth_map_lt _ H i [] []) by (eapply lt_len; [apply HX|auto]). unfold vsel. now rewrite map_length.
    - now rewrite mcol_length. }
  split; [unfold Yols; rewrite <- LC at 1; apply is_mat_mmul|]. split.
  - exists (mR W). intros i o Hi Ho. rewrite EY by auto. fold q. tot. apply sum_ext. intros l Hl. now rewrite (at_csel n m H HX) by auto.
  - intros k o Hkk Ho. destruct (In_nth ks k O Hkk) as (l & Hl & <-). fold q in Hl. specialize (SOL l o Hl Ho).
    tot. transitivity (S_ n (fun i => MrsrSpec.at_ H i (nth l ks O) * MrsrSpec.at_ T i o) - S_ n (fun i => MrsrSpec.at_ H i (nth l ks O) * mR Yols i o)).
    { rewrite <- sum_sub. apply sum_ext. intros. rring. }
    assert (S_ n (fun i => MrsrSpec.at_ H i (nth l ks O) * MrsrSpec.at_ T i o) = mR XT l o) as E1.
    { unfold XT, mget, rsel. rewrite (nth_map_lt _ ks l O []) by auto. symmetry. apply (tdot_sum n m p H T (nth l ks O) o); auto; [apply HX|apply HT]. }
    assert (S_ n (fun i => MrsrSpec.at_ H i (nth l ks O) * mR Yols i o) = S_ q (fun a => mR G l a * mR W a o)) as E2.
    { transitivity (S_ n (fun i => S_ q (fun a => mR (@csel NumR H ks) i l * mR (@csel NumR H ks) i a * mR W a o))).
      - apply sum_ext. intros i Hi. rewrite EY by auto. rewrite <- sum_scal. apply sum_ext. intros a Ha. rewrite !(at_csel n m H HX) by auto. rring.
      - rewrite sum_swap. apply sum_ext. intros a Ha. unfold G. rewrite (tdot_sum n) by auto. now rewrite sum_scal_r. }
    rewrite E1, E2, SOL. rring.
Qed.

Definition on2 (st : @m2st NumR) : Prop := split_of m (rank2 st) (non2 st) /\
  (rank2 st = [] /\ @is_mat NumR n p (Y2 st) /\ (forall i o, (i < n)%nat -> (o < p)%nat -> mR (Y2 st) i o = 0) \/
   rank2 st <> [] /\ exists Y, mrsr2_path n m p H T (rank2 st) Y /\
     (non2 st <> [] -> @is_mat NumR n p (Y2 st) /\ forall i o, (i < n)%nat -> (o < p)%nat -> mR (Y2 st) i o = Y i o)).

Lemma path2_ext : forall ks Y Y', mrsr2_path n m p H T ks Y -> (2 <= length ks)%nat -> (forall i o, (i < n)%nat -> (o < p)%nat -> Y' i o = Y i o) -> mrsr2_path n m p H T ks Y'.
Proof.
  intros ks Y Y' P HL E. inversion P; subst; [cbn in HL; lia|]. eapply Path2_step; eauto. intros i o Hi Ho. rewrite E by auto. auto.
Qed.

Lemma step_on2 : forall st st', on2 st -> @mrsr2_step NumR SG BR H T m p st = Ok st' -> on2 st' /\ rank2 st' <> [].
Proof.
  intros st st' (SP & C) E.
  destruct (@mrsr2_step_split NumR SG BR H T m p st st' E SP) as (SP' & _ & NE).
  { intros E0 En. unfold mrsr2_step in E. rewrite E0, En in E. discriminate. }
  split; [|exact NE]. split; [exact SP'|]. right. split; [exact NE|].
  pose proof (proj1 (MrsrPath.split_facts m _ _ SP')) as F1. pose proof (proj1 (proj2 (MrsrPath.split_facts m _ _ SP'))) as F2.
  unfold mrsr2_step in E. destruct C as [(E0 & SY & HY)|(E0 & Y & P & HY)].
  - rewrite E0 in E. destruct (first_max _ _ _ _) as [j|] eqn:Ej; cbn [rbind] in E; [|discriminate]. injection E as <-. cbn [rank2 non2 Y2] in *.
    exists (fun _ _ => 0). split; [apply Path2_first; apply F2; left; reflexivity|]. intros _. cbn [length Nat.ltb Nat.leb]. auto.
  - destruct (rank2 st) as [|r0 rs] eqn:Er; [congruence|]. destruct (non2 st) as [|n0' ns] eqn:En.
    + cbn [rbind] in E. injection E as <-. cbn [rank2 non2] in *. exists Y. split; [exact P|]. congruence.
    + cbv zeta in E. destruct (min_new _ _ _ _ _ _) as [y jm]. cbn [rbind] in E. injection E as <-. cbn [rank2 non2 Y2] in *.
      destruct (HY ltac:(discriminate)) as (SY & EY). clear HY.
      match type of F1 with NoDup (r0 :: rs ++ [?jj]) => set (j := jj) in * end.
      change (r0 :: rs ++ [j]) with ((r0 :: rs) ++ [j]) in *.
      destruct (lu_fit ((r0 :: rs) ++ [j]) F1 F2) as (SYo & LS). cbv zeta in SYo, LS.
      match type of LS with best_fit _ _ _ _ _ (mR ?Y0) => set (Yols := Y0) in * end.
      assert ((1 <? S (length (rs ++ [j])))%nat = true) as -> by (apply Nat.ltb_lt; rewrite app_length; cbn; lia).
      eexists (mR (@madd NumR (@mscale NumR (1 - y) (Y2 st)) (@mscale NumR y Yols))). split.
      * eapply (Path2_step n m p H T (r0 :: rs) Y j (mR Yols) y); auto.
        -- apply F2. apply in_or_app. right; left; reflexivity.
        -- apply NoDup_remove_2 in F1. rewrite app_nil_r in F1. exact F1.
        -- intros i o Hi Ho. pose proof (@mget_madd NumR n p (@mscale NumR (1 - y) (Y2 st)) (@mscale NumR y Yols) i o (is_mat_mscale n p _ _ SY) (is_mat_mscale n p _ _ SYo) Hi Ho) as Q. rewrite !(mR_scale n p) in Q by auto. rewrite EY in Q by auto. exact Q.
      * intros _. split; [exact (is_mat_madd n p _ _ (is_mat_mscale n p _ _ SY) (is_mat_mscale n p _ _ SYo))|]. intros; reflexivity.
Qed.

Lemma loop_on2 : forall k st st', on2 st -> (k <> 0%nat \/ rank2 st <> []) -> @mrsr2_loop NumR SG BR H T m p k st = Ok st' -> on2 st' /\ rank2 st' <> [].
Proof.
  induction k as [|k IH]; intros st st' P Hk E; cbn [mrsr2_loop] in E; [injection E as <-; destruct Hk; [congruence|auto]|].
  destruct (mrsr2_step _ _ _ _ st) as [st1|] eqn:E1; cbn [rbind] in E; [|discriminate]. destruct (step_on2 _ _ P E1) as (P1 & N1). eapply IH; eauto.
Qed.

Theorem mrsr2_on_path : forall kmax r, (0 < Nat.min kmax n)%nat -> @mrsr2 NumR SG BR H T m p kmax = Ok r -> exists Y, mrsr2_path n m p H T r Y.
Proof.
  intros kmax r Hk E. unfold mrsr2 in E. destruct (mrsr2_loop _ _ _ _ _ _) as [st|] eqn:El; cbn [rbind] in E; [|discriminate]. injection E as <-.
  assert (length H = n) as LH by apply HX.
  destruct (fun Q1 Q2 => loop_on2 _ _ _ Q1 Q2 El) as ((_ & [(Q & _)|(_ & Y & P & _)]) & NE); [| |congruence|eauto].
  - split; [unfold split_of; apply Permutation_refl|]. left. cbn [rank2 Y2]. split; [reflexivity|]. split.
    + split; [rewrite map_length; apply HT|]. apply Forall_map. apply Forall_forall. intros x _. apply mkv_length.
    + intros i o Hi Ho. unfold mget. rewrite (nth_map_lt _ T i [] []) by (eapply lt_len; [apply HT|auto]). exact (@vget_mkv NumR p (fun _ => 0) o Ho).
  - left. cbn [num NumR] in *. rewrite LH. lia.
Qed.

End Path.

(** the norm of the correlations with all outputs that mrsr2 compares *)
Definition strength2 (n p : nat) (H T : list (list R)) (Y : nat -> nat -> R) (j : nat) : R :=
  sqrt (total p (fun o => residual_corr n H T Y j o * residual_corr n H T Y j o)).
Theorem step_equal : forall n p H T ks Yls y Y Y', best_fit n p H T ks Yls ->
  (forall i o, (i < n)%nat -> (o < p)%nat -> Y' i o = (1 - y) * Y i o + y * Yls i o) ->
  forall k, In k ks -> strength2 n p H T Y' k = Rabs (1 - y) * strength2 n p H T Y k.
Proof.
  intros n p H T ks Yls y Y Y' HB HY k Hk. unfold strength2. rewrite <- (sqrt_Rsqr_abs (1 - y)), <- sqrt_mult_alt by apply Rle_0_sqr. f_equal.
  rewrite !total_S, <- sum_scal. apply sum_ext. intros o Ho. rewrite (step_shrinks n p H T ks Yls y Y Y' HB HY k o Hk Ho). unfold Rsqr. rring.
Qed.

Section First.
Context {SG : @Sing NumR} {BR : @Brent NumR}.
Lemma first_max_least : forall (f : nat -> R) js c j0 j, @first_max NumR f js c j0 = Some j ->
  j0 = Some j \/ exists a b, js = a ++ j :: b /\ c < f j /\ (forall i, In i a -> f i < f j) /\ (forall i, In i b -> f i <= f j).
Proof.
  induction js as [|x js IH]; intros c j0 j E; cbn [first_max] in E; [auto|].
  change (@nltb NumR c (f x)) with (Rltb c (f x)) in E. unfold Rltb in E. destruct (Rlt_dec c (f x)) as [Hc|Hc].
  - right. destruct (IH _ _ _ E) as [Q|(a & b & -> & A & B & C)].
    + injection Q as <-. exists [], js. split; [reflexivity|]. split; [exact Hc|]. split; [intros i []|].
      intros i Hi. destruct (proj1 (first_max_spec f js (f x) (Some x) x E) i Hi) as [Q|[_ Q]]; lra.
    + exists (x :: a), b. split; [reflexivity|]. split; [lra|]. split; [|exact C]. intros i [<-|Hi]; [lra|auto].
  - destruct (IH _ _ _ E) as [Q|(a & b & -> & A & B & C)]; [auto|]. right. exists (x :: a), b. split; [reflexivity|]. split; [lra|]. split; [|exact C].
    intros i [<-|Hi]; [lra|auto].
Qed.

Theorem mrsr2_first_least : forall H T m p kmax r, length H = length T -> (0 < kmax)%nat -> H <> [] -> @mrsr2 NumR SG BR H T m p kmax = Ok r ->
  exists j, hd_error r = Some j /\ (j < m)%nat /\ (forall i, (i < m)%nat -> strength_sqr H T p i <= strength_sqr H T p j) /\
    (forall i, (i < j)%nat -> strength_sqr H T p i < strength_sqr H T p j).
Proof.
  intros H T m p kmax r HLn Hk HN E. destruct (mrsr2_prefix H T m p 1 kmax r ltac:(lia) E) as (r1 & l & E1 & ->).
  unfold mrsr2 in E1. replace (Nat.min 1 (length H)) with 1%nat in E1 by (destruct H; [congruence|cbn; lia]). cbn [mrsr2_loop] in E1.
  unfold mrsr2_step in E1. cbn [rank2 non2] in E1. destruct (first_max _ _ _ _) as [j|] eqn:Ej; cbn [rbind] in E1; [|discriminate].
  injection E1 as <-. exists j. split; [reflexivity|]. destruct (first_max_least _ _ _ _ _ Ej) as [B|(a & b & Es & _ & A & B)]; [discriminate|].
  assert (j < m)%nat as Hj. { assert (In j (seq 0 m)) as Q by (rewrite Es; apply in_or_app; right; left; reflexivity). apply in_seq in Q. lia. }
  assert (j = length a /\ a = seq 0 (length a)) as (Ea & Ea').
  { assert (length a < m)%nat as La by (pose proof (f_equal (@length nat) Es) as Q; rewrite seq_length, app_length in Q; cbn in Q; lia).
    pose proof (f_equal (fun l => nth (length a) l O) Es) as Q. cbn beta in Q. rewrite nth_middle, seq_nth in Q by lia. cbn in Q. split; [auto|].
    pose proof (f_equal (firstn (length a)) Es) as Q2. rewrite firstn_app, Nat.sub_diag, firstn_all in Q2. cbn [firstn] in Q2. rewrite app_nil_r in Q2.
    rewrite <- Q2 at 1. replace m with (length a + (m - length a))%nat by lia. rewrite seq_app, firstn_app, seq_length, Nat.sub_diag. cbn [firstn]. rewrite app_nil_r.
    rewrite <- (seq_length (length a) 0) at 1. apply firstn_all. }
  split; [exact Hj|]. split.
  - intros i Hi. assert (In i (seq 0 m)) as Q by (apply in_seq; lia). rewrite Es in Q. apply in_app_or in Q. rewrite <- !norm_strength by auto.
    destruct Q as [Q|[<-|Q]]; [apply Rlt_le, A; exact Q|apply Rle_refl|apply B; exact Q].
  - intros i Hi. rewrite <- !norm_strength by auto. apply A. rewrite Ea'. apply in_seq. lia.
Qed.

(** with one output both rankings start with the same neuron *)
Theorem first_agree : forall H T m k1 k2 r1 r2, length H = length T -> (0 < k2)%nat -> H <> [] ->
  @mrsr NumR SG H T m 1 k1 = Ok r1 -> @mrsr2 NumR SG BR H T m 1 k2 = Ok r2 -> hd_error r1 = hd_error r2.
Proof.
  intros H T m k1 k2 r1 r2 HL Hk HN E1 E2. destruct (mrsr_first_choice _ _ _ _ _ _ E1) as (a & -> & A1 & A2 & A3).
  destruct (mrsr2_first_least _ _ _ _ _ _ HL Hk HN E2) as (b & -> & B1 & B2 & B3).
  assert (forall i, strength_sqr H T 1 i = strength_abs H T 1 i) as Q.
  { intros i. unfold strength_sqr, strength_abs. cbn [seq map]. unfold Rsum. cbn [fold_right]. rewrite !Rplus_0_r. exact (sqrt_Rsqr_abs _). }
  f_equal. destruct (lt_eq_lt_dec a b) as [[L|L]|L]; [|exact L|].
  - specialize (B3 a L). rewrite !Q in B3. specialize (A2 b B1). lra.
  - specialize (A3 b L). specialize (B2 a A1). rewrite !Q in B2. lra.
Qed.
End First.
