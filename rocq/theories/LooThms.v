(** The leave-one-out error (C40; reals). *)
From Coq Require Import Reals Lra Permutation.
From Verif Require Import Base Num Mat LinAlg Slfn Strs Elm Mrsr Search Mss MatFacts SplitProofs Spec ElmFacts RLin
  AccProofs TrainProofs RidgeProofs WfProofs TrainThms IncrThms SolveThms NeuronThms ErrThms SearchThms SelectThms RankThms SubThms MssThms.
Local Open Scope R_scope.
#[local] Existing Instance NumR.

Definition without {A} (i : nat) (l : list A) : list A := firstn i l ++ skipn (S i) l.

(** [w] is the mean squared error obtained by predicting every sample with the ridge
    solution of the other samples *)
Definition loo_mse (n c : nat) (norm : R) (H T : list (list R)) (w : R) : Prop :=
  exists Bs : nat -> list (list R),
    (forall i, (i < length H)%nat -> ridge_solution n c norm (Spec.plain (without i H) (without i T)) (Bs i)) /\
    w = mean (map (fun i => sq_err c (nth i T []) (map (predict1 (Bs i) (nth i H [])) (seq 0 c))) (seq 0 (length H))).

Lemma plain_without : forall i (H T : list (list R)), length H = length T ->
  Spec.plain (without i H) (without i T) = without i (Spec.plain H T).
Proof.
  unfold without, Spec.plain. intros i H. revert i. induction H as [|h H IH]; intros i [|t T] E; cbn in E; try discriminate.
  - destruct i; reflexivity.
  - destruct i; [reflexivity|]. exact (f_equal (cons (1, h, t)) (IH i T ltac:(lia))).
Qed.

Lemma nth_without : forall {A} (d : A) i l, (i < length l)%nat -> Permutation (nth i l d :: without i l) l.
Proof.
  intros A d i l. revert i. induction l as [|x l IH]; intros i Hi; cbn in Hi; [lia|]. unfold without in *. destruct i; [apply Permutation_refl|].
  cbn [nth firstn skipn app]. rewrite perm_swap. apply perm_skip, IH. lia.
Qed.

Lemma plain_nth : forall i (H T : list (list R)) d, length H = length T -> (i < length H)%nat -> nth i (Spec.plain H T) d = (1, nth i H [], nth i T []).
Proof.
  unfold Spec.plain. intros i H T d HL Hi. rewrite nth_map2 with (da := @nil R) (db := @nil R); auto; lia.
Qed.
Lemma plain_length : forall (H T : list (list R)), length H = length T -> length (Spec.plain H T) = length H.
Proof. intros H T E. unfold Spec.plain. rewrite map2_length. lia. Qed.

Lemma spec_HH_entry : forall n norm ss i j, (i < n)%nat -> (j < n)%nat -> mR (spec_HH n norm ss) i j =
  (if Nat.eqb i j then norm else 0) + Rsum (map (fun s => sm_w s * entry (sm_h s) i * entry (sm_h s) j) ss).
Proof. intros. rewrite spec_HH_mk, mget_mk by auto. reflexivity. Qed.
Lemma spec_HT_entry : forall n c ss i k, (i < n)%nat -> (k < c)%nat -> mR (spec_HT n c ss) i k =
  Rsum (map (fun s => sm_w s * entry (sm_h s) i * entry (sm_t s) k) ss).
Proof. intros. rewrite spec_HT_mk, mget_mk by auto. reflexivity. Qed.

(** removing one sample *)
Lemma loo_identity : forall n c norm ss rest h t (P B Bi : list (list R)), 0 < norm ->
  Permutation ((1, h, t) :: rest) ss -> nonneg rest -> is_mat n n P -> is_mat n c B -> is_mat n c Bi ->
  msolves n n (spec_HH n norm ss) P (eye n) ->
  msolves n c (spec_HH n norm ss) B (spec_HT n c ss) -> msolves n c (spec_HH n norm rest) Bi (spec_HT n c rest) ->
  length h = n ->
  let r := 1 - S_ n (fun a => entry h a * S_ n (fun b => mR P a b * entry h b)) in
  r <> 0 /\ forall k, (k < c)%nat -> r * (entry t k - predict1 Bi h k) = entry t k - predict1 B h k.
Proof.
  intros n c norm ss rest h t P B Bi Hn HP Hp SP SB SBi MP MB MBi Hh r.
  set (x := fun a => S_ n (fun b => mR P a b * entry h b)).
  assert (nonneg ss) as Hpss.
  { intros s Hs. eapply Permutation_in in Hs; [|apply Permutation_sym; exact HP]. destruct Hs as [<-|Hs]; [cbn; lra|auto]. }
  pose proof (PD_spec n norm ss Hn Hpss) as PDA. pose proof (PD_spec n norm rest Hn Hp) as PDAi.
  assert (forall i j, (i < n)%nat -> (j < n)%nat -> mR (spec_HH n norm ss) i j = mR (spec_HH n norm rest) i j + entry h i * entry h j) as EA.
  { intros i j Hi Hj. rewrite !spec_HH_entry by auto.
    rewrite <- (Rsum_perm _ _ (Permutation_map (fun s => sm_w s * entry (sm_h s) i * entry (sm_h s) j) HP)). cbn [map]. rewrite Rsum_cons. unfold sm_w at 1, sm_h at 1 2. cbn [fst snd]. rring. }
  assert (forall i k, (i < n)%nat -> (k < c)%nat -> mR (spec_HT n c ss) i k = mR (spec_HT n c rest) i k + entry h i * entry t k) as EHT.
  { intros i k Hi Hk. rewrite !spec_HT_entry by auto.
    rewrite <- (Rsum_perm _ _ (Permutation_map (fun s => sm_w s * entry (sm_h s) i * entry (sm_t s) k) HP)). cbn [map]. rewrite Rsum_cons. unfold sm_w at 1, sm_h at 1, sm_t at 1. cbn [fst snd]. rring. }
  assert (forall i, (i < n)%nat -> S_ n (fun j => mR (spec_HH n norm ss) i j * x j) = entry h i) as Ax.
  { intros i Hi. unfold x. transitivity (S_ n (fun b => S_ n (fun j => mR (spec_HH n norm ss) i j * mR P j b) * entry h b)).
    - transitivity (S_ n (fun j => S_ n (fun b => mR (spec_HH n norm ss) i j * mR P j b * entry h b))).
      + apply sum_ext; intros. rewrite <- sum_scal. apply sum_ext; intros; rring.
      + rewrite sum_swap. apply sum_ext; intros. now rewrite sum_scal_r.
    - transitivity (S_ n (fun b => if (b =? i)%nat then entry h b else 0)); [|apply (sum_delta n i (fun b => entry h b)); auto].
      apply sum_ext. intros b Hb. rewrite MP by auto. rewrite mget_eye by auto. rewrite (Nat.eqb_sym i b). destruct (b =? i)%nat; rring. }
  assert (r = 1 - S_ n (fun a => entry h a * x a)) as Er by reflexivity.
  split.
  - intros C. assert (forall j, (j < n)%nat -> x j = 0) as X0.
    { apply (PD_minj n _ PDAi). intros i Hi.
      transitivity (S_ n (fun j => mR (spec_HH n norm ss) i j * x j) - entry h i * S_ n (fun j => entry h j * x j)).
      - rewrite <- sum_scal, <- sum_sub. apply sum_ext. intros j Hj. rewrite EA by auto. rring.
      - rewrite Ax by auto. rewrite Er in C. replace (S_ n (fun j => entry h j * x j)) with 1; [rring|]. rlra. }
    rewrite Er in C. rewrite (sum_zero n (fun a => entry h a * x a)) in C; [rlra|]. intros i Hi. rewrite X0 by auto. rring.
  - intros k Hk. set (d := entry t k - predict1 Bi h k).
    assert (predict1 B h k = S_ n (fun j => entry h j * mR B j k)) as EB by (unfold predict1; rewrite Rsum_S, Hh; reflexivity).
    assert (predict1 Bi h k = S_ n (fun j => entry h j * mR Bi j k)) as EBi by (unfold predict1; rewrite Rsum_S, Hh; reflexivity).
    assert (forall j, (j < n)%nat -> mR B j k - mR Bi j k = x j * d) as HD.
    { intros j Hj. apply (PD_inj n _ (fun j => mR B j k - mR Bi j k) (fun j => x j * d) PDA); auto. intros i Hi.
      transitivity (S_ n (fun j => mR (spec_HH n norm ss) i j * mR B j k) - S_ n (fun j => mR (spec_HH n norm ss) i j * mR Bi j k)).
      - rewrite <- sum_sub. apply sum_ext; intros; rring.
      - rewrite (MB i k) by auto.
        transitivity (mR (spec_HT n c ss) i k - (S_ n (fun j => mR (spec_HH n norm rest) i j * mR Bi j k) + entry h i * S_ n (fun j => entry h j * mR Bi j k))).
        + f_equal. rewrite <- sum_scal, <- sum_add. apply sum_ext. intros l Hl. rewrite EA by auto. rring.
        + rewrite (MBi i k) by auto. rewrite EHT by auto. rewrite <- EBi.
          transitivity (S_ n (fun j => mR (spec_HH n norm ss) i j * x j) * d); [rewrite Ax by auto; unfold d; rring|].
          rewrite <- sum_scal_r. apply sum_ext; intros; rring. }
    assert (predict1 B h k - predict1 Bi h k = S_ n (fun a => entry h a * x a) * d) as HQ.
    { rewrite EB, EBi, <- sum_sub, <- sum_scal_r. apply sum_ext. intros j Hj. transitivity (entry h j * (mR B j k - mR Bi j k)); [rring|]. rewrite HD by auto. rring. }
    rewrite Er. unfold d in *. rlra.
Qed.

Section Loo.
Context {SG : @Sing NumR}.

Lemma combine3 : forall (Y T : list (list R)) (r : list R) n, length Y = n -> length T = n -> length r = n ->
  combine (combine Y T) r = map (fun i => ((nth i Y [], nth i T []), nth i r 0)) (seq 0 n).
Proof.
  induction Y as [|y Y IH]; intros [|t T] [|a r] n HY HT Hr; cbn in HY, HT, Hr; subst n; try discriminate; [reflexivity|].
  cbn [combine length seq map nth]. f_equal. rewrite <- seq_shift, map_map. apply IH; congruence || lia.
Qed.

Lemma press_R_value : forall n (P : list (list R)) h, is_mat n n P -> length h = n ->
  @nsub NumR n1 (dotv (mkv n (fun j => dotv h (mcol P j))) h) = 1 - S_ n (fun a => entry h a * S_ n (fun b => mR P a b * entry h b)).
Proof.
  intros n P h SP Hh. change (@nsub NumR n1 ?x) with (1 - x). f_equal.
  rewrite (dotv_sum _ _ n); [|apply mkv_length|exact Hh].
  transitivity (S_ n (fun j => S_ n (fun a => entry h a * mR P a j) * entry h j)).
  - apply sum_ext. intros j Hj. rewrite vget_mkv by auto. rewrite (dotv_sum _ _ n); [|exact Hh|rewrite mcol_length; apply SP].
    f_equal. apply sum_ext. intros a Ha. rewrite vget_mcol; [reflexivity|]. destruct SP as [SP _]. cbn [num NumR] in *. lia.
  - transitivity (S_ n (fun j => S_ n (fun a => entry h a * (mR P a j * entry h j)))).
    + apply sum_ext; intros. rewrite <- sum_scal_r. apply sum_ext; intros; rring.
    + rewrite sum_swap. apply sum_ext; intros. now rewrite sum_scal.
Qed.

Lemma good_plain : forall n (H T : list (list R)), Forall (fun h => length h = n) H -> good n (Spec.plain H T).
Proof.
  intros n H T HF s Hs. unfold Spec.plain in Hs. rewrite map2_combine in Hs. apply in_map_iff in Hs as ([h t] & <- & Hin). split; [cbn; lra|].
  apply in_combine_l in Hin. rewrite Forall_forall in HF. apply (HF h Hin).
Qed.
Lemma good_without : forall n i ss, good n ss -> good n (without i ss).
Proof.
  intros n i ss Hg s Hs. apply Hg. unfold without in Hs. apply in_app_or in Hs as [Hs|Hs].
  - rewrite <- (firstn_skipn i ss). apply in_or_app; auto.
  - rewrite <- (firstn_skipn (S i) ss). apply in_or_app; auto.
Qed.

Theorem loo_error_true : forall e n c norm (H T : list (list R)), e_class e = None -> s_outputs (e_net e) = c -> (0 < c)%nat -> 0 < norm ->
  Forall (fun h => length h = n) H -> wide c T -> length H = length T -> H <> [] ->
  exists w, loo_error e n H (spec_HH n norm (Spec.plain H T)) (spec_HT n c (Spec.plain H T)) T = Ok w /\ loo_mse n c norm H T w.
Proof.
  intros e n c norm H T Hcl Ho Hc Hn WH WT HL HN.
  set (ss := Spec.plain H T). set (A := spec_HH n norm ss). set (Y := spec_HT n c ss).
  assert (good n ss) as Hg by now apply good_plain.
  assert (nonneg ss) as Hp by (intros s Hs; apply (Hg s Hs)).
  assert (is_mat n n A) as SA by (unfold A; rewrite spec_HH_mk; apply is_mat_mk).
  assert (is_mat n c Y) as SY by (unfold Y; rewrite spec_HT_mk; apply is_mat_mk).
  pose proof (PD_spec n norm ss Hn Hp) as PDA. fold A in PDA.
  assert (minj n (mR A)) as I1 by now apply PD_minj.
  assert (minj n (fun i j => mR A j i)) as I2.
  { intros x Hx. apply I1. intros i Hi. rewrite <- (Hx i Hi). apply sum_ext. intros j Hj. unfold A. now rewrite spec_HH_sym. }
  destruct (pinv_solves n A SA I1 I2) as (SP & MP & EP). set (P := @pinv NumR SG n A) in *. clearbody P.
  pose proof (inv_mul_solves n c A P Y SP SY MP) as MB.
  assert (is_mat n c (mmul c P Y)) as SB.
  { pose proof (is_mat_mmul c P Y) as Q. destruct SP as [SP _]. cbn [num NumR] in *. rewrite SP in Q. exact Q. }
  set (B := mmul c P Y) in *.
  set (Bs := fun i => solve_corr (e_net e) n (spec_HH n norm (without i ss)) (spec_HT n c (without i ss))).
  assert (forall i, ridge_solution n c norm (without i ss) (Bs i)) as RB.
  { intros i. unfold Bs. rewrite <- Ho. apply solve_corr_spec; auto. now apply good_without. }
  set (Yh := @mmul NumR c H B).
  assert (Yh = outputs_of c B H) as EY by (apply (mmul_outputs n); [apply SB|exact WH]).
  set (rr := @press_R NumR n H P).
  assert (length Yh = length H /\ length rr = length H) as [LY Lr] by (split; apply map_length).
  assert (forall i, (i < length H)%nat -> let r := nth i rr 0 in r <> 0 /\ forall k, (k < c)%nat ->
     r * (entry (nth i T []) k - predict1 (Bs i) (nth i H []) k) = entry (nth i T []) k - predict1 B (nth i H []) k) as ID.
  { intros i Hi r. assert (length (nth i H []) = n) as Hh by (rewrite Forall_forall in WH; apply WH, nth_In, Hi).
    assert (r = 1 - S_ n (fun a => entry (nth i H []) a * S_ n (fun b => mR P a b * entry (nth i H []) b))) as Er.
    { unfold r, rr, press_R. rewrite nth_map_lt with (da := @nil R) by exact Hi. now apply press_R_value. }
    rewrite Er. destruct (RB i) as (RS1 & RS2 & _).
    apply (loo_identity n c norm ss (without i ss) (nth i H []) (nth i T []) P B (Bs i)); auto.
    - rewrite <- (plain_nth i H T (0, [], []) HL Hi). fold ss. apply nth_without. unfold ss. now rewrite plain_length.
    - intros s Hs. apply (good_without n i ss Hg s Hs).
    - now apply shape_is_mat.
    }
  exists (mean (map (fun i => sq_err c (nth i T []) (map (predict1 (Bs i) (nth i H [])) (seq 0 c))) (seq 0 (length H)))).
  split.
  - unfold loo_error. rewrite Ho. rewrite EP. cbn [rbind]. fold B Yh rr.
    unfold press_. rewrite Hcl. unfold raw_press, zip_rows. cbn [num NumR] in *.
    rewrite bcast_eq by congruence. cbn [rbind].
    rewrite bcast_eq by (rewrite combine_length; lia). cbn [rbind].
    rewrite (combine3 Yh T rr (length H)) by congruence. rewrite map_map. cbn [fst snd].
    rewrite (map_ext_in _ (fun i => map (@Fin NumR) (map (fun k => (predict1 (Bs i) (nth i H []) k - entry (nth i T []) k) ^ 2) (seq 0 c)))).
    + rewrite <- (map_map (fun i => map (fun k => (predict1 (Bs i) (nth i H []) k - entry (nth i T []) k) ^ 2) (seq 0 c)) (map (@Fin NumR))).
      rewrite concat_map_Fin, xmean_fin.
      * cbn [assert_not_nan rbind xfin]. f_equal. rewrite (mean_concat c); auto.
        -- rewrite map_map. f_equal. apply map_ext. intros i. unfold sq_err. f_equal. apply f_equal. apply map_ext_in. intros k Hk. apply in_seq in Hk.
           unfold entry at 2. rewrite nth_map_lt with (da := 0%nat) by (rewrite seq_length; lia). rewrite seq_nth by lia. reflexivity.
        -- apply Forall_forall. intros l Hl. apply in_map_iff in Hl as [q [<- _]]. now rewrite map_length, seq_length.
        -- destruct H; [congruence|discriminate].
      * destruct H; [congruence|]. cbn. destruct c; [lia|]. discriminate.
    + intros i Hi. apply in_seq in Hi. destruct (ID i ltac:(lia)) as [R0 RK].
      rewrite (map2_vget _ _ _ c).
      * rewrite map_map. apply map_ext_in. intros k Hk. apply in_seq in Hk. rewrite np_div_R by exact R0. cbn [xsq xmul]. f_equal.
        specialize (RK k ltac:(lia)). rewrite EY. unfold outputs_of. unfold entry at 1 3. rewrite nth_map_lt with (da := @nil R) by lia.
        rewrite nth_map_lt with (da := 0%nat) by (rewrite seq_length; lia). rewrite seq_nth by lia. rewrite Nat.add_0_l.
        change (@nsub NumR) with Rminus. change (@nmul NumR) with Rmult.
        set (r := nth i rr 0) in *. set (a := predict1 (Bs i) _ k) in *. set (b := predict1 B _ k) in *. set (t := entry _ k) in *.
        assert (b - t = r * (a - t)) as -> by lra. cbn [num NumR]. rfield. exact R0.
      * rewrite EY. unfold outputs_of. rewrite nth_map_lt with (da := @nil R) by lia. now rewrite map_length, seq_length.
      * unfold wide in WT. rewrite Forall_forall in WT. apply WT, nth_In. lia.
  - exists Bs. split; [|reflexivity]. intros i Hi. rewrite plain_without by exact HL. apply RB.
Qed.
End Loo.
