(** What 'LOO' measures, with and without class weights, and when it works (C96, C99; reals). *)
From Coq Require Import Reals Lra Lia Permutation.
From Verif Require Import Base Num Mat LinAlg Slfn Strs Elm Mrsr Search Mss MatFacts SplitProofs ElmFacts RLin
  AccProofs TrainProofs RidgeProofs WfProofs TrainThms IncrThms SolveThms NeuronThms ErrThms SearchThms SelectThms RankThms SubThms MssThms LooThms SelThms FoldThms CvThms WorksThms Exact7 Spec.
Local Open Scope R_scope.
#[local] Existing Instance NumR.

(** ** Specification *)
(** [q] is h A^-1 h for the matrix A of the ridge problem on [ss] *)
Definition leverage (n : nat) (norm : R) (ss : list sample) (h : list R) (q : R) : Prop :=
  exists x : nat -> R,
    (forall i, (i < n)%nat -> Rsum (map (fun j => entry (nth i (spec_HH n norm ss) []) j * x j) (seq 0 n)) = entry h i) /\
    q = Rsum (map (fun j => entry h j * x j) (seq 0 n)).

(** the error of every sample divided by the square of its entry in [rs] *)
Definition press (cls : option string) (c : nat) (T Y : list (list R)) (rs : list R) : R :=
  mean (map (fun i => sample_err cls c (nth i T []) (nth i Y []) / nth i rs 0 ^ 2) (seq 0 (length T))).
(** the same, averaged over each class and then over the classes with weights *)
Definition class_press (T Y : list (list R)) (rs : list R) (k : nat) : R :=
  match filter (fun i => in_class k (nth i T [])) (seq 0 (length T)) with
  | [] => 0
  | l => mean (map (fun i => (if (class_of (nth i Y []) =? k)%nat then 0 else 1) / nth i rs 0 ^ 2) l)
  end.
Definition weighted_press (ws : list R) (T Y : list (list R)) (rs : list R) : R :=
  mean (map (fun k => class_press T Y rs k * nth k ws 0) (seq 0 (length ws))).

(** [w] is the value that 'LOO' uses: errors of the model trained on all samples, divided by (1 - leverage)^2 *)
Definition loo_measure (cls : option string) (ws : list R) (n c : nat) (norm : R) (ss : list sample) (H T : list (list R)) (w : R) : Prop :=
  exists B qs, ridge_solution n c norm ss B /\ length qs = length H /\
    (forall i, (i < length H)%nat -> leverage n norm ss (nth i H []) (nth i qs 0) /\ 0 <= nth i qs 0 < 1) /\
    let Y := outputs_of c B H in let rs := map (fun q => 1 - q) qs in
    w = match cls with Some "wc"%string => weighted_press ws T Y rs | _ => press cls c T Y rs end.

(** ** Leverages *)
Lemma SS_ge : forall (f : sample -> R) ss s, (forall s, In s ss -> 0 <= f s) -> In s ss -> f s <= Rsum (map f ss).
Proof.
  induction ss as [|a ss IH]; intros s Hf Hin; [contradiction|]. cbn [map]. rewrite Rsum_cons.
  assert (0 <= Rsum (map f ss)) as Q.
  { clear - Hf. induction ss as [|b ss IH]; cbn [map]; [rewrite Rsum_nil; lra|]. rewrite Rsum_cons. assert (0 <= f b) by (apply Hf; right; left; reflexivity).
    assert (0 <= Rsum (map f ss)) by (apply IH; intros s Hs; apply Hf; destruct Hs; [left; auto|right; right; auto]). lra. }
  destruct Hin as [->|Hin]; [lra|]. assert (0 <= f a) by (apply Hf; left; reflexivity). specialize (IH s ltac:(intros; apply Hf; right; auto) Hin). lra.
Qed.

Lemma leverage_range : forall n norm ss h w t q, 0 < norm -> good n ss -> In (w, h, t) ss -> 1 <= w -> leverage n norm ss h q -> 0 <= q < 1.
Proof.
  intros n norm ss h w t q Hn Hg Hin Hw (x & Hx & ->).
  set (q := Rsum (map (fun j => entry h j * x j) (seq 0 n))).
  assert (q = dotS n h x) as Eq by (unfold q; rewrite Rsum_S; reflexivity).
  assert (quad n (mR (spec_HH n norm ss)) x = q) as EQ.
  { unfold quad. rewrite Eq. unfold dotS. apply sum_ext. intros i Hi. specialize (Hx i Hi). rewrite Rsum_S in Hx.
    transitivity (x i * S_ n (fun j => mR (spec_HH n norm ss) i j * x j)); [rewrite <- sum_scal; apply sum_ext; intros; rring|].
    transitivity (x i * entry h i); [f_equal; exact Hx|]. unfold entry. change (vR h i) with (nth i h 0). rring. }
  rewrite quad_spec in EQ.
  assert (0 <= S_ n (fun i => x i * x i)) as HS by (apply sum_nonneg; intros; apply Rle_0_sqr).
  assert (w * (q * q) <= Rsum (map (fun s => sm_w s * (dotS n (sm_h s) x * dotS n (sm_h s) x)) ss)) as HG.
  { rewrite Eq. apply (SS_ge (fun s => sm_w s * (dotS n (sm_h s) x * dotS n (sm_h s) x)) ss (w, h, t)); [|exact Hin].
    intros s Hs. apply Rmult_le_pos; [apply (Hg s Hs)|apply Rle_0_sqr]. }
  change (@nsum NumR (map (fun s => sm_w s * (dotS n (sm_h s) x * dotS n (sm_h s) x)) ss)) with (Rsum (map (fun s => sm_w s * (dotS n (sm_h s) x * dotS n (sm_h s) x)) ss)) in EQ.
  set (G := Rsum (map (fun s => sm_w s * (dotS n (sm_h s) x * dotS n (sm_h s) x)) ss)) in *. set (X := S_ n (fun i => x i * x i)) in *. clearbody q.
  assert (norm * X + G = q) as EQ' by exact EQ.
  assert (0 <= q * q) by apply Rle_0_sqr. assert (q * q <= w * (q * q)) by nra.
  assert (0 <= norm * X) by (apply Rmult_le_pos; lra).
  split; [lra|]. destruct (Rlt_le_dec q 1) as [|C]; [assumption|exfalso].
  assert (norm * X = 0) as Z by nra. assert (X = 0) as ZX by nra.
  assert (q = 0) as Zq; [|lra]. rewrite Eq. unfold dotS. apply sum_zero. intros i Hi.
  pose proof (sum_nonneg_zero n (fun i => x i * x i) ltac:(intros; apply Rle_0_sqr) ZX i Hi) as Q. apply Rsqr_0_uniq in Q. rewrite Q. rring.
Qed.

(** ** The errors *)
Lemma press_plain : forall cls wc c (T Y : list (list R)) (rs : list R), ErrThms.plain cls -> (0 < c)%nat -> wide c T -> wide c Y ->
  length Y = length T -> length rs = length T -> T <> [] -> Forall (fun r => r <> 0) rs ->
  @raw_press NumR cls wc T Y rs c = Ok (@Fin NumR (press cls c T Y rs)).
Proof.
  intros cls wc c T Y rs Hp Hc WT WY HL HR HN Hr. unfold press.
  assert (forall i, (i < length T)%nat -> length (nth i T []) = c /\ length (nth i Y []) = c /\ nth i rs 0 <> 0) as HE.
  { intros i Hi. unfold wide in *. rewrite Forall_forall in WT, WY, Hr. split; [apply WT, nth_In, Hi|]. split; [apply WY, nth_In; lia|apply Hr, nth_In; lia]. }
  assert (seq 0 (length T) <> []) as HS by (destruct T; [congruence|discriminate]).
  unfold raw_press, zip_rows. cbn [num NumR] in *.
  destruct Hp as [->|[->| ->]]; rewrite bcast_eq by auto; cbn [rbind]; rewrite bcast_eq by (rewrite combine_length; lia); cbn [rbind];
    rewrite (combine3 Y T rs (length T)) by congruence; rewrite map_map; cbn [fst snd]; apply f_equal.
  - rewrite (map_ext_in _ (fun i => map (@Fin NumR) (map (fun j => (entry (nth i Y []) j - entry (nth i T []) j) ^ 2 / nth i rs 0 ^ 2) (seq 0 c)))).
    + rewrite <- (map_map (fun i => map (fun j => (entry (nth i Y []) j - entry (nth i T []) j) ^ 2 / nth i rs 0 ^ 2) (seq 0 c)) (map (@Fin NumR))).
      rewrite concat_map_Fin, xmean_fin.
      * f_equal. rewrite (mean_concat c); auto.
        -- rewrite map_map. f_equal. apply map_ext_in. intros i Hi. apply in_seq in Hi. cbn [sample_err]. unfold sq_err.
           destruct (HE i ltac:(lia)) as (_ & _ & R0).
           rewrite <- (map_map (fun j => (entry (nth i Y []) j - entry (nth i T []) j) ^ 2) (fun a => a / nth i rs 0 ^ 2)), Rsum_scale_r.
           field. split; [apply not_0_INR; lia|exact R0].
        -- apply Forall_forall. intros l Hl. apply in_map_iff in Hl as [q [<- _]]. now rewrite map_length, seq_length.
        -- intros C. apply map_eq_nil in C. contradiction.
      * destruct T; [congruence|]. cbn. destruct c; [lia|]. discriminate.
    + intros i Hi. apply in_seq in Hi. destruct (HE i ltac:(lia)) as (L1 & L2 & R0).
      rewrite (map2_vget _ _ _ c) by auto. rewrite map_map. apply map_ext. intros j. rewrite np_div_R by exact R0. cbn [xsq xmul]. f_equal.
      change (@nsub NumR) with Rminus. change (@nmul NumR) with Rmult. cbn [num NumR]. rfield. exact R0.
  - rewrite (map_ext_in _ (fun i => @Fin NumR (sample_err (Some "c"%string) c (nth i T []) (nth i Y []) / nth i rs 0 ^ 2))).
    + rewrite <- (map_map (fun i => sample_err (Some "c"%string) c (nth i T []) (nth i Y []) / nth i rs 0 ^ 2) (@Fin NumR)).
      apply xmean_fin. intros C. apply map_eq_nil in C. contradiction.
    + intros i Hi. apply in_seq in Hi. destruct (HE i ltac:(lia)) as (L1 & L2 & R0). rewrite np_div_R by exact R0. cbn [xsq xmul]. f_equal.
      unfold neq_arg. rewrite !argmax_class. cbn [sample_err]. unfold cls_err. rewrite (Nat.eqb_sym (class_of (nth i T []))).
      destruct (class_of (nth i Y []) =? class_of (nth i T []))%nat; cbn [negb b2n]; change (@nmul NumR) with Rmult; change (@n0 NumR) with 0; change (@n1 NumR) with 1; rfield; exact R0.
  - rewrite (map_ext_in _ (fun i => map (@Fin NumR) (map (fun j => @b2n NumR (negb (Bool.eqb (has_label (entry (nth i Y []) j)) (has_label (entry (nth i T []) j)))) / nth i rs 0 ^ 2) (seq 0 c)))).
    + rewrite <- (map_map (fun i => map (fun j => @b2n NumR (negb (Bool.eqb (has_label (entry (nth i Y []) j)) (has_label (entry (nth i T []) j)))) / nth i rs 0 ^ 2) (seq 0 c)) (map (@Fin NumR))).
      rewrite concat_map_Fin, xmean_fin.
      * f_equal. rewrite (mean_concat c); auto.
        -- rewrite map_map. f_equal. apply map_ext_in. intros i Hi. apply in_seq in Hi. cbn [sample_err]. unfold label_err.
           destruct (HE i ltac:(lia)) as (_ & _ & R0).
           rewrite <- (map_map (fun j => @b2n NumR (negb (Bool.eqb (has_label (entry (nth i Y []) j)) (has_label (entry (nth i T []) j))))) (fun a => a / nth i rs 0 ^ 2)), Rsum_scale_r, b2n_sum.
           field. split; [apply not_0_INR; lia|exact R0].
        -- apply Forall_forall. intros l Hl. apply in_map_iff in Hl as [q [<- _]]. now rewrite map_length, seq_length.
        -- intros C. apply map_eq_nil in C. contradiction.
      * destruct T; [congruence|]. cbn. destruct c; [lia|]. discriminate.
    + intros i Hi. apply in_seq in Hi. destruct (HE i ltac:(lia)) as (L1 & L2 & R0).
      rewrite (map2_vget _ _ _ c) by auto. rewrite map_map. apply map_ext. intros j. rewrite !gthalf_label. rewrite np_div_R by exact R0. cbn [xsq xmul]. f_equal.
      destruct (negb _); cbn [b2n]; change (@nmul NumR) with Rmult; change (@n0 NumR) with 0; change (@n1 NumR) with 1; rfield; exact R0.
Qed.

Lemma press_wc : forall ws c (T Y : list (list R)) (rs : list R), length ws = c -> (0 < c)%nat ->
  length Y = length T -> length rs = length T -> Forall (fun r => r <> 0) rs ->
  @raw_press NumR (Some "wc"%string) (Some (fin_all ws)) T Y rs c = Ok (@Fin NumR (weighted_press ws T Y rs)).
Proof.
  intros ws c T Y rs Hws Hc HL HR Hr. unfold raw_press.
  rewrite (mapM_ok_map _ (fun k => @Fin NumR (class_press T Y rs k))).
  - cbn [rbind]. unfold fin_all. rewrite bcast_eq by (rewrite !map_length, seq_length; auto). cbn [rbind]. apply f_equal.
    unfold weighted_press. rewrite Hws.
    assert (forall m a ws, length ws = m -> map (fun q : @xnum NumR * @xnum NumR => xmul (fst q) (snd q)) (combine (map (fun k => @Fin NumR (class_press T Y rs k)) (seq a m)) (map (@Fin NumR) ws)) =
        map (@Fin NumR) (map (fun k => class_press T Y rs k * nth (k - a) ws 0) (seq a m))) as G.
    { clear. induction m as [|m IH]; intros a [|w ws] Hl; cbn in Hl; try discriminate; [reflexivity|]. cbn [seq map combine]. f_equal.
      - rewrite Nat.sub_diag. reflexivity.
      - rewrite (IH (S a) ws) by (injection Hl; auto). f_equal. apply map_ext_in. intros k Hk. apply in_seq in Hk. replace (k - a)%nat with (S (k - S a)) by lia. reflexivity. }
    etransitivity; [apply (f_equal (@xmean NumR)); apply (G c 0%nat ws Hws)|].
    rewrite (map_ext (fun k => class_press T Y rs k * nth (k - 0) ws 0) (fun k => class_press T Y rs k * nth k ws 0)) by (intros k; now rewrite Nat.sub_0_r).
    apply xmean_fin. destruct c; [lia|discriminate].
  - intros k Hk. unfold class_press.
    assert (@rows_with NumR T k = filter (fun i => in_class k (nth i T [])) (seq 0 (length T))) as ->.
    { unfold rows_with. cbn [num NumR]. apply filter_ext_in. intros r Hr0. unfold mget. cbn [neqb NumR]. unfold Reqb, in_class, entry. change (@n1 NumR) with 1.
      change (@vget NumR ?v ?i) with (nth i v 0). reflexivity. }
    unfold class_err. destruct (filter _ (seq 0 (length T))) as [|r0 l0] eqn:EF; [reflexivity|]. set (l := r0 :: l0) in *.
    rewrite (mapM_ok_map _ (fun i => @Fin NumR ((if (class_of (nth i Y []) =? k)%nat then 0 else 1) / nth i rs 0 ^ 2))).
    + cbn [rbind]. apply f_equal. rewrite <- (map_map (fun i => (if (class_of (nth i Y []) =? k)%nat then 0 else 1) / nth i rs 0 ^ 2) (@Fin NumR)).
      apply xmean_fin. discriminate.
    + intros i Hi. assert (i < length T)%nat as HiT. { rewrite <- EF in Hi. apply filter_In in Hi as [Hi _]. apply in_seq in Hi. lia. }
      rewrite (nth_error_nth' Y []) by lia. apply f_equal.
      assert (nth i rs 0 <> 0) as R0 by (rewrite Forall_forall in Hr; apply Hr, nth_In; lia).
      change (@vget NumR rs i) with (nth i rs 0). rewrite np_div_R by exact R0. cbn [xsq xmul]. f_equal. unfold neq_arg. rewrite argmax_class.
      destruct (class_of (nth i Y []) =? k)%nat; cbn [negb b2n]; change (@nmul NumR) with Rmult; change (@n0 NumR) with 0; change (@n1 NumR) with 1; rfield; exact R0.
Qed.

Section Loo.
Context {SG : @Sing NumR} {BR : @Brent NumR} {SH : Shuffle}.

Definition loo_task (e : elm) (wcs : list R) : Prop :=
  ErrThms.plain (e_class e) \/ (e_class e = Some "wc"%string /\ e_wc e = Some (fin_all wcs) /\ length wcs = s_outputs (e_net e)).
Definition heavy (ss : list sample) (H : list (list R)) : Prop :=
  forall i, (i < length H)%nat -> exists w t, In (w, nth i H [], t) ss /\ 1 <= w.

Lemma loo_exact : forall e n norm ss wcs (H T : list (list R)), loo_task e wcs -> (0 < s_outputs (e_net e))%nat -> 0 < norm -> good n ss -> heavy ss H ->
  Forall (fun h => length h = n) H -> wide (s_outputs (e_net e)) T -> length H = length T -> H <> [] ->
  exists w, loo_error e n H (spec_HH n norm ss) (spec_HT n (s_outputs (e_net e)) ss) T = Ok w /\
            loo_measure (e_class e) wcs n (s_outputs (e_net e)) norm ss H T w.
Proof.
  intros e n norm ss wcs H T Hcl Hc Hn Hg Hh WH WT HL HN. set (c := s_outputs (e_net e)) in *.
  set (A := spec_HH n norm ss). set (Y := spec_HT n c ss).
  assert (nonneg ss) as Hp by (intros s Hs; apply (Hg s Hs)).
  assert (is_mat n n A) as SA by (unfold A; rewrite spec_HH_mk; apply is_mat_mk).
  assert (is_mat n c Y) as SY by (unfold Y; rewrite spec_HT_mk; apply is_mat_mk).
  pose proof (PD_spec n norm ss Hn Hp) as PDA. fold A in PDA.
  assert (minj n (mR A)) as I1 by now apply PD_minj.
  assert (minj n (fun i j => mR A j i)) as I2.
  { intros x Hx. apply I1. intros i Hi. rewrite <- (Hx i Hi). apply sum_ext. intros j Hj. unfold A. now rewrite spec_HH_sym. }
  destruct (pinv_solves n A SA I1 I2) as (SP & MP & EP). set (P := @pinv NumR SG n A) in *. clearbody P.
  pose proof (inv_mul_solves n c A P Y SP SY MP) as MB.
  assert (is_mat n c (mmul c P Y)) as SB.
  { pose proof (is_mat_mmul c P Y) as Q. destruct SP as [SP _]. cbn [num NumR] in *. rewrite SP in Q. exact Q. }
  set (B := mmul c P Y) in *.
  set (Yh := @mmul NumR c H B).
  assert (Yh = outputs_of c B H) as EY by (apply (mmul_outputs n); [apply SB|exact WH]).
  set (lev := fun h => S_ n (fun a => entry h a * S_ n (fun b => mR P a b * entry h b))).
  assert (@press_R NumR n H P = map (fun q => 1 - q) (map lev H)) as ER.
  { unfold press_R. rewrite map_map. apply map_ext_in. intros h Hin. rewrite Forall_forall in WH. rewrite (press_R_value n) by auto. reflexivity. }
  assert (forall i, (i < length H)%nat -> leverage n norm ss (nth i H []) (nth i (map lev H) 0) /\ 0 <= nth i (map lev H) 0 < 1) as HLev.
  { intros i Hi. rewrite nth_map_lt with (da := @nil R) by exact Hi. set (h := nth i H []).
    assert (leverage n norm ss h (lev h)) as G.
    { exists (fun b => S_ n (fun a => mR P b a * entry h a)). split; [|unfold lev; rewrite Rsum_S; reflexivity].
      intros j Hj. rewrite Rsum_S. fold A.
      transitivity (S_ n (fun b => S_ n (fun a => (mR A j b * mR P b a) * entry h a))).
      { apply sum_ext. intros b Hb. change (entry (nth j A []) b) with (mR A j b). rewrite <- sum_scal. apply sum_ext. intros. rring. }
      rewrite sum_swap.
      transitivity (S_ n (fun a => mR (eye n) j a * entry h a)).
      { apply sum_ext. intros a Ha. rewrite <- (MP j a Hj Ha). rewrite sum_scal_r. reflexivity. }
      rewrite <- (sum_delta n j (fun a => entry h a)) by auto. apply sum_ext. intros a Ha. rewrite mget_eye by auto. rewrite Nat.eqb_sym. destruct (a =? j)%nat; rring. }
    destruct (Hh i Hi) as (w & t & Hin & Hw). split; [exact G|]. eapply (leverage_range n norm ss h w t); eauto. }
  assert (Forall (fun r => r <> 0) (map (fun q => 1 - q) (map lev H))) as Hr.
  { apply Forall_forall. intros r Hr. apply in_map_iff in Hr as (q & <- & Hq). apply (In_nth _ _ 0) in Hq as (i & Hi & <-). rewrite map_length in Hi.
    destruct (HLev i Hi) as [_ HB]. cbn [num NumR] in *. intros C. rlra. }
  assert (ridge_solution n c norm ss B) as HB by (apply ridge_solution_of; auto).
  assert (wide c Yh /\ length Yh = length H) as [WY LY] by apply mmul_wide.
  assert (length (map (fun q => 1 - q) (map lev H)) = length H) as Lr by now rewrite !map_length.
  assert (T <> []) as HNT by (destruct T; [destruct H; [congruence|discriminate]|discriminate]).
  assert (length Yh = length T) as LY' by (etransitivity; [exact LY|exact HL]).
  assert (length (map (fun q => 1 - q) (map lev H)) = length T) as Lr' by (etransitivity; [exact Lr|exact HL]).
  exists (match e_class e with Some "wc"%string => weighted_press wcs T Yh (map (fun q => 1 - q) (map lev H)) | cls => press cls c T Yh (map (fun q => 1 - q) (map lev H)) end).
  split.
  - unfold loo_error. fold c. rewrite EP. cbn [rbind]. fold B Yh. rewrite ER. unfold press_. fold c.
    destruct Hcl as [Hcl|(Ec & Ew & El)].
    + rewrite press_plain by auto. cbn [rbind assert_not_nan xfin]. f_equal. destruct Hcl as [->|[->| ->]]; reflexivity.
    + rewrite Ec, Ew. rewrite press_wc by auto. reflexivity.
  - exists B, (map lev H). split; [exact HB|]. split; [apply map_length|]. split; [exact HLev|]. cbv zeta. rewrite <- EY.
    destruct Hcl as [[->|[->| ->]]|(-> & _)]; reflexivity.
Qed.

Lemma heavy_samples : forall ws (H T : list (list R)), Forall (fun w => 1 <= w) ws -> length ws = length T -> length H = length T -> heavy (samples ws H T) H.
Proof.
  intros ws H T HF. revert H T. induction HF as [|w ws Hw HF IH]; intros [|h H] [|t T] L1 L2; cbn in L1, L2; try discriminate; intros i Hi; cbn in Hi; try lia.
  destruct i as [|i]; [exists w, t; split; [left; reflexivity|exact Hw]|].
  destruct (IH H T ltac:(lia) ltac:(lia) i ltac:(lia)) as (w' & t' & Hin & Hw'). exists w', t'. split; [right; exact Hin|exact Hw'].
Qed.
Lemma heavy_keep : forall ix ss H, heavy ss H -> heavy (map (keep_sample ix) ss) (map (keep ix) H).
Proof.
  intros ix ss H Hh i Hi. rewrite map_length in Hi. destruct (Hh i Hi) as (w & t & Hin & Hw). exists w, t. split; [|exact Hw].
  rewrite nth_map_lt with (da := @nil R) by exact Hi. apply in_map_iff. exists (w, nth i H [], t). split; [reflexivity|exact Hin].
Qed.

(** the value used for the neurons [ix] *)
Lemma loo_value_measure : forall e norm ss wcs (H T : list (list R)) ix w, loo_task e wcs -> (0 < s_outputs (e_net e))%nat -> 0 < norm ->
  (exists L, good L ss) -> heavy ss H -> wide (s_outputs (e_net e)) T -> length H = length T -> H <> [] ->
  loo_value e norm ss H T ix w ->
  loo_measure (e_class e) wcs (length ix) (s_outputs (e_net e)) norm (map (keep_sample ix) ss) (map (keep ix) H) T w.
Proof.
  intros e norm ss wcs H T ix w Ht Ho Hn [L Hg] Hh WT HL HN E.
  destruct (loo_exact e (length ix) norm (map (keep_sample ix) ss) wcs (map (keep ix) H) T) as (w' & E' & M); auto.
  - eapply good_keep; eauto.
  - now apply heavy_keep.
  - apply keep_wide.
  - now rewrite map_length.
  - destruct H; [congruence|discriminate].
  - unfold loo_value in E. cbn [num NumR] in *. rewrite E' in E. injection E as <-. exact M.
Qed.

Lemma select_loo_heavy : forall e ss wcs H T, Acc (e_net e) ss -> s_HH (e_net e) <> None -> loo_task e wcs -> good (getL (e_net e)) ss -> heavy ss H ->
  (0 < s_outputs (e_net e))%nat -> 0 < s_norm (e_net e) -> Forall (fun h => length h = getL (e_net e)) H -> wide (s_outputs (e_net e)) T ->
  length H = length T -> H <> [] -> shuffles ->
  simple_ranking e -> (0 < ranked_size e (getL (e_net e)))%nat -> exists r, select_loo e H T = Ok r.
Proof.
  intros e ss wcs H T HA HH Hp Hg Hh Ho Hn WH WT HL HN shuf HS HR. unfold select_loo. rewrite (get_corr_acc _ _ HA HH). cbn [need_corr rbind].
  assert (ranked_size e (getL (e_net e)) <= getL (e_net e))%nat as HLe by (unfold ranked_size; destruct (e_op e); [destruct (e_kmax e)|]; lia).
  destruct (ranking_ok e 0 (getL (e_net e)) H T ltac:(lia) HS) as [rk Er]. rewrite Er. cbn [rbind].
  pose proof (ranking_ranked shuf _ _ _ _ _ _ _ Er ltac:(lia)) as (HC & _).
  destruct (loo_exact e (getL (e_net e)) (s_norm (e_net e)) ss wcs H T) as (full & Ef & _); auto. rewrite Ef. cbn [rbind].
  destruct (Nat.eqb_spec (ranked_size e (getL (e_net e))) 0); [lia|].
  match goal with |- context [search_from _ (init_table ?size ?L ?f) ?lo _] =>
    destruct (search_ok (fun i => loo_error e (length (slice rk 0 i)) (@csel NumR H (slice rk 0 i)) (@sub_HH NumR (spec_HH (getL (e_net e)) (s_norm (e_net e)) ss) (slice rk 0 i)) (@rsel NumR (spec_HT (getL (e_net e)) (s_outputs (e_net e)) ss) (slice rk 0 i)) T)
      f (@penalty_of NumR full (ranked_size e (getL (e_net e)))) lo L size ltac:(lia) ltac:(lia)) as [[[m k] t] Es] end.
  { intros i Hi. rewrite slice_firstn by lia. pose proof (columns_firstn _ (Z.to_nat i) _ HC) as HC'.
    rewrite (sub_HH_spec _ _ _ _ HC'), (rsel_HT_spec _ _ _ _ HC').
    destruct (loo_exact e (length (firstn (Z.to_nat i) rk)) (s_norm (e_net e)) (map (keep_sample (firstn (Z.to_nat i) rk)) ss) wcs (map (keep (firstn (Z.to_nat i) rk)) H) T) as (w & Ew & _); auto.
    - eapply good_keep; eauto.
    - now apply heavy_keep.
    - apply keep_wide.
    - now rewrite map_length.
    - destruct H; [congruence|discriminate].
    - exists w. exact Ew. }
  cbn [num NumR] in *. rewrite Es. cbn [rbind]. eauto.
Qed.

Lemma loo_task_same : forall e e' wcs, same_task e e' -> loo_task e wcs -> loo_task e' wcs.
Proof. intros e e' wcs (A & B & C) [H|(H1 & H2 & H3)]; [left; now rewrite A|right]. split; [congruence|]. split; congruence. Qed.

Theorem train_loo_heavy : forall e X T args kw e1 H ws wcs, shuffles -> wf_net (e_net e) -> 0 < s_norm (e_net e) -> (0 < s_outputs (e_net e))%nat ->
  parse_args e args kw = (e1, Ok tt) -> smem "V" args = false -> smem "CV" args = false -> smem "LOO" args = true ->
  weighting e1 T ws -> loo_task (fill_wc e1 T) wcs -> Forall (fun w => 1 <= w) ws ->
  simple_ranking e1 -> (0 < ranked_size e1 (nneurons (s_neurons (e_net e))))%nat ->
  (0 < e_batch e1)%Z -> X <> [] -> length X = length T -> wide (s_outputs (e_net e)) T ->
  elm_project e (Arr2 (s_inputs (e_net e)) X) = Ok H ->
  exists e', train e (Arr2 (s_inputs (e_net e)) X) (Arr2 (s_outputs (e_net e)) T) args kw = (e', Ok None).
Proof.
  intros e X T args kw e1 H ws wcs shuf HW Hn Ho HP HV HCV HLOO Hws Htask Hge HS HR Hb HX HL WT HPr.
  pose proof (parse_args_ok _ _ _ _ HP) as EN.
  destruct (trained_data e args kw e1 X T H ws HW HP Hb HX HL WT Hws HPr) as (e2 & Ea & A & N & HW2 & En & Eo & Ei & Es & El & Hg & Hwn & Hrs & Hop & Htk).
  assert (length H = length X) as HLH by (destruct (elm_project_inv _ _ _ HPr) as (_ & _ & ->); apply map_length).
  assert (length H = length T) as HTH by (rewrite HLH; exact HL).
  assert (length ws = length T) as HLw. { destruct (weighting_ok e1 T ws Hws ltac:(rewrite EN; exact WT)) as (g & _ & _ & _ & _ & Q & _). exact Q. }
  unfold train. rewrite checkdata_ok, HP, HV, HCV, HLOO by auto. unfold train_loo.
  assert (project (e_net e1) X = Ok H) as Ep1. { rewrite (project_with (e_net e)); [now apply elm_project_arr|rewrite EN; reflexivity|rewrite EN; reflexivity]. }
  assert (project (e_net e2) X = Ok H) as Ep2. { rewrite (project_with (e_net e)); [now apply elm_project_arr|auto|auto]. }
  rewrite Ep1. cbn [lift_err]. rewrite Ea.
  destruct (select_loo_heavy e2 (samples ws H T) wcs H T A N) as [[[k rank] mt] Esel]; auto.
  { eapply loo_task_same; eauto. } { now rewrite El. } { now apply heavy_samples. } { now rewrite Eo. } { now rewrite En. } { exact (proj1 (wide_project _ _ _ HW2 Ep2)). } { now rewrite Eo. }
  { destruct H; [destruct X; [congruence|discriminate]|discriminate]. }
  { destruct HS as [HS|HS]; [left; congruence|right]. rewrite Eo. rewrite EN in HS. exact HS. }
  { rewrite Hrs, El, (wf_getL _ HW). exact HR. }
  rewrite Esel. cbn [lift_err].
  destruct (select_loo_spec shuf e2 (samples ws H T) H T k rank mt) as (L & full & HRk & Hk & _); auto.
  { now rewrite El. } { exact (proj1 (wide_project _ _ _ HW2 Ep2)). }
  destruct (refit_fitted e e2 X T (slice rank 0 k) H (refit e2 X T (slice rank 0 k)) HW2 ltac:(now rewrite En) En Eo Ei Es) as (F1 & _); auto.
  { intros i Hi. rewrite slice_firstn in Hi by lia. destruct HRk as ((_ & HI) & _). apply HI. rewrite <- (firstn_skipn (Z.to_nat k) rank). apply in_or_app; auto. }
  unfold done. rewrite F1. eauto.
Qed.

(** automatic weights are at least 1 *)
Lemma auto_ge : forall ks, Forall (fun w => 1 <= w) (map (auto_weight ks) ks).
Proof.
  intros ks. apply Forall_forall. intros w Hw. apply in_map_iff in Hw as (k & <- & Hk). unfold auto_weight.
  pose proof (proj1 (count_occ_In Nat.eq_dec ks k) Hk) as Hc. pose proof (count_occ_bound Nat.eq_dec k ks) as Hb.
  apply (Rmult_le_reg_r (INR (count_occ Nat.eq_dec ks k))); [apply lt_0_INR; lia|]. unfold Rdiv. rewrite Rmult_assoc, Rinv_l by (apply not_0_INR; lia).
  rewrite Rmult_1_l, Rmult_1_r. now apply le_INR.
Qed.

Theorem train_loo_auto : forall e X T args kw e1 H ks, shuffles -> wf_net (e_net e) -> 0 < s_norm (e_net e) ->
  parse_args e args kw = (e1, Ok tt) -> smem "V" args = false -> smem "CV" args = false -> smem "LOO" args = true ->
  e_class e1 = Some "wc"%string -> e_wc e1 = None -> Forall2 (has_class (s_outputs (e_net e))) T ks ->
  simple_ranking e1 -> (0 < ranked_size e1 (nneurons (s_neurons (e_net e))))%nat ->
  (0 < e_batch e1)%Z -> X <> [] -> length X = length T -> wide (s_outputs (e_net e)) T ->
  elm_project e (Arr2 (s_inputs (e_net e)) X) = Ok H ->
  ((exists e', train e (Arr2 (s_inputs (e_net e)) X) (Arr2 (s_outputs (e_net e)) T) args kw = (e', Ok None)) <-> forall k, (k < s_outputs (e_net e))%nat -> In k ks).
Proof.
  intros e X T args kw e1 H ks shuf HW Hn HP HV HCV HLOO Hcl Hwc Hks HS HR Hb HX HL WT HPr.
  pose proof (parse_args_ok _ _ _ _ HP) as EN.
  assert (s_outputs (e_net e1) = s_outputs (e_net e)) as Eo by (rewrite EN; reflexivity).
  assert (is_wc e1 = true) as Hiw by (unfold is_wc; rewrite Hcl; reflexivity).
  assert (T <> []) as HNT by (intros ->; destruct X; [congruence|discriminate]).
  assert (0 < s_outputs (e_net e))%nat as Hc. { destruct Hks as [|? ? ? ? (_ & Q & _) _]; [congruence|lia]. }
  split.
  - intros (e' & E) k Hk. destruct (in_dec Nat.eq_dec k ks) as [|C]; [assumption|exfalso].
    destruct (train_loo_absent e X T args kw e1 H ks k HW Hn HP HV HCV HLOO Hcl Hwc Hks Hb HX HL WT HPr Hk C) as (e2 & x & E2). rewrite E in E2. discriminate.
  - intros Hall. destruct (auto_present _ _ _ Hks HNT Hall Hc) as (ws & E1 & E2 & _).
    apply (train_loo_heavy e X T args kw e1 H (map (auto_weight ks) ks) ws); auto.
    + constructor; try rewrite Eo; auto.
    + right. unfold fill_wc. rewrite Hiw, Hwc, Eo. cbn [e_class e_wc e_net with_wc]. split; [exact Hcl|]. split; [now rewrite E1|now rewrite Eo].
    + apply auto_ge.
Qed.

(** given weights of at least 1 *)
Theorem train_loo_given : forall e X T args kw e1 H ws ks, shuffles -> wf_net (e_net e) -> 0 < s_norm (e_net e) ->
  parse_args e args kw = (e1, Ok tt) -> smem "V" args = false -> smem "CV" args = false -> smem "LOO" args = true ->
  e_class e1 = Some "wc"%string -> e_wc e1 = Some (fin_all ws) -> length ws = s_outputs (e_net e) -> (forall w, In w ws -> 1 <= w) ->
  Forall2 (has_class (s_outputs (e_net e))) T ks ->
  simple_ranking e1 -> (0 < ranked_size e1 (nneurons (s_neurons (e_net e))))%nat ->
  (0 < e_batch e1)%Z -> X <> [] -> length X = length T -> wide (s_outputs (e_net e)) T ->
  elm_project e (Arr2 (s_inputs (e_net e)) X) = Ok H ->
  exists e', train e (Arr2 (s_inputs (e_net e)) X) (Arr2 (s_outputs (e_net e)) T) args kw = (e', Ok None).
Proof.
  intros e X T args kw e1 H ws ks shuf HW Hn HP HV HCV HLOO Hcl Hwc Hlw Hge Hks HS HR Hb HX HL WT HPr.
  pose proof (parse_args_ok _ _ _ _ HP) as EN.
  assert (s_outputs (e_net e1) = s_outputs (e_net e)) as Eo by (rewrite EN; reflexivity).
  assert (is_wc e1 = true) as Hiw by (unfold is_wc; rewrite Hcl; reflexivity).
  assert (T <> []) as HNT by (intros ->; destruct X; [congruence|discriminate]).
  assert (0 < s_outputs (e_net e))%nat as Hc. { destruct Hks as [|? ? ? ? (_ & Q & _) _]; [congruence|lia]. }
  apply (train_loo_heavy e X T args kw e1 H (map (fun k => nth k ws 0) ks) ws); auto.
  - apply W_given; try rewrite Eo; auto. intros w Hw. specialize (Hge w Hw). lra.
  - right. unfold fill_wc. rewrite Hiw, Hwc. split; [exact Hcl|]. split; [exact Hwc|now rewrite Eo].
  - apply Forall_forall. intros w Hw. apply in_map_iff in Hw as (k & <- & Hk). apply Hge, nth_In. rewrite Hlw.
    clear - Hks Hk. induction Hks as [|t k0 T0 ks0 (_ & Q & _) _ IH]; [contradiction|]. destruct Hk as [->|Hk]; auto.
Qed.

(** the selection in terms of the measure *)
Theorem train_loo_measured : forall e X T args kw e1 H ws wcs e' v, shuffles ->
  wf_net (e_net e) -> 0 < s_norm (e_net e) -> (0 < s_outputs (e_net e))%nat ->
  parse_args e args kw = (e1, Ok tt) -> smem "V" args = false -> smem "CV" args = false -> smem "LOO" args = true ->
  (0 < e_batch e1)%Z -> X <> [] -> length X = length T -> wide (s_outputs (e_net e)) T ->
  weighting e1 T ws -> loo_task (fill_wc e1 T) wcs -> Forall (fun w => 1 <= w) ws ->
  elm_project e (Arr2 (s_inputs (e_net e)) X) = Ok H ->
  train e (Arr2 (s_inputs (e_net e)) X) (Arr2 (s_outputs (e_net e)) T) args kw = (e', Ok v) ->
  v = None /\ exists rank L full k, let N := nneurons (s_neurons (e_net e)) in
    let value ix w := loo_measure (e_class e1) wcs (length ix) (s_outputs (e_net e)) (s_norm (e_net e)) (samples ws (map (keep ix) H) T) (map (keep ix) H) T w in
    ranked e1 N (length H) rank L /\ value (seq 0 N) full /\
    selects 1 L (fun i => value (firstn i rank)) full k /\ fitted e e' (firstn k rank) H T.
Proof.
  intros e X T args kw e1 H ws wcs e' v shuf HW Hn Ho HP HV HCV HLOO Hb HX HL WT Hws Htask Hge HPr E.
  pose proof (parse_args_ok _ _ _ _ HP) as EN.
  destruct (train_loo_selects e X T args kw e1 H ws e' v shuf HW Hn HP HV HCV HLOO Hb HX HL WT Hws HPr E) as (-> & rank & L & full & k & HR & Hf & Hs & Hfit & Htk).
  split; [reflexivity|]. exists rank, L, full, k. cbv zeta.
  assert (length H = length X) as HLH by (destruct (elm_project_inv _ _ _ HPr) as (_ & _ & ->); apply map_length).
  assert (length H = length T) as HTH by (rewrite HLH; exact HL).
  assert (length ws = length T) as HLw. { destruct (weighting_ok e1 T ws Hws ltac:(rewrite EN; exact WT)) as (g & _ & _ & _ & _ & Q & _). exact Q. }
  destruct (trained_data e args kw e1 X T H ws HW HP Hb HX HL WT Hws HPr) as (e2 & _ & _ & _ & _ & _ & _ & _ & _ & _ & Hg & _).
  assert (s_outputs (e_net e') = s_outputs (e_net e)) as Eo. { destruct Htk as (_ & _ & Q). rewrite Q, fill_wc_net, EN. reflexivity. }
  assert (e_class e' = e_class e1) as Ec. { destruct Htk as (Q & _). rewrite Q. unfold fill_wc. destruct (is_wc e1), (e_wc e1); reflexivity. }
  assert (forall ix, map (keep_sample ix) (samples ws H T) = samples ws (map (keep ix) H) T) as Ek.
  { clear. intros ix. revert H T. induction ws as [|w ws IH]; intros [|h H] [|t T]; cbn; auto. f_equal. apply IH. }
  assert (forall ix w, loo_value e' (s_norm (e_net e)) (samples ws H T) H T ix w ->
     loo_measure (e_class e1) wcs (length ix) (s_outputs (e_net e)) (s_norm (e_net e)) (samples ws (map (keep ix) H) T) (map (keep ix) H) T w) as G.
  { intros ix w Hw. rewrite <- Ek, <- Eo, <- Ec. apply loo_value_measure; auto.
    - eapply loo_task_same; eauto.
    - now rewrite Eo.
    - eauto.
    - now apply heavy_samples.
    - now rewrite Eo.
    - destruct H; [destruct X; [congruence|discriminate]|discriminate]. }
  split; [exact HR|]. split; [apply G, Hf|]. split; [|exact Hfit]. eapply selects_ext; [|exact Hs]. intros i w Hw. apply G, Hw.
Qed.
End Loo.
