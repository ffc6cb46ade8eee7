(** Weighted training: energy balance, regularisation, scaling of the weights; the fallback of the default
    solver on full matrices (reals). *)
From Coq Require Import Reals Lra Permutation.
From Verif Require Import Base Num Mat LinAlg Slfn Strs Elm Mrsr Search Mss Hpelm MatFacts SplitProofs Spec ElmFacts RLin
  AccProofs TrainProofs RidgeProofs WfProofs TrainThms IncrThms SolveThms RangeThms NeuronThms ErrThms SearchThms SelectThms RankThms SubThms FeatureThms RangeTrain RegMore RegMore2 Stability SelThms ArgThms Exact8 Spec.
Local Open Scope string_scope.
Local Open Scope list_scope.
Local Open Scope R_scope.
#[local] Existing Instance NumR.

(** ** the default solver on a full symmetric matrix (as read from files) *)
Definition positive (n : nat) (A : list (list R)) : Prop :=
  forall x : nat -> R, (exists i, (i < n)%nat /\ x i <> 0) ->
    0 < Rsum (map (fun i => Rsum (map (fun j => x i * entry (nth i A []) j * x j) (seq 0 n))) (seq 0 n)).
(** the entries below the diagonal doubled *)
Definition doubled (n : nat) (A : list (list R)) : list (list R) :=
  map (fun i => map (fun j => if (i <=? j)%nat then entry (nth i A []) j else 2 * entry (nth i A []) j) (seq 0 n)) (seq 0 n).

Lemma positive_PD : forall n A, (forall i j, (i < n)%nat -> (j < n)%nat -> entry (nth i A []) j = entry (nth j A []) i) ->
  (positive n A <-> PD n (U A)).
Proof.
  intros n A Hs. unfold positive, PD.
  assert (forall x, Rsum (map (fun i => Rsum (map (fun j => x i * entry (nth i A []) j * x j) (seq 0 n))) (seq 0 n)) = quad n (U A) x) as E.
  { intros x. rewrite Rsum_S. unfold quad. apply sum_ext. intros i Hi. rewrite Rsum_S. apply sum_ext. intros j Hj.
    assert (U A i j = entry (nth i A []) j) as ->; [|rring].
    unfold U. destruct (Nat.le_ge_cases i j) as [L|L].
    - rewrite Nat.min_l, Nat.max_r by exact L. reflexivity.
    - rewrite Nat.min_r, Nat.max_l by exact L. symmetry. apply Hs; assumption. }
  split; intros H x Hx; specialize (H x Hx); [rewrite <- E|rewrite E]; exact H.
Qed.

Theorem default_full_matrix : forall {SG : Sing} s n HH HT, s_kind s = Fast -> is_mat n n HH -> is_mat n (s_outputs s) HT ->
  (forall i j, (i < n)%nat -> (j < n)%nat -> entry (nth i HH []) j = entry (nth j HH []) i) ->
  (positive n HH -> solves n (s_outputs s) HH (solve_corr s n HH HT) HT) /\
  (~ positive n HH -> least_squares n (s_outputs s) (doubled n HH) (lstsq_sing (doubled n HH) HT) HT ->
     least_squares n (s_outputs s) (doubled n HH) (solve_corr s n HH HT) HT).
Proof.
  intros SG s n HH HT Hk H1 H2 Hs. rewrite (positive_PD n HH Hs). unfold solve_corr. rewrite Hk.
  assert (holds Gpu64 n HH HH) as Hh. { split; auto. intros. cbn [full_kind]. now rewrite orb_true_r. }
  assert (forall i j, (i < n)%nat -> (j < n)%nat -> mR HH i j = mR HH j i) as Hs' by exact Hs.
  split.
  - intros HP. destruct (proj2 (posv_PD n (s_outputs s) HH HT) HP) as [X E]. rewrite E. destruct (posv_sound _ _ _ _ _ E) as [HX HS].
    apply solves_msolves. intros i k Hi Hk'. rewrite <- (HS i k Hi Hk'). apply sum_ext. intros j Hj. now rewrite (U_holds _ _ _ _ Hh Hs') by auto.
  - intros HP Ho. destruct (posv n (s_outputs s) HH HT) as [X|] eqn:E.
    { exfalso. apply HP. apply (proj1 (posv_PD n (s_outputs s) HH HT)). eauto. }
    assert (add_triu1_T n HH = doubled n HH) as EM.
    { unfold add_triu1_T, doubled, mk. apply map_ext_in. intros i Hi. apply map_ext_in. intros j Hj. apply in_seq in Hi. apply in_seq in Hj.
      change (mget HH i j) with (entry (nth i HH []) j). change (mget HH j i) with (entry (nth j HH []) i). rewrite (Hs j i) by lia.
      destruct (Nat.leb_spec i j); destruct (Nat.ltb_spec j i); try lia; rlra. }
    rewrite EM. apply lstsq_ls; [|exact H2|exact Ho]. rewrite <- EM. apply is_mat_mk.
Qed.

(** the 'basic' solver: pinv of the full matrix *)
Theorem basic_full_matrix : forall {SG : Sing} s n HH HT, s_kind s = Basic -> is_mat n n HH -> is_mat n (s_outputs s) HT ->
  least_squares n (s_outputs s) HH (mmul (s_outputs s) (pinv_sing HH) HT) HT ->
  least_squares n (s_outputs s) HH (solve_corr s n HH HT) HT.
Proof.
  intros SG s n HH HT Hk H1 H2 Ho. unfold solve_corr. rewrite Hk. unfold pinv.
  destruct (posv n n (tdot n n HH HH) (transp n HH)) as [X|] eqn:E; [|exact Ho].
  destruct (posv_sound _ _ _ _ _ E) as [HX HS]. set (c := s_outputs s) in *. apply normal_ls. intros i k Hi Hk'.
  assert (forall j, (j < n)%nat -> mR (mmul c X HT) j k = S_ n (fun q => mR X j q * mR HT q k)) as EM.
  { intros j Hj. rewrite mget_mmul by (auto; destruct HX; lia). rewrite (dotv_sum _ _ n).
    - apply sum_ext; intros r Hr. rewrite vget_mcol; [reflexivity|destruct H2; lia].
    - eapply is_mat_row; eauto.
    - rewrite mcol_length. apply H2. }
  assert (forall q, (q < n)%nat -> S_ n (fun j => S_ n (fun p => mR HH p i * mR HH p j) * mR X j q) = mR HH q i) as EG.
  { intros q Hq. specialize (HS i q Hi Hq). rewrite mget_transp in HS by auto. rewrite <- HS. apply sum_ext. intros j Hj.
    rewrite U_tdot by (auto; apply H1). reflexivity. }
  transitivity (S_ n (fun p => mR HH p i * S_ n (fun j => mR HH p j * mR (mmul c X HT) j k)) - S_ n (fun p => mR HH p i * mR HT p k)).
  { rewrite <- sum_sub. apply sum_ext; intros; rring. }
  assert (S_ n (fun p => mR HH p i * S_ n (fun j => mR HH p j * mR (mmul c X HT) j k)) = S_ n (fun p => mR HH p i * mR HT p k)) as ->; [|rring].
  transitivity (S_ n (fun j => S_ n (fun p => mR HH p i * mR HH p j) * mR (mmul c X HT) j k)).
  { transitivity (S_ n (fun p => S_ n (fun j => mR HH p i * mR HH p j * mR (mmul c X HT) j k))).
    - apply sum_ext; intros. rewrite <- sum_scal. apply sum_ext; intros; rring.
    - rewrite sum_swap. apply sum_ext; intros. now rewrite sum_scal_r. }
  transitivity (S_ n (fun j => S_ n (fun q => S_ n (fun p => mR HH p i * mR HH p j) * mR X j q * mR HT q k))).
  { apply sum_ext; intros j Hj. rewrite EM by exact Hj. rewrite <- sum_scal. apply sum_ext; intros; rring. }
  rewrite sum_swap. apply sum_ext. intros q Hq. rewrite sum_scal_r, EG by exact Hq. reflexivity.
Qed.

(** ** weighted sums of squares *)
Definition wtotal (ws : list R) (T Y : list (list R)) : R := Rsum (map2 Rmult ws (map2 sqd T Y)).
Definition wsize (ws : list R) (M : list (list R)) : R := Rsum (map2 Rmult ws (map (fun r => Rsum (map (fun a => a ^ 2) r)) M)).

Definition root_rows (ws : list R) (M : list (list R)) : list (list R) := map2 (fun w r => map (fun a => sqrt w * a) r) ws M.

Lemma entry_root : forall s r i, entry (map (fun a => s * a) r) i = s * entry r i.
Proof. intros s r. unfold entry. induction r as [|a r IH]; intros [|i]; cbn [map nth]; try ring. apply IH. Qed.

(** weighted samples are plain samples scaled by the square roots *)
Lemma samples_root : forall (f g : sample -> R) ws H T,
  (forall w h t, 0 <= w -> f (w, h, t) = g (1, map (fun a => sqrt w * a) h, map (fun a => sqrt w * a) t)) ->
  (forall w, In w ws -> 0 <= w) ->
  Rsum (map f (samples ws H T)) = Rsum (map g (plain (root_rows ws H) (root_rows ws T))).
Proof.
  intros f g ws H T Hf. revert H T. induction ws as [|w ws IH]; intros [|h H] [|t T] Hw; try reflexivity.
  cbn [samples root_rows plain map2 map]. unfold plain in *. cbn [Rsum fold_right map]. apply f_equal2; [apply Hf, Hw; left; reflexivity|].
  apply (IH H T). intros w' Hin. apply Hw. right. exact Hin.
Qed.

Lemma predict1_root : forall B s h k, predict1 B (map (fun a => s * a) h) k = s * predict1 B h k.
Proof.
  intros B s h k. unfold predict1. rewrite map_length, !Rsum_S. rewrite <- sum_scal. apply sum_ext. intros i _. rewrite entry_root. rring.
Qed.

Lemma ridge_root : forall L c norm ws H T B, (forall w, In w ws -> 0 <= w) -> ridge_solution L c norm (samples ws H T) B ->
  ridge_solution L c norm (plain (root_rows ws H) (root_rows ws T)) B.
Proof.
  intros L c norm ws H T B Hw.
  assert (spec_HH L norm (samples ws H T) = spec_HH L norm (plain (root_rows ws H) (root_rows ws T))) as E1.
  { unfold spec_HH. apply map_ext. intros i. apply map_ext. intros j. apply f_equal. apply samples_root; [|exact Hw].
    intros w h t H0. unfold sm_w, sm_h. cbn [fst snd]. rewrite !entry_root. pose proof (sqrt_sqrt w H0) as E. rewrite <- E at 1. ring. }
  assert (spec_HT L c (samples ws H T) = spec_HT L c (plain (root_rows ws H) (root_rows ws T))) as E2.
  { unfold spec_HT. apply map_ext. intros i. apply map_ext. intros j. apply samples_root; [|exact Hw].
    intros w h t H0. unfold sm_w, sm_h, sm_t. cbn [fst snd]. rewrite !entry_root. pose proof (sqrt_sqrt w H0) as E. rewrite <- E at 1. ring. }
  assert (forall B, ridge_loss L c norm (samples ws H T) B = ridge_loss L c norm (plain (root_rows ws H) (root_rows ws T)) B) as E3.
  { intros B'. unfold ridge_loss. apply (f_equal (fun a => a + _)). apply samples_root; [|exact Hw].
    intros w h t H0. apply f_equal. apply map_ext. intros k. unfold sm_w, sm_h, sm_t. cbn [fst snd]. rewrite entry_root, predict1_root.
    pose proof (sqrt_sqrt w H0) as E. rewrite <- E at 1. ring. }
  unfold ridge_solution. rewrite E1, E2. intros (A & B0 & C & D). split; [exact A|]. split; [exact B0|]. split; [exact C|].
  intros B'. rewrite <- !E3. apply D.
Qed.

Lemma sqd_root : forall s t y, sqd (map (fun a => s * a) t) (map (fun a => s * a) y) = s * s * sqd t y.
Proof.
  intros s t. unfold sqd. induction t as [|a t IH]; intros [|b y]; cbn [map map2 Rsum fold_right]; try ring.
  change (fold_right Rplus 0) with Rsum. rewrite IH. ring.
Qed.
Lemma sumsq_root : forall s r, Rsum (map (fun a => a ^ 2) (map (fun a => s * a) r)) = s * s * Rsum (map (fun a => a ^ 2) r).
Proof.
  intros s r. induction r as [|a r IH]; cbn [map Rsum fold_right]; try ring. change (fold_right Rplus 0) with Rsum. rewrite IH. ring.
Qed.
Lemma total_root : forall ws T Y, (forall w, In w ws -> 0 <= w) -> total_sq (root_rows ws T) (root_rows ws Y) = wtotal ws T Y.
Proof.
  unfold total_sq, wtotal, root_rows. induction ws as [|w ws IH]; intros [|t T] [|y Y] Hw; try reflexivity.
  cbn [map2 Rsum fold_right]. change (fold_right Rplus 0) with Rsum. rewrite sqd_root, (sqrt_sqrt w) by (apply Hw; left; reflexivity).
  apply f_equal. apply IH. intros w' Hin. apply Hw. right. exact Hin.
Qed.
Lemma size_root : forall ws M, (forall w, In w ws -> 0 <= w) -> size_sq (root_rows ws M) = wsize ws M.
Proof.
  unfold size_sq, wsize, root_rows. induction ws as [|w ws IH]; intros [|t T] Hw; try reflexivity.
  cbn [map2 map Rsum fold_right]. change (fold_right Rplus 0) with Rsum. rewrite sumsq_root, (sqrt_sqrt w) by (apply Hw; left; reflexivity).
  apply f_equal. apply IH. intros w' Hin. apply Hw. right. exact Hin.
Qed.
Lemma outputs_root : forall c B ws H, outputs_of c B (root_rows ws H) = root_rows ws (outputs_of c B H).
Proof.
  intros c B ws H. unfold outputs_of, root_rows. revert H. induction ws as [|w ws IH]; intros [|h H]; try reflexivity.
  cbn [map2 map]. f_equal; [|apply IH]. rewrite map_map. apply map_ext. intros k. apply predict1_root.
Qed.
Lemma root_length : forall ws M, length ws = length M -> length (root_rows ws M) = length M.
Proof. intros. unfold root_rows. rewrite map2_length. lia. Qed.
Lemma root_forall : forall n ws M, Forall (fun r => length r = n) M -> Forall (fun r => length r = n) (root_rows ws M).
Proof.
  intros n ws M HF. apply Forall_forall. intros r Hr. unfold root_rows in Hr. rewrite map2_combine in Hr. apply in_map_iff in Hr as ((w & x) & <- & Hr).
  apply in_combine_r in Hr. rewrite map_length. rewrite Forall_forall in HF. apply HF, Hr.
Qed.

(** ** a training call without structure selection, with the weights ws of the samples *)
Record call_trained {SG : Sing} {BR : Brent} {SH : Shuffle} (e : elm) (X T : list (list R)) (ws : list R) (e' : elm) : Prop := mkCall {
  ct_wf : wf_net (e_net e);
  ct_norm : 0 < s_norm (e_net e);
  ct_data : X <> [] /\ length X = length T;
  ct_proj : exists H, elm_project e (Arr2 (s_inputs (e_net e)) X) = Ok H;
  ct_call : exists args kw, valid_args e args kw /\ ~ In "V" args /\ ~ In "CV" args /\ ~ In "LOO" args /\
    (0 < match kw_batch kw with Some b => b | None => e_batch e end)%Z /\
    call_weights (s_outputs (e_net e)) args kw T ws /\
    train e (Arr2 (s_inputs (e_net e)) X) (Arr2 (s_outputs (e_net e)) T) args kw = (e', Ok None) }.

Lemma F2_len0 : forall A B (P : A -> B -> Prop) l m, Forall2 P l m -> length l = length m.
Proof. induction 1; cbn; congruence. Qed.
Lemma call_length : forall c args kw T ws, call_weights c args kw T ws -> length ws = length T.
Proof.
  intros c args kw T ws [_ _|ws' ks _ _ _ _ HF|ks _ _ _ HF]; [apply repeat_length| |]; rewrite map_length; symmetry; eapply F2_len0; eauto.
Qed.
Lemma call_nonneg : forall c args kw T ws, call_weights c args kw T ws -> forall w, In w ws -> 0 <= w.
Proof.
  intros c args kw T ws [_ _|ws' ks _ _ _ HP HF|ks _ _ _ HF] w Hin.
  - apply repeat_spec in Hin. lra.
  - apply in_map_iff in Hin as (k & <- & _). destruct (nth_in_or_default k ws' 0) as [H| ->]; [apply HP, H|lra].
  - apply in_map_iff in Hin as (k & <- & Hin). unfold auto_weight, Rdiv. apply Rmult_le_pos; [apply pos_INR|]. apply Rlt_le, Rinv_0_lt_compat.
    apply lt_0_INR. apply count_occ_In. exact Hin.
Qed.

(** the elements marked true *)
Definition select {A} (bs : list bool) (l : list A) : list A := map snd (filter fst (combine bs l)).

Section Train.
Context {SG : Sing} {BR : Brent} {SH : Shuffle}.

Lemma call_inv : forall e X T ws e', call_trained e X T ws e' -> exists B,
  s_B (e_net e') = Some B /\ length ws = length T /\ (forall w, In w ws -> 0 <= w) /\ wide (s_outputs (e_net e)) T /\
  Forall (fun h => length h = nneurons (s_neurons (e_net e))) (map (hidden e) X) /\
  ridge_solution (nneurons (s_neurons (e_net e))) (s_outputs (e_net e)) (s_norm (e_net e)) (samples ws (map (hidden e) X) T) B /\
  elm_predict e' (Arr2 (s_inputs (e_net e)) X) = Ok (outputs_of (s_outputs (e_net e)) B (map (hidden e) X)).
Proof.
  intros e X T ws e' [HW Hn (HX & HL) (H & HPr) (args & kw & HV & NV & NC & NL & Hb & HC & E)].
  pose proof (proj1 (parse_result e args kw) HV) as HP. pose proof (call_weighting _ _ _ _ _ _ HC HP) as Hws.
  pose proof (call_wide _ _ _ _ _ HC) as WT.
  assert (forall k, ~ In k args -> smem k args = false) as Q. { intros k Hk. destruct (smem k args) eqn:E0; [|reflexivity]. apply smem_in in E0. contradiction. }
  destruct (elm_project_inv _ _ _ HPr) as (HU & WX & ->).
  destruct (weighting_ok _ T ws Hws WT) as (g & Eg & G & _).
  destruct (train_full e X T args kw (parsed e args kw) g) as (B & hh & ht & E' & RS); auto.
  rewrite E' in E. injection E as <-. rewrite <- Eg in RS. exists B.
  split; [reflexivity|]. split; [exact (call_length _ _ _ _ _ HC)|]. split; [exact (call_nonneg _ _ _ _ _ HC)|]. split; [exact WT|].
  split. { apply Forall_forall. intros h Hh. apply in_map_iff in Hh as (x & <- & _). exact (hrow_length _ _ x (wf_groups _ HW)). }
  split; [exact RS|].
  match goal with |- elm_predict ?m _ = _ => apply (predict_outputs m B X) end; [exact (wf_groups _ HW)|exact HU|reflexivity|apply RS|exact WX].
Qed.

(** the targets split into residual, prediction and weights *)
Theorem weighted_energy : forall e X T ws e' B Y, call_trained e X T ws e' -> s_B (e_net e') = Some B ->
  elm_predict e' (Arr2 (s_inputs (e_net e)) X) = Ok Y ->
  wsize ws T = wtotal ws T Y + wsize ws Y + 2 * s_norm (e_net e) * size_sq B.
Proof.
  intros e X T ws e' B Y HT EB EY. destruct (call_inv _ _ _ _ _ HT) as (B' & EB' & Lw & Pw & WT & HF & RS & P).
  rewrite EB' in EB. injection EB as ->. rewrite P in EY. injection EY as <-. destruct (ct_data _ _ _ _ _ HT) as (_ & HL).
  set (H := map (hidden e) X) in *. assert (length H = length T) as LH by (subst H; rewrite map_length; exact HL).
  rewrite <- (size_root ws T Pw), <- (size_root ws _ Pw), <- (total_root ws _ _ Pw), <- outputs_root.
  eapply ridge_energy; [exact (ct_norm _ _ _ _ _ HT)|apply root_forall; exact HF| |apply root_forall; exact WT|apply ridge_root; [exact Pw|exact RS]].
  rewrite !root_length by congruence. symmetry. exact LH.
Qed.

(** a larger norm *)
Theorem weighted_norm : forall e1 e2 X T ws e1' e2' B1 B2 Y1 Y2, call_trained e1 X T ws e1' -> call_trained e2 X T ws e2' ->
  s_neurons (e_net e2) = s_neurons (e_net e1) -> s_inputs (e_net e2) = s_inputs (e_net e1) -> s_outputs (e_net e2) = s_outputs (e_net e1) ->
  s_norm (e_net e1) <= s_norm (e_net e2) ->
  s_B (e_net e1') = Some B1 -> s_B (e_net e2') = Some B2 ->
  elm_predict e1' (Arr2 (s_inputs (e_net e1)) X) = Ok Y1 -> elm_predict e2' (Arr2 (s_inputs (e_net e1)) X) = Ok Y2 ->
  size_sq B2 <= size_sq B1 /\ wtotal ws T Y1 <= wtotal ws T Y2.
Proof.
  intros e1 e2 X T ws e1' e2' B1 B2 Y1 Y2 H1 H2 EN EI EO Hle EB1 EB2 EY1 EY2.
  destruct (call_inv _ _ _ _ _ H1) as (B1' & EB1' & Lw & Pw & WT & HF & R1 & P1). destruct (call_inv _ _ _ _ _ H2) as (B2' & EB2' & _ & _ & _ & _ & R2 & P2).
  rewrite EB1' in EB1. injection EB1 as ->. rewrite EB2' in EB2. injection EB2 as ->.
  rewrite EI in P2. rewrite P1 in EY1. rewrite P2 in EY2. injection EY1 as <-. injection EY2 as <-.
  assert (hidden e2 = hidden e1) as EH by (unfold hidden; now rewrite EN). rewrite EH, EO in *. rewrite EN in R2.
  apply ridge_root in R1; [|exact Pw]. apply ridge_root in R2; [|exact Pw].
  set (L := nneurons _) in *. set (c := s_outputs (e_net e1)) in *. set (H := map (hidden e1) X) in *.
  rewrite <- !(total_root ws _ _ Pw), <- !outputs_root.
  set (n1 := s_norm (e_net e1)) in *. set (n2 := s_norm (e_net e2)) in *.
  pose proof (ct_norm _ _ _ _ _ H1) as Hn1. fold n1 in Hn1.
  assert (Forall (fun t => length t = c) (root_rows ws T)) as HT by (apply root_forall; exact WT).
  destruct R1 as (S1 & Q1 & U1 & O1), R2 as (S2 & Q2 & U2 & O2).
  destruct (Rle_lt_or_eq_dec _ _ Hle) as [Hlt|Heq].
  - specialize (O1 B2). specialize (O2 B1). rewrite !loss_predict in O1, O2 by auto.
    set (a := total_sq _ (outputs_of c B1 _)) in *. set (b := total_sq _ (outputs_of c B2 _)) in *.
    set (p := size_sq B1) in *. set (q := size_sq B2) in *.
    assert ((n2 - n1) * (q - p) <= 0) as Hm by lra.
    assert (q <= p) as Hq.
    { destruct (Rle_lt_dec q p) as [|C]; auto. assert (0 < (n2 - n1) * (q - p)) by (apply Rmult_lt_0_compat; lra). lra. }
    split; [exact Hq|]. assert (n1 * q <= n1 * p) by (apply Rmult_le_compat_l; lra). lra.
  - rewrite <- Heq in *. assert (B1 = B2) as -> by (apply U2; auto). split; apply Rle_refl.
Qed.

Lemma samples_map : forall (f g : sample -> R) (a : R) ws H T, (forall w h t, f (a * w, h, t) = a * g (w, h, t)) ->
  Rsum (map f (samples (map (Rmult a) ws) H T)) = a * Rsum (map g (samples ws H T)).
Proof.
  intros f g a ws H T Hf. revert H T. induction ws as [|w ws IH]; intros [|h H] [|t T]; cbn [samples map Rsum fold_right]; try ring.
  change (fold_right Rplus 0) with Rsum. rewrite IH, Hf. ring.
Qed.

(** all weights and the norm multiplied by the same number *)
Theorem weights_scaled : forall e1 e2 X T ws a e1' e2', 0 < a -> call_trained e1 X T ws e1' -> call_trained e2 X T (map (Rmult a) ws) e2' ->
  s_neurons (e_net e2) = s_neurons (e_net e1) -> s_inputs (e_net e2) = s_inputs (e_net e1) -> s_outputs (e_net e2) = s_outputs (e_net e1) ->
  s_norm (e_net e2) = a * s_norm (e_net e1) ->
  s_B (e_net e2') = s_B (e_net e1').
Proof.
  intros e1 e2 X T ws a e1' e2' Ha H1 H2 EN EI EO En.
  destruct (call_inv _ _ _ _ _ H1) as (B1 & EB1 & _ & _ & _ & _ & R1 & _). destruct (call_inv _ _ _ _ _ H2) as (B2 & EB2 & _ & _ & _ & _ & R2 & _).
  rewrite EB1, EB2. apply f_equal. symmetry. destruct R2 as (_ & _ & U2 & _). destruct R1 as (S1 & Q1 & _).
  assert (hidden e2 = hidden e1) as EH by (unfold hidden; now rewrite EN). rewrite EH, EN, EO, En in U2. apply U2; [exact S1|].
  set (H := map (hidden e1) X) in *. apply solves_msolves. apply (proj1 (solves_msolves _ _ _ _ _)) in Q1.
  intros i q Hi Hq. specialize (Q1 i q Hi Hq). rewrite spec_HT_mk, mget_mk in * by auto.
  rewrite <- !Rsum_N in *.
  assert (forall f : sample -> R, (forall w h t, f (a * w, h, t) = a * f (w, h, t)) ->
    Rsum (map f (samples (map (Rmult a) ws) H T)) = a * Rsum (map f (samples ws H T))) as EA by (intros f Hf; now apply samples_map).
  rewrite EA by (intros; unfold sm_w, sm_h, sm_t; cbn [fst snd]; rring). rewrite <- Q1, <- sum_scal. apply sum_ext. intros j Hj.
  rewrite !spec_HH_mk, !mget_mk by auto. rewrite <- !Rsum_N. rewrite EA by (intros; unfold sm_w, sm_h, sm_t; cbn [fst snd]; rring).
  match goal with |- (_ + a * ?P) * ?b = a * ((_ + ?Q) * ?b) => change Q with P; generalize P, b end. intros P b. destruct (i =? j)%nat; rring.
Qed.

(** samples of weight zero *)
Lemma samples_select : forall (f : sample -> R) bs ws H T, length bs = length ws -> length H = length ws -> length T = length ws ->
  (forall i, nth i bs true = false -> nth i ws 0 = 0) -> (forall h t, f (0, h, t) = 0) ->
  Rsum (map f (samples (select bs ws) (select bs H) (select bs T))) = Rsum (map f (samples ws H T)).
Proof.
  intros f bs ws H T Lb Lh Lt HZ Hf. revert bs H T Lb Lh Lt HZ. induction ws as [|w ws IH]; intros [|b bs] [|h H] [|t T] Lb Lh Lt HZ; try discriminate; [reflexivity|].
  assert (Rsum (map f (samples (select bs ws) (select bs H) (select bs T))) = Rsum (map f (samples ws H T))) as E.
  { apply IH; try (cbn in *; congruence). intros i Hi. exact (HZ (S i) Hi). }
  unfold select in *. cbn [combine filter fst samples map Rsum fold_right]. destruct b; cbn [map snd samples Rsum fold_right]; change (fold_right Rplus 0) with Rsum.
  - rewrite E. reflexivity.
  - pose proof (HZ 0%nat eq_refl) as Z0. cbn [nth] in Z0. rewrite Z0, E, Hf. ring.
Qed.
Lemma select_map : forall {A B} (f : A -> B) bs l, map f (select bs l) = select bs (map f l).
Proof.
  intros A B f bs. unfold select. induction bs as [|b bs IH]; intros [|x l]; try reflexivity. cbn [combine filter fst map]. destruct b; cbn [map snd]; [f_equal|]; apply IH.
Qed.

Theorem zero_weights : forall e X T ws bs e1 e2, length bs = length ws -> (forall i, nth i bs true = false -> nth i ws 0 = 0) ->
  call_trained e X T ws e1 -> call_trained e (select bs X) (select bs T) (select bs ws) e2 ->
  s_B (e_net e2) = s_B (e_net e1).
Proof.
  intros e X T ws bs e1 e2 Lb HZ H1 H2.
  destruct (call_inv _ _ _ _ _ H1) as (B1 & EB1 & Lw & _ & _ & _ & R1 & _). destruct (call_inv _ _ _ _ _ H2) as (B2 & EB2 & _ & _ & _ & _ & R2 & _).
  destruct (ct_data _ _ _ _ _ H1) as (_ & HL).
  rewrite EB1, EB2. apply f_equal. symmetry. destruct R2 as (_ & _ & U2 & _). destruct R1 as (S1 & Q1 & _). apply U2; [exact S1|].
  rewrite select_map. set (H := map (hidden e) X) in *. assert (length H = length ws) as LH by (subst H; rewrite map_length; congruence).
  assert (forall f : sample -> R, (forall h t, f (0, h, t) = 0) ->
    Rsum (map f (samples (select bs ws) (select bs H) (select bs T))) = Rsum (map f (samples ws H T))) as EA
    by (intros f Hf; apply samples_select; auto).
  assert (forall L norm, spec_HH L norm (samples (select bs ws) (select bs H) (select bs T)) = spec_HH L norm (samples ws H T)) as E1.
  { intros L norm. unfold spec_HH. apply map_ext. intros i. apply map_ext. intros j. apply f_equal. apply EA. intros; unfold sm_w; cbn [fst snd]; ring. }
  assert (forall L c, spec_HT L c (samples (select bs ws) (select bs H) (select bs T)) = spec_HT L c (samples ws H T)) as E2.
  { intros L c. unfold spec_HT. apply map_ext. intros i. apply map_ext. intros j. apply EA. intros; unfold sm_w; cbn [fst snd]; ring. }
  rewrite E1, E2. exact Q1.
Qed.
End Train.
