(** Consequences of exact ridge training, stated between whole training runs
    (used by C57-C64; reals). *)
From Coq Require Import Reals Lra Permutation.
From Verif Require Import Base Num Mat LinAlg Slfn Strs Elm Mrsr Search Mss MatFacts SplitProofs Spec ElmFacts RLin
  AccProofs TrainProofs RidgeProofs WfProofs TrainThms IncrThms SolveThms NeuronThms ErrThms SearchThms SelectThms RankThms SubThms FeatureThms Spec.
Local Open Scope R_scope.
#[local] Existing Instance NumR.

(** e' is the model after a successful training run of e on X, T without
    structure selection and without class weights *)
Record trained {SG : Sing} {BR : Brent} {SH : Shuffle} (e : elm) (X T : list (list R)) (e' : elm) : Prop := mkTrained {
  tr_wf : wf_net (e_net e);
  tr_norm : 0 < s_norm (e_net e);
  tr_data : X <> [] /\ length X = length T /\ Forall (fun t => length t = s_outputs (e_net e)) T;
  tr_proj : exists H, elm_project e (Arr2 (s_inputs (e_net e)) X) = Ok H;
  tr_call : exists args kw e1, smem "V" args = false /\ smem "CV" args = false /\ smem "LOO" args = false /\
    parse_args e args kw = (e1, Ok tt) /\ is_wc e1 = false /\ (0 < e_batch e1)%Z /\
    train e (Arr2 (s_inputs (e_net e)) X) (Arr2 (s_outputs (e_net e)) T) args kw = (e', Ok None) }.

Section Train.
Context {SG : Sing} {BR : Brent} {SH : Shuffle}.

(** what a training run leaves: the output weights are the ridge solution, nothing else changes *)
Lemma train_full : forall e X T args kw e1 g,
  wf_net (e_net e) -> usable (e_net e) -> 0 < s_norm (e_net e) ->
  parse_args e args kw = (e1, Ok tt) ->
  smem "V" args = false -> smem "CV" args = false -> smem "LOO" args = false ->
  (0 < e_batch e1)%Z -> X <> [] -> length X = length T ->
  wide (s_inputs (e_net e)) X -> wide (s_outputs (e_net e)) T -> weights_ok e1 g T ->
  exists B hh ht, train e (Arr2 (s_inputs (e_net e)) X) (Arr2 (s_outputs (e_net e)) T) args kw =
      (with_net (fill_wc e1 T) (with_B (with_corr (reset (e_net e)) hh ht) (Some B)), Ok None) /\
    ridge_solution (nneurons (s_neurons (e_net e))) (s_outputs (e_net e)) (s_norm (e_net e))
                   (samples (map g T) (map (hrow (s_neurons (e_net e))) X) T) B.
Proof.
  intros e X T args kw e1 g HW HU Hn HP HV HCV HLOO Hb HX HL WX WT Hg.
  pose proof (parse_args_ok _ _ _ _ HP) as EN.
  unfold train, checkdata, check_arr. rewrite !Nat.eqb_refl. cbn [rbind]. cbn [num NumR] in *. rewrite HL, Nat.eqb_refl.
  rewrite HP, HV, HCV, HLOO. unfold train_basic.
  assert (Acc (e_net e1) []) as HA. { rewrite EN. reflexivity. }
  assert (usable (e_net e1)) as HU1 by (rewrite EN; exact HU).
  destruct (add_data_acc e1 g X T [] HA HU1 Hb HX HL) as (s' & E & A & Es & N); auto; try (rewrite EN; assumption).
  rewrite E. cbn [app] in A. rewrite EN in A, Es. cbn [s_neurons reset] in A.
  destruct (solve_acc s' _ A N) as (B & EB & RS).
  { rewrite Es. exact Hn. }
  { apply good_samples.
    - intros w Hin. apply in_map_iff in Hin. destruct Hin as (t & <- & Hin). apply Hg; auto.
    - intros h Hin. apply in_map_iff in Hin. destruct Hin as (x & <- & Hin).
      rewrite Es. exact (hrow_length (s_inputs (e_net e)) (s_neurons (e_net e)) x (wf_groups _ HW)). }
  cbn [e_net with_net]. rewrite EB. unfold done. cbn [fst snd].
  exists B, (s_HH s'), (s_HT s'). split.
  - cbn [num NumR] in *. rewrite <- Es. reflexivity.
  - rewrite Es in RS. exact RS.
Qed.

Definition hidden (e : elm) (x : list R) : list R := hrow (s_neurons (e_net e)) x.

Lemma trained_inv : forall e X T e', trained e X T e' -> exists B,
  s_B (e_net e') = Some B /\ usable (e_net e') /\ s_neurons (e_net e') = s_neurons (e_net e) /\
  s_inputs (e_net e') = s_inputs (e_net e) /\ s_outputs (e_net e') = s_outputs (e_net e) /\ s_norm (e_net e') = s_norm (e_net e) /\
  wide (s_inputs (e_net e)) X /\ good (nneurons (s_neurons (e_net e))) (plain (map (hidden e) X) T) /\
  ridge_solution (nneurons (s_neurons (e_net e))) (s_outputs (e_net e)) (s_norm (e_net e)) (plain (map (hidden e) X) T) B.
Proof.
  intros e X T e' [HW Hn (HX & HL & HT) (H & HPr) (args & kw & e1 & HV & HCV & HLOO & HP & Hw & Hb & E)].
  destruct (elm_project_inv _ _ _ HPr) as (HU & WX & ->).
  destruct (train_full e X T args kw e1 (fun _ => 1)) as (B & hh & ht & E' & RS); auto; [now apply weights_plain|].
  rewrite E' in E. injection E as <-. exists B. cbn [e_net with_net with_B with_corr reset s_B s_neurons s_inputs s_outputs s_norm].
  rewrite samples_plain in RS by (rewrite map_length; auto).
  assert (good (nneurons (s_neurons (e_net e))) (plain (map (hidden e) X) T)) as HG.
  { rewrite <- samples_plain by (rewrite map_length; auto). apply good_samples.
    - intros w Hin. apply in_map_iff in Hin as (? & <- & _). apply Rle_0_1.
    - intros h Hin. apply in_map_iff in Hin as (x & <- & _). exact (hrow_length _ _ x (wf_groups _ HW)). }
  split; [reflexivity|]. split; [exact HU|]. do 4 (split; [reflexivity|]). split; [exact WX|]. split; [exact HG|exact RS].
Qed.

(** the predictions of a model with the output weights B *)
Lemma predict_outputs : forall e B X, Forall (wf_neuron (s_inputs (e_net e))) (s_neurons (e_net e)) -> usable (e_net e) ->
  s_B (e_net e) = Some B -> length B = nneurons (s_neurons (e_net e)) -> wide (s_inputs (e_net e)) X ->
  elm_predict e (Arr2 (s_inputs (e_net e)) X) = Ok (outputs_of (s_outputs (e_net e)) B (map (hidden e) X)).
Proof.
  intros e B X HW HU HB HL HX. unfold elm_predict, check_arr. rewrite Nat.eqb_refl. cbn [rbind]. unfold predict. rewrite HB.
  rewrite project_ok by auto. cbn [rbind]. apply f_equal. apply (mmul_outputs (nneurons (s_neurons (e_net e)))); auto.
  apply Forall_forall. intros h Hh. apply in_map_iff in Hh as (x & <- & _). exact (hrow_length _ _ x HW).
Qed.

Lemma trained_predict : forall e X T e', trained e X T e' -> exists B,
  s_B (e_net e') = Some B /\
  ridge_solution (nneurons (s_neurons (e_net e))) (s_outputs (e_net e)) (s_norm (e_net e)) (plain (map (hidden e) X) T) B /\
  forall X', wide (s_inputs (e_net e)) X' ->
    elm_predict e' (Arr2 (s_inputs (e_net e)) X') = Ok (outputs_of (s_outputs (e_net e)) B (map (hidden e) X')).
Proof.
  intros e X T e' HT. destruct (trained_inv _ _ _ _ HT) as (B & EB & HU & EN & EI & EO & En & WX & HG & RS).
  exists B. split; [exact EB|]. split; [exact RS|]. intros X' WX'. rewrite <- EI, <- EO.
  assert (map (hidden e) X' = map (hidden e') X') as -> by (unfold hidden; now rewrite EN).
  apply predict_outputs; auto.
  - rewrite EN, EI. apply (wf_groups _ (tr_wf _ _ _ _ HT)).
  - rewrite EN. apply RS.
  - rewrite EI. exact WX'.
Qed.

Lemma predict_wide : forall e n X Y, elm_predict e (Arr2 n X) = Ok Y -> n = s_inputs (e_net e) /\ wide n X.
Proof.
  intros e n X Y E. unfold elm_predict, check_arr in E. destruct (Nat.eqb_spec n (s_inputs (e_net e))); [|discriminate].
  subst n. split; [reflexivity|]. cbn [rbind] in E. unfold predict in E. destruct (s_B (e_net e)); [|discriminate].
  destruct (project (e_net e) X) eqn:EP; [|discriminate]. apply project_inv in EP. apply EP.
Qed.

(** ** predictions depend on each target column separately *)
Lemma plain_pick : forall ks H T, plain H (map (keep ks) T) = map (fun s => (sm_w s, sm_h s, keep ks (sm_t s))) (plain H T).
Proof.
  intros ks. unfold plain. induction H as [|h H IH]; intros [|t T]; cbn; auto. f_equal. apply IH.
Qed.

Lemma HH_pick : forall L norm ss ks, spec_HH L norm (map (fun s => (sm_w s, sm_h s, keep ks (sm_t s))) ss) = spec_HH L norm ss.
Proof.
  intros. unfold spec_HH. apply map_ext. intros i. apply map_ext. intros j. apply f_equal. rewrite map_map. reflexivity.
Qed.

Lemma ridge_pick : forall L c norm ss B ks, 0 < norm -> good L ss -> (forall k, In k ks -> (k < c)%nat) ->
  ridge_solution L c norm ss B ->
  ridge_solution L (length ks) norm (map (fun s => (sm_w s, sm_h s, keep ks (sm_t s))) ss) (map (keep ks) B).
Proof.
  intros L c norm ss B ks Hn Hg Hk (SB & RB & _). apply ridge_solution_of; auto.
  - intros s Hs. apply in_map_iff in Hs as (s0 & <- & Hs). apply (Hg s0 Hs).
  - split; [rewrite map_length; apply SB|]. apply Forall_forall. intros r Hr. apply in_map_iff in Hr as (r0 & <- & _). apply map_length.
  - rewrite HH_pick. apply (proj1 (solves_msolves _ _ _ _ _)) in RB. intros i q Hi Hq.
    assert ((nth q ks 0 < c)%nat) as Hk' by (apply Hk, nth_In, Hq).
    specialize (RB i (nth q ks 0%nat) Hi Hk').
    transitivity (mR (spec_HT L c ss) i (nth q ks 0%nat)).
    + rewrite <- RB. apply sum_ext. intros j Hj. apply f_equal.
      change (entry (nth j (map (keep ks) B) []) q = entry (nth j B []) (nth q ks 0%nat)).
      rewrite nth_map_lt with (da := @nil R) by (destruct SB as [SB _]; rewrite SB; exact Hj). now apply keep_nth.
    + rewrite !spec_HT_mk, !mget_mk by auto. rewrite map_map. apply nsum_map_ext. intros s _. unfold sm_w, sm_h, sm_t. cbn [fst snd].
      change (@vget NumR) with entry. now rewrite keep_nth.
Qed.

Theorem multi_output : forall e X T e' e2 e2' ks, trained e X T e' -> trained e2 X (map (keep ks) T) e2' ->
  s_neurons (e_net e2) = s_neurons (e_net e) -> s_inputs (e_net e2) = s_inputs (e_net e) -> s_norm (e_net e2) = s_norm (e_net e) ->
  s_outputs (e_net e2) = length ks -> (forall k, In k ks -> (k < s_outputs (e_net e))%nat) ->
  forall n X' Y, elm_predict e' (Arr2 n X') = Ok Y -> elm_predict e2' (Arr2 n X') = Ok (map (keep ks) Y).
Proof.
  intros e X T e' e2 e2' ks HT HT2 EN EI Em EO Hk n X' Y EY.
  destruct (predict_wide _ _ _ _ EY) as [-> WX]. pose proof (trained_inv _ _ _ _ HT) as (_ & _ & _ & _ & EI' & _ & _ & _ & HG & _).
  rewrite EI' in *.
  destruct (trained_predict _ _ _ _ HT) as (B & EB & RS & P). destruct (trained_predict _ _ _ _ HT2) as (B2 & EB2 & RS2 & P2).
  rewrite (P _ WX) in EY. injection EY as <-. rewrite EI in P2. rewrite (P2 _ WX). apply f_equal.
  assert (map (hidden e2) X = map (hidden e) X) as EH by (unfold hidden; now rewrite EN).
  assert (map (hidden e2) X' = map (hidden e) X') as EH' by (unfold hidden; now rewrite EN).
  rewrite EH'. rewrite EH, EN, EO, Em, plain_pick in RS2.
  assert (B2 = map (keep ks) B) as ->.
  { destruct (ridge_pick _ _ _ _ B ks (tr_norm _ _ _ _ HT) HG Hk RS) as (S1 & S2 & S3 & _). apply S3; apply RS2. }
  rewrite EO. unfold outputs_of. rewrite !map_map. apply map_ext_in. intros h Hh.
  etransitivity; [|unfold keep; symmetry; apply map_by_index]. apply map_ext_in. intros q Hq. apply in_seq in Hq.
  assert ((nth q ks 0 < s_outputs (e_net e))%nat) as Hk' by (apply Hk, nth_In; lia).
  unfold entry at 1. rewrite nth_map_lt with (da := 0%nat) by (now rewrite seq_length). rewrite seq_nth by auto. cbn [plus].
  unfold predict1. apply f_equal. apply map_ext_in. intros j Hj. apply in_seq in Hj. apply f_equal.
  assert (length (hidden e h) = nneurons (s_neurons (e_net e))) as HL by exact (hrow_length _ _ h (wf_groups _ (tr_wf _ _ _ _ HT))).
  rewrite nth_map_lt with (da := @nil R) by (destruct RS as [[SB _] _]; lia). apply keep_nth. lia.
Qed.

(** ** training is linear in the targets *)
Definition lin2 (a b : R) (u v : list R) : list R := map2 (fun p q => a * p + b * q) u v.

Lemma lin2_entry : forall a b c u v k, length u = c -> length v = c -> (k < c)%nat -> entry (lin2 a b u v) k = a * entry u k + b * entry v k.
Proof. intros a b c u v k Hu Hv Hk. unfold entry, lin2. apply (nth_map2 (fun p q => a * p + b * q) u v k 0 0 0); lia. Qed.

Lemma SS_lin2 : forall a b c i k H T1 T2, length T1 = length H -> length T2 = length H ->
  Forall (fun t => length t = c) T1 -> Forall (fun t => length t = c) T2 -> (k < c)%nat ->
  Rsum (map (fun s => sm_w s * entry (sm_h s) i * entry (sm_t s) k) (plain H (map2 (lin2 a b) T1 T2))) =
  a * Rsum (map (fun s => sm_w s * entry (sm_h s) i * entry (sm_t s) k) (plain H T1)) +
  b * Rsum (map (fun s => sm_w s * entry (sm_h s) i * entry (sm_t s) k) (plain H T2)).
Proof.
  intros a b c i k. induction H as [|h H IH]; intros [|t1 T1] [|t2 T2] L1 L2 F1 F2 Hk; try discriminate; [cbn; lra|].
  cbn in L1, L2. inversion F1; subst. inversion F2; subst. unfold plain in *. cbn [map2 map Rsum fold_right].
  change (fold_right Rplus 0) with Rsum. rewrite IH by auto. unfold sm_w, sm_h, sm_t. cbn [fst snd]. rewrite (lin2_entry a b (length t1)) by auto. lra.
Qed.

Lemma HH_plain : forall L norm H T1 T2, length T1 = length H -> length T2 = length H -> spec_HH L norm (plain H T1) = spec_HH L norm (plain H T2).
Proof.
  intros L norm H T1 T2 E1 E2. unfold spec_HH. apply map_ext. intros i. apply map_ext. intros j. apply f_equal. apply f_equal.
  unfold plain. revert T1 T2 E1 E2. induction H as [|h H IH]; intros [|t1 T1] [|t2 T2] E1 E2; try discriminate; [reflexivity|].
  cbn [map2 map]. apply f_equal. apply IH; auto.
Qed.

Lemma ridge_lin2 : forall L c norm H T1 T2 B1 B2 a b, 0 < norm -> Forall (fun h => length h = L) H ->
  length T1 = length H -> length T2 = length H -> Forall (fun t => length t = c) T1 -> Forall (fun t => length t = c) T2 ->
  ridge_solution L c norm (plain H T1) B1 -> ridge_solution L c norm (plain H T2) B2 ->
  ridge_solution L c norm (plain H (map2 (lin2 a b) T1 T2)) (map2 (lin2 a b) B1 B2).
Proof.
  intros L c norm H T1 T2 B1 B2 a b Hn HF L1 L2 F1 F2 (S1 & R1 & _) (S2 & R2 & _).
  assert (length (map2 (lin2 a b) T1 T2) = length H) as L3 by (rewrite map2_length; lia).
  apply ridge_solution_of; auto.
  - intros s Hs. unfold plain in Hs. rewrite map2_combine in Hs. apply in_map_iff in Hs as ((h & t) & <- & Hs). apply in_combine_l in Hs.
    split; [apply Rle_0_1|]. rewrite Forall_forall in HF. apply HF, Hs.
  - destruct S1 as [S1 S1'], S2 as [S2 S2']. split; [rewrite map2_length; lia|]. apply Forall_forall. intros r Hr. rewrite map2_combine in Hr. apply in_map_iff in Hr as ((u & v) & <- & Hr).
    pose proof (S1' u (in_combine_l _ _ _ _ Hr)). pose proof (S2' v (in_combine_r _ _ _ _ Hr)). unfold lin2. rewrite map2_length. cbn [fst snd]. lia.
  - rewrite (HH_plain L norm H _ T1) by auto. apply (proj1 (solves_msolves _ _ _ _ _)) in R1. apply (proj1 (solves_msolves _ _ _ _ _)) in R2. intros i k Hi Hk. specialize (R1 i k Hi Hk). specialize (R2 i k Hi Hk).
    rewrite (HH_plain L norm H T2 T1) in R2 by auto.
    rewrite spec_HT_mk, mget_mk by auto. rewrite spec_HT_mk, mget_mk in R1, R2 by auto.
    etransitivity; [|symmetry; apply (SS_lin2 a b c i k H T1 T2); auto].
    change (@nsum NumR) with Rsum in R1, R2. change (@vget NumR) with entry in R1, R2. rewrite <- R1, <- R2. rewrite <- !sum_scal, <- sum_add. apply sum_ext. intros j Hj.
    destruct S1 as [S1 S1'], S2 as [S2 S2'].
    change (mR (map2 (lin2 a b) B1 B2) j k) with (entry (nth j (map2 (lin2 a b) B1 B2) []) k).
    rewrite nth_map2 with (da := @nil R) (db := @nil R) by lia.
    rewrite (lin2_entry a b c) by (first [exact Hk | apply S1'; apply nth_In; lia | apply S2'; apply nth_In; lia]).
    change (mR B1 j k) with (entry (nth j B1 []) k). change (mR B2 j k) with (entry (nth j B2 []) k). rring.
Qed.

Theorem linear_in_targets : forall e X T1 T2 a b e1 e2 e3,
  trained e X T1 e1 -> trained e X T2 e2 -> trained e X (map2 (lin2 a b) T1 T2) e3 ->
  forall n X' Y1 Y2, elm_predict e1 (Arr2 n X') = Ok Y1 -> elm_predict e2 (Arr2 n X') = Ok Y2 ->
  elm_predict e3 (Arr2 n X') = Ok (map2 (lin2 a b) Y1 Y2).
Proof.
  intros e X T1 T2 a b e1 e2 e3 H1 H2 H3 n X' Y1 Y2 E1 E2.
  destruct (predict_wide _ _ _ _ E1) as [-> WX]. pose proof (trained_inv _ _ _ _ H1) as (_ & _ & _ & _ & EI' & _). rewrite EI' in *. clear EI'.
  destruct (trained_predict _ _ _ _ H1) as (B1 & _ & R1 & P1). destruct (trained_predict _ _ _ _ H2) as (B2 & _ & R2 & P2). destruct (trained_predict _ _ _ _ H3) as (B3 & _ & R3 & P3).
  rewrite (P1 _ WX) in E1. rewrite (P2 _ WX) in E2. injection E1 as <-. injection E2 as <-. rewrite (P3 _ WX). apply f_equal.
  destruct (tr_data _ _ _ _ H1) as (_ & L1 & F1). destruct (tr_data _ _ _ _ H2) as (_ & L2 & F2).
  assert (Forall (fun h => length h = nneurons (s_neurons (e_net e))) (map (hidden e) X)) as HF.
  { apply Forall_forall. intros h Hh. apply in_map_iff in Hh as (x & <- & _). exact (hrow_length _ _ x (wf_groups _ (tr_wf _ _ _ _ H1))). }
  assert (B3 = map2 (lin2 a b) B1 B2) as ->.
  { destruct (ridge_lin2 _ (s_outputs (e_net e)) _ _ T1 T2 B1 B2 a b (tr_norm _ _ _ _ H1) HF) as (_ & _ & S3 & _); auto; try (rewrite map_length; auto). apply S3; apply R3. }
  set (c := s_outputs (e_net e)) in *. destruct R1 as [[S1 S1'] _], R2 as [[S2 S2'] _].
  pose proof (fun x => hrow_length _ _ x (wf_groups _ (tr_wf _ _ _ _ H1))) as HR.
  unfold outputs_of. rewrite !map_map. clear P1 P2 P3. clear H1 H2 H3 R3. induction X' as [|x X' IH]; [reflexivity|]. inversion WX; subst. cbn [map map2]. f_equal; [|apply IH; auto].
  unfold lin2 at 2. rewrite map2_map_l, map2_map_r. 
  assert (forall l : list nat, (forall k, In k l -> (k < c)%nat) -> map (predict1 (map2 (lin2 a b) B1 B2) (hidden e x)) l =
    map2 (fun p q => a * predict1 B1 (hidden e x) p + b * predict1 B2 (hidden e x) q) l l) as HH; [|apply HH; intros k Hk; apply in_seq in Hk; lia].
  assert (length (hidden e x) = nneurons (s_neurons (e_net e))) as HL by exact (HR x).
  induction l as [|k l IHl]; intros Hl; [reflexivity|]. cbn [map map2]. f_equal; [|apply IHl; intros; apply Hl; right; auto].
  assert (k < c)%nat as Hk by (apply Hl; left; auto). unfold predict1. rewrite !Rsum_S, HL.
  etransitivity; [|symmetry; etransitivity; [apply f_equal2; symmetry; apply sum_scal|symmetry; apply sum_add]]. apply sum_ext. intros j Hj.
  rewrite nth_map2 with (da := @nil R) (db := @nil R) by lia.
  rewrite (lin2_entry a b c) by (first [exact Hk | apply S1'; apply nth_In; lia | apply S2'; apply nth_In; lia]). rring.
Qed.
End Train.
