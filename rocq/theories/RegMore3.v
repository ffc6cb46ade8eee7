(** More about training: linear maps of the outputs, targets that can be met exactly,
    neurons given twice (reals). *)
From Coq Require Import Reals Lra Permutation.
From Verif Require Import Base Num Mat LinAlg Slfn Strs Elm Mrsr Search Mss Hpelm MatFacts SplitProofs ElmFacts RLin AccProofs TrainProofs
  RidgeProofs WfProofs TrainThms IncrThms SolveThms RangeThms NeuronThms ErrThms SearchThms SelectThms RankThms SubThms FeatureThms RangeTrain RegMore RegMore2 RegOrder Spec.
Local Open Scope R_scope.
#[local] Existing Instance NumR.

(** the row t times the matrix M with c2 columns *)
Definition mix (M : list (list R)) (c2 : nat) (t : list R) : list R :=
  map (fun q => Rsum (map (fun k => entry t k * entry (nth k M []) q) (seq 0 (length t)))) (seq 0 c2).

Lemma mix_entry : forall M c2 t q, (q < c2)%nat -> entry (mix M c2 t) q = S_ (length t) (fun k => entry t k * entry (nth k M []) q).
Proof.
  intros M c2 t q Hq. unfold mix, entry at 1. rewrite nth_map_lt with (da := 0%nat) by (now rewrite seq_length). rewrite seq_nth by auto. cbn [plus]. apply Rsum_S.
Qed.

Section More3.
Context {SG : Sing} {BR : Brent} {SH : Shuffle}.

Lemma plain_mix : forall M c2 H T, plain H (map (mix M c2) T) = map (fun s => (sm_w s, sm_h s, mix M c2 (sm_t s))) (plain H T).
Proof. intros M c2. unfold plain. induction H as [|h H IH]; intros [|t T]; cbn; auto. f_equal. apply IH. Qed.

Lemma HH_mix : forall L norm ss M c2, spec_HH L norm (map (fun s => (sm_w s, sm_h s, mix M c2 (sm_t s))) ss) = spec_HH L norm ss.
Proof. intros. unfold spec_HH. apply map_ext. intros i. apply map_ext. intros j. apply f_equal. rewrite map_map. reflexivity. Qed.

Lemma ridge_mix : forall L c norm ss B M c2, 0 < norm -> good L ss -> (forall s, In s ss -> length (sm_t s) = c) ->
  ridge_solution L c norm ss B ->
  ridge_solution L c2 norm (map (fun s => (sm_w s, sm_h s, mix M c2 (sm_t s))) ss) (map (mix M c2) B).
Proof.
  intros L c norm ss B M c2 Hn Hg Ht (SB & RB & _). apply ridge_solution_of; auto.
  - intros s Hs. apply in_map_iff in Hs as (s0 & <- & Hs). apply (Hg s0 Hs).
  - split; [rewrite map_length; apply SB|]. apply Forall_forall. intros r Hr. apply in_map_iff in Hr as (r0 & <- & _). unfold mix. now rewrite map_length, seq_length.
  - rewrite HH_mix. apply (proj1 (solves_msolves _ _ _ _ _)) in RB. destruct SB as [SB SB']. intros i q Hi Hq.
    transitivity (S_ c (fun k => mR (spec_HT L c ss) i k * entry (nth k M []) q)).
    + transitivity (S_ L (fun j => S_ c (fun k => mR (spec_HH L norm ss) i j * mR B j k * entry (nth k M []) q))).
      * apply sum_ext. intros j Hj. change (mR (map (mix M c2) B) j q) with (entry (nth j (map (mix M c2) B) []) q).
        rewrite nth_map_lt with (da := @nil R) by (rewrite SB; exact Hj). rewrite mix_entry by auto.
        assert (length (nth j B []) = c) as -> by (apply SB', nth_In; lia).
        etransitivity; [symmetry; apply sum_scal|]. apply sum_ext. intros k Hk. change (mR B j k) with (entry (nth j B []) k). rring.
      * rewrite sum_swap. apply sum_ext. intros k Hk. rewrite <- (RB i k Hi Hk). rewrite <- sum_scal_r. reflexivity.
    + rewrite !spec_HT_mk, !mget_mk by auto. rewrite map_map.
      etransitivity; [apply sum_ext; intros k Hk; rewrite mget_mk by auto; symmetry; apply nsum_map_scal_r|].
      rewrite <- (nsum_sum_swap c (fun s k => sm_w s * vR (sm_h s) i * vR (sm_t s) k * entry (nth k M []) q)).
      apply nsum_map_ext. intros s Hs. change (sm_t (sm_w s, sm_h s, mix M c2 (sm_t s))) with (mix M c2 (sm_t s)). change (sm_w (sm_w s, sm_h s, mix M c2 (sm_t s))) with (sm_w s). change (sm_h (sm_w s, sm_h s, mix M c2 (sm_t s))) with (sm_h s). change (@vget NumR) with entry.
      rewrite mix_entry by auto. rewrite (Ht s Hs). etransitivity; [|apply sum_scal]. apply sum_ext. intros k Hk. rring.
Qed.

Theorem output_maps : forall e X T e' e2 e2' M, trained e X T e' -> trained e2 X (map (mix M (s_outputs (e_net e2))) T) e2' ->
  s_neurons (e_net e2) = s_neurons (e_net e) -> s_inputs (e_net e2) = s_inputs (e_net e) -> s_norm (e_net e2) = s_norm (e_net e) ->
  forall n X' Y, elm_predict e' (Arr2 n X') = Ok Y -> elm_predict e2' (Arr2 n X') = Ok (map (mix M (s_outputs (e_net e2))) Y).
Proof.
  intros e X T e' e2 e2' M HT HT2 EN EI Em n X' Y EY. set (c2 := s_outputs (e_net e2)) in *.
  destruct (predict_wide _ _ _ _ EY) as [-> WX]. pose proof (trained_inv _ _ _ _ HT) as (_ & _ & _ & _ & EI' & _ & _ & _ & HG & _).
  rewrite EI' in *.
  destruct (trained_predict _ _ _ _ HT) as (B & EB & RS & P). destruct (trained_predict _ _ _ _ HT2) as (B2 & EB2 & RS2 & P2).
  rewrite (P _ WX) in EY. injection EY as <-. rewrite EI in P2. rewrite (P2 _ WX). apply f_equal.
  assert (map (hidden e2) X = map (hidden e) X) as EH by (unfold hidden; now rewrite EN).
  assert (map (hidden e2) X' = map (hidden e) X') as EH' by (unfold hidden; now rewrite EN).
  rewrite EH'. rewrite EH, EN, Em, plain_mix in RS2. fold c2 in RS2 |- *.
  destruct (tr_data _ _ _ _ HT) as (_ & HL & HW).
  assert (B2 = map (mix M c2) B) as ->.
  { destruct (ridge_mix _ (s_outputs (e_net e)) _ (plain (map (hidden e) X) T) B M c2 (tr_norm _ _ _ _ HT) HG) as (S1 & S2 & S3 & _); auto; [|apply S3; apply RS2].
    intros s Hs. unfold plain in Hs. rewrite map2_combine in Hs. apply in_map_iff in Hs as ([h t] & <- & Hs). apply in_combine_r in Hs.
    rewrite Forall_forall in HW. now apply HW. }
  unfold outputs_of. rewrite !map_map. apply map_ext_in. intros x Hx.
  assert (length (hidden e x) = nneurons (s_neurons (e_net e))) as HLh by exact (hrow_length _ _ x (wf_groups _ (tr_wf _ _ _ _ HT))).
  destruct RS as [[SB SB'] _]. set (c := s_outputs (e_net e)) in *.
  unfold mix at 2. rewrite map_length, seq_length. apply map_ext_in. intros q Hq. apply in_seq in Hq.
  unfold predict1 at 1. rewrite !Rsum_S.
  transitivity (S_ (length (hidden e x)) (fun j => S_ c (fun k => entry (hidden e x) j * entry (nth j B []) k * entry (nth k M []) q))).
  - apply sum_ext. intros j Hj. rewrite nth_map_lt with (da := @nil R) by lia. rewrite mix_entry by lia.
    assert (length (@nth (list R) j B (@nil R)) = c) as -> by (apply SB', nth_In; lia). rewrite <- sum_scal. apply sum_ext. intros; rring.
  - rewrite sum_swap. apply sum_ext. intros k Hk. rewrite sum_scal_r.
    assert (entry (map (predict1 B (hidden e x)) (seq 0 c)) k = predict1 B (hidden e x) k) as ->; [|unfold predict1; rewrite Rsum_S; reflexivity].
    unfold entry. rewrite nth_map_lt with (da := 0%nat) by (now rewrite seq_length). now rewrite seq_nth by auto.
Qed.

(** ** targets which some output weights meet exactly *)
Theorem exact_targets : forall e X T e' B B0 Y, trained e X T e' -> s_B (e_net e') = Some B ->
  shape (nneurons (s_neurons (e_net e))) (s_outputs (e_net e)) B0 -> outputs_of (s_outputs (e_net e)) B0 (map (hidden e) X) = T ->
  elm_predict e' (Arr2 (s_inputs (e_net e)) X) = Ok Y ->
  total_sq T Y + s_norm (e_net e) * size_sq B <= s_norm (e_net e) * size_sq B0.
Proof.
  intros e X T e' B B0 Y HT EB S0 E0 EY. destruct (trained_inv _ _ _ _ HT) as (_ & _ & _ & _ & _ & _ & _ & WX & HG & _).
  destruct (trained_predict _ _ _ _ HT) as (B' & EB' & RS & P). rewrite EB in EB'. injection EB' as <-.
  rewrite (P _ WX) in EY. injection EY as <-. destruct (tr_data _ _ _ _ HT) as (_ & HL & HW).
  destruct RS as (SB & _ & _ & OPT). specialize (OPT B0). rewrite !loss_predict in OPT by auto. rewrite E0 in OPT.
  assert (total_sq T T = 0) as Z0; [|rewrite Z0 in OPT; lra].
  unfold total_sq. clear. induction T as [|t T IH]; [reflexivity|]. cbn [map2 Rsum fold_right]. change (fold_right Rplus 0) with Rsum. rewrite IH.
  assert (sqd t t = 0) as ->; [|lra]. unfold sqd. induction t as [|a t IHt]; [reflexivity|]. cbn [map2 Rsum fold_right]. change (fold_right Rplus 0) with Rsum. rewrite IHt. ring.
Qed.
End More3.

(** ** every neuron twice *)
Definition twice (h : list R) : list R := h ++ h.
Definition halved (B : list (list R)) : list (list R) := map (map (fun a => a / 2)) B ++ map (map (fun a => a / 2)) B.

Lemma S_plus : forall n m f, S_ (n + m) f = S_ n f + S_ m (fun i => f (n + i)%nat).
Proof.
  induction n as [|n IH]; intros m f; [rewrite sum_0, Rplus_0_l; reflexivity|].
  change (S n + m)%nat with (S (n + m)). rewrite !sum_S, IH, Rplus_assoc. reflexivity.
Qed.
Lemma entry_twice : forall L h i, length h = L -> (i < L + L)%nat -> entry (twice h) i = entry h (if (i <? L)%nat then i else i - L).
Proof.
  intros L h i HL Hi. unfold entry, twice. destruct (Nat.ltb_spec i L); [rewrite app_nth1 by lia; reflexivity|]. rewrite app_nth2 by lia. now rewrite HL.
Qed.
Lemma entry_half : forall r k, entry (map (fun a => a / 2) r) k = entry r k / 2.
Proof.
  intros r k. unfold entry. destruct (Nat.lt_ge_cases k (length r)) as [H|H]; [now rewrite nth_map_lt with (da := 0)|].
  rewrite !nth_overflow by (rewrite ?map_length; auto). lra.
Qed.
Lemma entry_halved : forall L B i k, length B = L -> (i < L + L)%nat -> entry (nth i (halved B) []) k = entry (nth (if (i <? L)%nat then i else i - L) B []) k / 2.
Proof.
  intros L B i k HL Hi. unfold halved. destruct (Nat.ltb_spec i L).
  - rewrite app_nth1 by (rewrite map_length; lia). rewrite nth_map_lt with (da := @nil R) by lia. apply entry_half.
  - rewrite app_nth2 by (rewrite map_length; lia). rewrite map_length, HL, nth_map_lt with (da := @nil R) by lia. apply entry_half.
Qed.

Lemma HH_twice : forall L norm H T i j, Forall (fun h => length h = L) H -> (i < L + L)%nat -> (j < L + L)%nat ->
  let low i := if (i <? L)%nat then i else (i - L)%nat in
  mR (spec_HH (L + L) norm (plain (map twice H) T)) i j =
  (if (i =? j)%nat then norm else 0) + SS (plain H T) (fun s => sm_w s * vR (sm_h s) (low i) * vR (sm_h s) (low j)).
Proof.
  intros L norm H T i j HF Hi Hj low. rewrite spec_HH_mk, mget_mk by auto. f_equal.
  unfold plain. revert T. induction HF as [|h H Hh HF IH]; intros [|t T]; try reflexivity. cbn [map map2]. rewrite !nsum_cons, IH. apply f_equal2; [|reflexivity].
  cbn [sm_w sm_h fst snd]. change (@vget NumR) with entry. rewrite !(entry_twice L) by auto. reflexivity.
Qed.
Lemma HT_twice : forall L c H T i k, Forall (fun h => length h = L) H -> (i < L + L)%nat -> (k < c)%nat ->
  let low i := if (i <? L)%nat then i else (i - L)%nat in
  mR (spec_HT (L + L) c (plain (map twice H) T)) i k = SS (plain H T) (fun s => sm_w s * vR (sm_h s) (low i) * vR (sm_t s) k).
Proof.
  intros L c H T i k HF Hi Hk low. rewrite spec_HT_mk, mget_mk by auto.
  unfold plain. revert T. induction HF as [|h H Hh HF IH]; intros [|t T]; try reflexivity. cbn [map map2]. rewrite !nsum_cons, IH. apply f_equal2; [|reflexivity].
  cbn [sm_w sm_h sm_t fst snd]. change (@vget NumR) with entry. rewrite !(entry_twice L) by auto. reflexivity.
Qed.

Lemma ridge_twice : forall L c norm H T B, 0 < norm -> Forall (fun h => length h = L) H ->
  ridge_solution L c norm (plain H T) B -> ridge_solution (L + L) c (2 * norm) (plain (map twice H) T) (halved B).
Proof.
  intros L c norm H T B Hn HF ([SB SB'] & RB & _).
  apply ridge_solution_of; [lra| | |].
  - intros s Hs. unfold plain in Hs. rewrite map2_combine in Hs. apply in_map_iff in Hs as ([h t] & <- & Hs). apply in_combine_l in Hs.
    split; [apply Rle_0_1|]. apply in_map_iff in Hs as (h0 & <- & Hs). cbn [sm_h fst snd]. unfold twice. rewrite app_length.
    rewrite Forall_forall in HF. rewrite (HF _ Hs). reflexivity.
  - split; [unfold halved; rewrite app_length, map_length; lia|]. apply Forall_forall. intros r Hr. unfold halved in Hr. apply in_app_or in Hr.
    assert (In r (map (map (fun a => a / 2)) B)) as Hr' by tauto. apply in_map_iff in Hr' as (r0 & <- & Hr'). rewrite map_length. now apply SB'.
  - apply (proj1 (solves_msolves _ _ _ _ _)) in RB. intros i k Hi Hk. set (low := fun i => if (i <? L)%nat then i else (i - L)%nat).
    assert (low i < L)%nat as Hl by (unfold low; destruct (Nat.ltb_spec i L); lia).
    rewrite (HT_twice L c H T i k HF Hi Hk). fold (low i). specialize (RB (low i) k Hl Hk).
    rewrite spec_HT_mk, mget_mk in RB by auto. rewrite <- RB. rewrite S_plus.
    assert (forall j, (j < L)%nat -> low j = j /\ low (L + j)%nat = j) as Lo.
    { intros j Hj. unfold low. destruct (Nat.ltb_spec j L); [|lia]. destruct (Nat.ltb_spec (L + j) L); [lia|]. split; lia. }
    set (G := fun a b => SS (plain H T) (fun s => sm_w s * vR (sm_h s) a * vR (sm_h s) b)).
    transitivity (S_ L (fun j => ((if (i =? j)%nat then 2 * norm else 0) + G (low i) j) * (mR B j k / 2)) +
                  S_ L (fun j => ((if (i =? L + j)%nat then 2 * norm else 0) + G (low i) j) * (mR B j k / 2))).
    { apply f_equal2; apply sum_ext; intros j Hj; destruct (Lo j Hj) as [L1 L2].
      - rewrite (HH_twice L (2 * norm) H T i j HF Hi) by lia. fold (low i) (low j). rewrite L1. fold (G (low i) j).
        change (mR (halved B) j k) with (entry (nth j (halved B) []) k). rewrite (entry_halved L) by (auto; lia). fold (low j). rewrite L1. reflexivity.
      - rewrite (HH_twice L (2 * norm) H T i (L + j) HF Hi) by lia. fold (low i) (low (L + j)%nat). rewrite L2. fold (G (low i) j).
        change (mR (halved B) (L + j) k) with (entry (nth (L + j) (halved B) []) k). rewrite (entry_halved L) by (auto; lia). fold (low (L + j)%nat). rewrite L2. reflexivity. }
    rewrite <- sum_add. apply sum_ext. intros j Hj. rewrite spec_HH_mk, mget_mk by auto. fold (G (low i) j).
    assert ((if (i =? j)%nat then 2 * norm else 0) + (if (i =? L + j)%nat then 2 * norm else 0) = 2 * (if (low i =? j)%nat then norm else 0)) as ED.
    { unfold low. destruct (Nat.ltb_spec i L), (Nat.eqb_spec i j), (Nat.eqb_spec i (L + j)%nat); try lia; repeat match goal with |- context [Nat.eqb ?a ?b] => destruct (Nat.eqb_spec a b) end; try lia; lra. }
    set (a := if (i =? j)%nat then 2 * norm else 0) in *. set (b := if (i =? L + j)%nat then 2 * norm else 0) in *. set (d := if (low i =? j)%nat then norm else 0) in *.
    rn. nra.
Qed.

Section Twice.
Context {SG : Sing} {BR : Brent} {SH : Shuffle}.
Lemma units_twice : forall e X T e' e2 e2', trained e X T e' -> trained e2 X T e2' ->
  Permutation (all_units (s_neurons (e_net e)) ++ all_units (s_neurons (e_net e))) (all_units (s_neurons (e_net e2))) ->
  s_inputs (e_net e2) = s_inputs (e_net e) ->
  s_outputs (e_net e2) = s_outputs (e_net e) -> s_norm (e_net e2) = 2 * s_norm (e_net e) ->
  forall n X' Y, elm_predict e' (Arr2 n X') = Ok Y -> elm_predict e2' (Arr2 n X') = Ok Y.
Proof.
  intros e X T e' e2 e2' HT HT2 HP EI EO Em n X' Y EY.
  destruct (predict_wide _ _ _ _ EY) as [-> WX]. pose proof (trained_inv _ _ _ _ HT) as (_ & _ & _ & _ & EI' & _ & _ & _ & HG & _).
  rewrite EI' in *.
  destruct (trained_predict _ _ _ _ HT) as (B & EB & RS & P). destruct (trained_predict _ _ _ _ HT2) as (B2 & EB2 & RS2 & P2).
  rewrite (P _ WX) in EY. injection EY as <-. rewrite EI in P2. rewrite (P2 _ WX). apply f_equal.
  destruct (perm_index (Lin, [], 0) _ _ HP) as (ix & PX & EU).
  assert (forall x, length (hidden e x) = length (all_units (s_neurons (e_net e)))) as LU.
  { intros x. unfold hidden. rewrite hrow_units. apply map_length. }
  assert (forall x, length (hidden e x) = nneurons (s_neurons (e_net e))) as HLh by (intros x; exact (hrow_length _ _ x (wf_groups _ (tr_wf _ _ _ _ HT)))).
  assert (length (all_units (s_neurons (e_net e))) = nneurons (s_neurons (e_net e))) as LL by (rewrite <- (LU []); apply HLh).
  assert (forall x, hidden e2 x = keep ix (twice (hidden e x))) as EH.
  { intros x. unfold hidden, twice. rewrite !hrow_units, EU, <- map_app. unfold keep. rewrite map_map. apply map_ext_in. intros i Hi.
    eapply Permutation_in in Hi; [|exact PX]. apply in_seq in Hi.
    unfold entry. symmetry. apply (nth_map_lt (@uval NumR x)). apply Hi. }
  set (L := nneurons (s_neurons (e_net e))) in *.
  assert (Permutation ix (seq 0 (L + L))) as PX' by (rewrite app_length, LL in PX; exact PX). clear PX. rename PX' into PX.
  assert (nneurons (s_neurons (e_net e2)) = length ix) as L2.
  { rewrite <- (hrow_length _ _ [] (wf_groups _ (tr_wf _ _ _ _ HT2))). change (hrow (s_neurons (e_net e2)) []) with (hidden e2 []). rewrite EH. apply map_length. }
  assert (forall Z : list (list R), map (hidden e2) Z = map (keep ix) (map twice (map (hidden e) Z))) as EM by (intros Z; rewrite !map_map; apply map_ext; exact EH).
  assert (forall Z, Forall (fun h => length h = L) (map (hidden e) Z)) as HF.
  { intros Z. apply Forall_forall. intros h Hh. apply in_map_iff in Hh as (x & <- & _). apply HLh. }
  assert (forall Z, Forall (fun h => length h = (L + L)%nat) (map twice (map (hidden e) Z))) as HF2.
  { intros Z. apply Forall_forall. intros h Hh. apply in_map_iff in Hh as (h0 & <- & Hh). specialize (HF Z). rewrite Forall_forall in HF. unfold twice. now rewrite app_length, HF. }
  rewrite EM. rewrite EM, plain_keep, L2, EO, Em in RS2. rewrite EO.
  pose proof (ridge_twice L (s_outputs (e_net e)) (s_norm (e_net e)) (map (hidden e) X) T B (tr_norm _ _ _ _ HT) (HF X) RS) as R2.
  assert (good (L + L) (plain (map twice (map (hidden e) X)) T)) as HG2.
  { intros s Hs. unfold plain in Hs. rewrite map2_combine in Hs. apply in_map_iff in Hs as ([h t] & <- & Hs). apply in_combine_l in Hs.
    split; [apply Rle_0_1|]. specialize (HF2 X). rewrite Forall_forall in HF2. exact (HF2 _ Hs). }
  pose proof (tr_norm _ _ _ _ HT) as Hn. assert (0 < 2 * s_norm (e_net e)) as Hn2 by lra.
  destruct (ridge_perm _ (s_outputs (e_net e)) _ _ (map twice (map (hidden e) X')) ix (halved B) Hn2 HG2 (HF2 X') PX R2) as (R3 & E3).
  assert (B2 = @rsel NumR (halved B) ix) as -> by (apply R3; apply RS2). rewrite E3.
  unfold outputs_of. rewrite !map_map. apply map_ext. intros x. apply map_ext_in. intros k Hk. apply in_seq in Hk.
  destruct RS as [[SB SB'] _]. unfold predict1.
  assert (length (twice (hidden e x)) = (L + L)%nat) as -> by (unfold twice; rewrite app_length, HLh; reflexivity). rewrite HLh, !Rsum_S. rewrite S_plus, <- sum_add. apply sum_ext. intros j Hj.
  pose proof (HLh x) as HL. rewrite !(entry_halved L) by (auto; lia).
  rewrite !(entry_twice L (hidden e x)) by (auto; lia).
  destruct (Nat.ltb_spec j L); [|lia]. destruct (Nat.ltb_spec (L + j) L); [lia|]. replace (L + j - L)%nat with j by lia. rn. field.
Qed.

Theorem neurons_twice : forall e ea cs e1 e2 X T e1' e2',
  wf_net (e_net e) -> wf_net (e_net ea) -> s_neurons (e_net e) = [] -> s_neurons (e_net ea) = [] ->
  s_inputs (e_net ea) = s_inputs (e_net e) -> s_outputs (e_net ea) = s_outputs (e_net e) -> s_norm (e_net ea) = 2 * s_norm (e_net e) ->
  Forall rect cs -> run_all do_add e cs = (e1, Ok tt) -> run_all do_add ea (cs ++ cs) = (e2, Ok tt) ->
  trained e1 X T e1' -> trained e2 X T e2' ->
  forall n X' Y, elm_predict e1' (Arr2 n X') = Ok Y -> elm_predict e2' (Arr2 n X') = Ok Y.
Proof.
  intros e ea cs e1 e2 X T e1' e2' HW HWa EN ENa EI EO En HR E1 E2 H1 H2.
  destruct (run_add_units cs e e1 HW HR E1) as (_ & P1 & I1 & O1 & N1).
  assert (Forall rect (cs ++ cs)) as HR' by (apply Forall_app; auto).
  destruct (run_add_units (cs ++ cs) ea e2 HWa HR' E2) as (_ & P2 & I2 & O2 & N2).
  apply (units_twice e1 X T e1' e2 e2' H1 H2); try congruence.
  rewrite P1, P2, EN, ENa. cbn [all_units map concat]. unfold all_units. cbn [map concat]. rewrite !app_nil_r, map_app, concat_app. reflexivity.
Qed.
End Twice.
