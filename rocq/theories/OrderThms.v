(** Training does not depend on the order of the samples (C77; reals). *)
From Coq Require Import Reals Lra Permutation.
From Verif Require Import Base Num Mat LinAlg Slfn Strs Elm Mrsr Search Mss MatFacts SplitProofs Spec ElmFacts RLin
  AccProofs TrainProofs RidgeProofs WfProofs TrainThms IncrThms SolveThms NeuronThms ErrThms SearchThms SelectThms RankThms SubThms MssThms LooThms SelThms
  LoadTrain RegMore ErrMore Spec.
Local Open Scope R_scope.
#[local] Existing Instance NumR.

Lemma col_sums_perm : forall c T T', Permutation T T' -> @col_sums NumR c T = @col_sums NumR c T'.
Proof.
  intros c T T' H. unfold col_sums, mkv. apply map_ext. intros j. change (Rsum (map (fun r => nth j r 0) T) = Rsum (map (fun r => nth j r 0) T')).
  apply Rsum_perm. now apply Permutation_map.
Qed.
Lemma fill_wc_perm : forall e T T', Permutation T T' -> @fill_wc NumR e T = fill_wc e T'.
Proof.
  intros e T T' H. unfold fill_wc. destruct (is_wc e); [|reflexivity]. destruct (e_wc e); [reflexivity|].
  unfold auto_wc. rewrite (col_sums_perm _ _ _ H). reflexivity.
Qed.
Lemma weights_ok_perm : forall e g T T', Permutation T T' -> @weights_ok e g T -> weights_ok e g T'.
Proof.
  intros e g T T' P [H1 H2].
  assert (forall t, In t T' -> In t T) as Hin by (intros t; apply (Permutation_in t (Permutation_sym P))).
  split; [auto|]. destruct (is_wc e); [|auto]. destruct H2 as (wc & E & H2). exists wc. rewrite <- (fill_wc_perm e T T' P). auto.
Qed.

Lemma combine_snd : forall {A B} (X : list A) (T : list B), length X = length T -> map snd (combine X T) = T.
Proof. induction X as [|x X IH]; intros [|t T] H; cbn in *; try discriminate; auto. f_equal. apply IH. lia. Qed.
Lemma combine_fst : forall {A B} (X : list A) (T : list B), length X = length T -> map fst (combine X T) = X.
Proof. induction X as [|x X IH]; intros [|t T] H; cbn in *; try discriminate; auto. f_equal. apply IH. lia. Qed.
Lemma samples_map : forall (g : list R -> R) (h : list R -> list R) X T, length X = length T ->
  samples (map g T) (map h X) T = map (fun p => (g (snd p), h (fst p), snd p)) (combine X T).
Proof. induction X as [|x X IH]; intros [|t T] H; cbn in *; try discriminate; auto. f_equal. apply IH. lia. Qed.

Lemma spec_HH_perm : forall L norm ss ss', Permutation ss ss' -> spec_HH L norm ss = spec_HH L norm ss'.
Proof.
  intros L norm ss ss' P. unfold spec_HH. apply map_ext. intros i. apply map_ext. intros j. f_equal. apply Rsum_perm. now apply Permutation_map.
Qed.
Lemma spec_HT_perm : forall L c ss ss', Permutation ss ss' -> spec_HT L c ss = spec_HT L c ss'.
Proof.
  intros L c ss ss' P. unfold spec_HT. apply map_ext. intros i. apply map_ext. intros j. apply Rsum_perm. now apply Permutation_map.
Qed.

Section Order.
Context {SG : @Sing NumR} {BR : @Brent NumR} {SH : Shuffle}.

Theorem sample_order : forall e X T X' T' H args kw e1 ws,
  wf_net (e_net e) -> 0 < s_norm (e_net e) -> parse_args e args kw = (e1, Ok tt) ->
  smem "V" args = false -> smem "CV" args = false -> smem "LOO" args = false -> (0 < e_batch e1)%Z ->
  X <> [] -> length X = length T -> length X' = length T' -> Permutation (combine X T) (combine X' T') ->
  wide (s_outputs (e_net e)) T -> weighting e1 T ws -> elm_project e (Arr2 (s_inputs (e_net e)) X) = Ok H ->
  exists t t', train e (Arr2 (s_inputs (e_net e)) X) (Arr2 (s_outputs (e_net e)) T) args kw = (t, Ok None) /\
    train e (Arr2 (s_inputs (e_net e)) X') (Arr2 (s_outputs (e_net e)) T') args kw = (t', Ok None) /\
    s_B (e_net t) <> None /\ s_B (e_net t') = s_B (e_net t) /\ e_wc t' = e_wc t /\
    forall X0, elm_predict t' X0 = elm_predict t X0.
Proof.
  intros e X T X' T' H args kw e1 ws HW Hn HP HV HCV HLOO Hb HX HL HL' P WT Hws HPr.
  destruct (elm_project_inv _ _ _ HPr) as (HU & WX & ->).
  pose proof (parse_args_ok _ _ _ _ HP) as EN.
  destruct (weighting_ok e1 T ws) as (g & -> & Hg & _); auto. { rewrite EN. exact WT. }
  assert (Permutation X X') as PX by (rewrite <- (combine_fst X T HL), <- (combine_fst X' T' HL'); now apply Permutation_map).
  assert (Permutation T T') as PT by (rewrite <- (combine_snd X T HL), <- (combine_snd X' T' HL'); now apply Permutation_map).
  assert (wide (s_inputs (e_net e)) X') as WX' by exact (Permutation_Forall PX WX).
  assert (wide (s_outputs (e_net e)) T') as WT' by exact (Permutation_Forall PT WT).
  assert (X' <> []) as HX' by (intros ->; apply Permutation_sym, Permutation_nil in PX; contradiction).
  destruct (train_full e X T args kw e1 g HW HU Hn HP HV HCV HLOO Hb HX HL WX WT Hg) as (B & hh & ht & E & RS).
  destruct (train_full e X' T' args kw e1 g HW HU Hn HP HV HCV HLOO Hb HX' HL' WX' WT' (weights_ok_perm _ _ _ _ PT Hg)) as (B' & hh' & ht' & E' & RS').
  assert (B' = B) as ->.
  { rewrite samples_map in RS, RS' by auto.
    assert (Permutation (map (fun p => (g (snd p), hrow (s_neurons (e_net e)) (fst p), snd p)) (combine X T))
                        (map (fun p => (g (snd p), hrow (s_neurons (e_net e)) (fst p), snd p)) (combine X' T'))) as PS by (now apply Permutation_map).
    destruct RS as (_ & _ & RU & _). destruct RS' as (R1 & R2 & _). apply RU; [exact R1|].
    rewrite (spec_HH_perm _ _ _ _ PS), (spec_HT_perm _ _ _ _ PS). exact R2. }
  rewrite E, E'. eexists _, _. split; [reflexivity|]. split; [reflexivity|]. split; [discriminate|]. split; [reflexivity|].
  split; [|reflexivity]. cbn [e_wc with_net]. now rewrite (fill_wc_perm e1 T T' PT).
Qed.
End Order.
