(** More consequences of exact ridge training (C57, C60-C64; reals). *)
From Coq Require Import Reals Lra Permutation.
From Verif Require Import Base Num Mat LinAlg Slfn Strs Elm Mrsr Search Mss Hpelm MatFacts SplitProofs Spec ElmFacts RLin
  AccProofs TrainProofs RidgeProofs WfProofs TrainThms IncrThms SolveThms RangeThms NeuronThms ErrThms SearchThms SelectThms RankThms SubThms FeatureThms RangeTrain Spec RegMore.
Local Open Scope R_scope.
#[local] Existing Instance NumR.

(** ** errors of predictions, size of the output weights *)
Definition sqd (t y : list R) : R := Rsum (map2 (fun a b => (a - b) ^ 2) t y).
Definition total_sq (T Y : list (list R)) : R := Rsum (map2 sqd T Y).
Definition size_sq (M : list (list R)) : R := Rsum (map (fun r => Rsum (map (fun a => a ^ 2) r)) M).

Lemma Rsum_map_nth : forall {A} (d : A) (f : A -> R) l n, length l = n -> Rsum (map f l) = S_ n (fun i => f (nth i l d)).
Proof.
  intros A d f l n <-. induction l as [|a l IH]; [reflexivity|]. cbn [map Rsum fold_right length]. change (fold_right Rplus 0) with Rsum.
  rewrite IH. symmetry. apply sum_S.
Qed.
Lemma size_sq_S : forall L c M, shape L c M -> size_sq M = Rsum (map (fun i => Rsum (map (fun k => entry (nth i M []) k ^ 2) (seq 0 c))) (seq 0 L)).
Proof.
  intros L c M [H1 H2]. unfold size_sq. rewrite (Rsum_map_nth (@nil R) _ M L H1), Rsum_S. apply sum_ext. intros i Hi.
  rewrite (Rsum_map_nth 0 _ _ c), Rsum_S; [reflexivity|]. apply H2, nth_In. lia.
Qed.
Lemma sqd_out : forall c t (f : nat -> R), length t = c -> sqd t (map f (seq 0 c)) = Rsum (map (fun k => 1 * (f k - entry t k) ^ 2) (seq 0 c)).
Proof.
  intros c t f <-. unfold sqd. assert (forall s, map2 (fun a b => (a - b) ^ 2) t (map f (seq s (length t))) =
     map (fun k => 1 * (f k - entry t (k - s)) ^ 2) (seq s (length t))) as H.
  { induction t as [|a t IH]; intros s; [reflexivity|]. cbn [length seq map map2]. f_equal.
    - replace (s - s)%nat with 0%nat by lia. unfold entry. cbn [nth]. ring.
    - rewrite IH. apply map_ext_in. intros k Hk. apply in_seq in Hk. replace (k - s)%nat with (S (k - S s))%nat by lia. reflexivity. }
  rewrite H. apply f_equal. apply map_ext. intros k. now rewrite Nat.sub_0_r.
Qed.
Lemma loss_predict : forall L c norm H T B, shape L c B -> Forall (fun t => length t = c) T ->
  ridge_loss L c norm (plain H T) B = total_sq T (outputs_of c B H) + norm * size_sq B.
Proof.
  intros L c norm H T B HB HT. unfold ridge_loss. rewrite <- (size_sq_S L c) by auto. apply f_equal2; [|reflexivity].
  unfold total_sq, plain, outputs_of. revert T HT. induction H as [|h H IH]; intros [|t T] HT; try reflexivity.
  inversion HT; subst. cbn [map2 map Rsum fold_right]. change (fold_right Rplus 0) with Rsum. rewrite IH by auto. apply f_equal2; [|reflexivity].
  rewrite sqd_out by auto. reflexivity.
Qed.

Lemma total_nonneg : forall T Y, 0 <= total_sq T Y.
Proof.
  intros. unfold total_sq. rewrite Rsum_N. apply nsum_nonneg. intros x Hx. rewrite map2_combine in Hx. apply in_map_iff in Hx as (p & <- & _).
  unfold sqd. rewrite Rsum_N. apply nsum_nonneg. intros y Hy. rewrite map2_combine in Hy. apply in_map_iff in Hy as (q & <- & _). apply pow2_ge_0.
Qed.

Section Train.
Context {SG : Sing} {BR : Brent} {SH : Shuffle}.

(** ** HPELM.train computes what ELM.train computes *)
Theorem hpelm_train_same : forall e dX dT X T i c args kw e1 e',
  data_ok e dX dT X T -> (i < length X)%nat -> c <> Some 0%nat ->
  parse_args e args kw = (e1, Ok tt) -> is_wc e1 = false -> (0 < e_batch e1)%Z ->
  trained e (range_of X i c) (range_of T i c) e' ->
  exists e2, hp_train e dX dT args kw (Some (Z.of_nat i)) (zcount c) = (e2, Ok tt) /\
    s_B (e_net e2) = s_B (e_net e') /\ s_neurons (e_net e2) = s_neurons (e_net e').
Proof.
  intros e dX dT X T i c args kw e1 e' HD Hi Hc HP Hw Hb HT.
  destruct (trained_inv _ _ _ _ HT) as (B & EB & HU & EN & EI & EO & En & WX & HG & RS).
  assert (usable (e_net e)) as HU'. { destruct (tr_proj _ _ _ _ HT) as (H & HPr). apply (elm_project_inv _ _ _ HPr). }
  assert (elm_project e (Arr2 (s_inputs (e_net e)) X) = Ok (map (hidden e) X)) as HPr.
  { unfold elm_project, check_arr. rewrite Nat.eqb_refl. cbn [rbind]. unfold hidden. apply (project_ok (e_net e) X); auto. apply HD. }
  destruct (hp_train_ridge e dX dT X T _ i c args kw e1 (tr_wf _ _ _ _ HT) (tr_norm _ _ _ _ HT) HP Hw Hb HD Hi Hc HPr) as (e2 & B2 & E2 & EB2 & EN2 & RS2).
  exists e2. split; [exact E2|]. split; [|now rewrite EN2, EN]. rewrite EB2, EB. apply f_equal.
  rewrite range_of_map in RS2. apply RS; apply RS2.
Qed.

(** ** a larger norm: smaller weights, no smaller training error *)
Theorem norm_shrinks : forall e1 e2 X T e1' e2' n1 n2 B1 B2 Y1 Y2,
  trained e1 X T e1' -> trained e2 X T e2' ->
  s_neurons (e_net e2) = s_neurons (e_net e1) -> s_inputs (e_net e2) = s_inputs (e_net e1) -> s_outputs (e_net e2) = s_outputs (e_net e1) ->
  s_norm (e_net e1) = n1 -> s_norm (e_net e2) = n2 -> n1 <= n2 ->
  s_B (e_net e1') = Some B1 -> s_B (e_net e2') = Some B2 ->
  elm_predict e1' (Arr2 (s_inputs (e_net e1)) X) = Ok Y1 -> elm_predict e2' (Arr2 (s_inputs (e_net e1)) X) = Ok Y2 ->
  size_sq B2 <= size_sq B1 /\ total_sq T Y1 <= total_sq T Y2.
Proof.
  intros e1 e2 X T e1' e2' n1 n2 B1 B2 Y1 Y2 H1 H2 EN EI EO M1 M2 Hle EB1 EB2 EY1 EY2.
  destruct (trained_inv _ _ _ _ H1) as (_ & _ & _ & _ & _ & _ & _ & WX & _).
  destruct (trained_predict _ _ _ _ H1) as (B1' & EB1' & R1 & P1). destruct (trained_predict _ _ _ _ H2) as (B2' & EB2' & R2 & P2).
  rewrite EB1' in EB1. injection EB1 as ->. rewrite EB2' in EB2. injection EB2 as ->.
  rewrite EI in P2. rewrite (P1 _ WX) in EY1. rewrite (P2 _ WX) in EY2. injection EY1 as <-. injection EY2 as <-.
  assert (hidden e2 = hidden e1) as EH by (unfold hidden; now rewrite EN). rewrite EH, EO in *. rewrite EN, M2 in R2. rewrite M1 in R1.
  set (L := nneurons _) in *. set (c := s_outputs (e_net e1)) in *. set (H := map (hidden e1) X) in *.
  pose proof (tr_norm _ _ _ _ H1) as Hn1. rewrite M1 in Hn1.
  destruct (tr_data _ _ _ _ H1) as (_ & _ & HT). fold c in HT.
  destruct R1 as (S1 & Q1 & U1 & O1), R2 as (S2 & Q2 & U2 & O2).
  destruct (Rle_lt_or_eq_dec _ _ Hle) as [Hlt| <-].
  - specialize (O1 B2). specialize (O2 B1). rewrite !loss_predict in O1, O2 by auto.
    set (a := total_sq T (outputs_of c B1 H)) in *. set (b := total_sq T (outputs_of c B2 H)) in *.
    set (p := size_sq B1) in *. set (q := size_sq B2) in *.
    assert ((n2 - n1) * (q - p) <= 0) as Hm by lra.
    assert (q <= p) as Hq.
    { destruct (Rle_lt_dec q p) as [|C]; auto. assert (0 < (n2 - n1) * (q - p)) by (apply Rmult_lt_0_compat; lra). lra. }
    split; [exact Hq|]. assert (n1 * q <= n1 * p) by (apply Rmult_le_compat_l; lra). lra.
  - assert (B1 = B2) as -> by (apply U2; auto). split; apply Rle_refl.
Qed.

(** ** training is no worse than predicting zero *)
Theorem no_worse_than_zero : forall e X T e' B Y, trained e X T e' -> s_B (e_net e') = Some B ->
  elm_predict e' (Arr2 (s_inputs (e_net e)) X) = Ok Y ->
  total_sq T Y + s_norm (e_net e) * size_sq B <= size_sq T.
Proof.
  intros e X T e' B Y HT EB EY.
  destruct (trained_inv _ _ _ _ HT) as (_ & _ & _ & _ & _ & _ & _ & WX & HG & _).
  destruct (trained_predict _ _ _ _ HT) as (B' & EB' & RS & P). rewrite EB' in EB. injection EB as ->. rewrite (P _ WX) in EY. injection EY as <-.
  destruct (tr_data _ _ _ _ HT) as (_ & HL & HF). destruct RS as (SB & _ & _ & O). rewrite <- (loss_predict (nneurons (s_neurons (e_net e)))) by auto.
  eapply Rle_trans; [apply (O [])|]. apply Req_le. unfold ridge_loss.
  assert (forall i k, entry (nth i (@nil (list R)) []) k = 0) as E0 by (intros [|i] [|k]; reflexivity).
  assert (forall h k, predict1 [] h k = 0) as P0. { intros h k. unfold predict1. rewrite Rsum_S. apply sum_zero. intros i _. rewrite E0. rring. }
  match goal with |- ?a + _ * ?b = _ => assert (b = 0) as -> end.
  { rewrite Rsum_S. apply sum_zero. intros i _. rewrite Rsum_S. apply sum_zero. intros k _. rewrite E0. rring. }
  rewrite Rmult_0_r, Rplus_0_r. unfold size_sq, plain. rewrite <- (map_length (hidden e)) in HL. set (H := map (hidden e) X) in *. clearbody H.
  clear - HL HF P0. revert T HL HF. induction H as [|h H IH]; intros [|t T] HL HF; try discriminate; [reflexivity|]. inversion HF; subst.
  cbn [map2 map Rsum fold_right]. change (fold_right Rplus 0) with Rsum. rewrite IH by auto. apply f_equal2; [|reflexivity].
  rewrite (Rsum_map_nth 0 _ t _ eq_refl), H2, Rsum_S. apply sum_ext. intros k _. rewrite P0. unfold sm_w, sm_t, entry. cbn [fst snd]. rring.
Qed.

(** ** more neurons never make the training objective worse *)
Lemma predict1_cons : forall b B a h k, predict1 (b :: B) (a :: h) k = a * entry b k + predict1 B h k.
Proof.
  intros. unfold predict1. cbn [length seq map Rsum fold_right]. change (fold_right Rplus 0) with Rsum. apply f_equal2; [reflexivity|].
  rewrite <- seq_shift, map_map. reflexivity.
Qed.
Lemma predict1_app : forall B1 B2 h1 h2 k, length B1 = length h1 -> predict1 (B1 ++ B2) (h1 ++ h2) k = predict1 B1 h1 k + predict1 B2 h2 k.
Proof.
  induction B1 as [|b B1 IH]; intros B2 [|a h1] h2 k E; try discriminate; cbn [app].
  - change (predict1 [] [] k) with 0. lra.
  - rewrite !predict1_cons, IH by (cbn in E; lia). lra.
Qed.
Lemma predict1_zero : forall n c h k, predict1 (repeat (repeat 0 c) n) h k = 0.
Proof.
  intros. unfold predict1. rewrite Rsum_S. apply sum_zero. intros i _.
  assert (entry (nth i (repeat (repeat 0 c) n) []) k = 0) as ->; [|rring].
  destruct (nth_in_or_default i (repeat (repeat 0 c) n) []) as [Hin| ->]; [|destruct k; reflexivity].
  apply repeat_spec in Hin. rewrite Hin. unfold entry. destruct (nth_in_or_default k (repeat 0 c) 0) as [Hk| ->]; [|reflexivity]. now apply repeat_spec in Hk.
Qed.
Lemma size_sq_app : forall A B, size_sq (A ++ B) = size_sq A + size_sq B.
Proof. intros. unfold size_sq. rewrite map_app, !Rsum_N. apply nsum_app. Qed.
Lemma size_sq_zero : forall n c, size_sq (repeat (repeat 0 c) n) = 0.
Proof.
  intros. unfold size_sq. rewrite Rsum_N. induction n; [reflexivity|]. cbn [repeat map]. rewrite nsum_cons, IHn.
  assert (Rsum (map (fun a => a ^ 2) (repeat 0 c)) = 0) as ->; [|rring]. clear. induction c; [reflexivity|]. cbn [repeat map Rsum fold_right]. change (fold_right Rplus 0) with Rsum. rewrite IHc. ring.
Qed.

Theorem more_neurons : forall e number func W b rW rB e1 X T ea eb Ba Bb Ya Yb,
  (forall c m, W = Some (c, m) -> Forall (fun r => length r = c) m) -> rand_shapes (s_inputs (e_net e)) rW rB ->
  add_neurons e number func W b rW rB = (e1, Ok tt) ->
  trained e X T ea -> trained e1 X T eb ->
  s_B (e_net ea) = Some Ba -> s_B (e_net eb) = Some Bb ->
  elm_predict ea (Arr2 (s_inputs (e_net e)) X) = Ok Ya -> elm_predict eb (Arr2 (s_inputs (e_net e)) X) = Ok Yb ->
  total_sq T Yb + s_norm (e_net e) * size_sq Bb <= total_sq T Ya + s_norm (e_net e) * size_sq Ba.
Proof.
  intros e number func W b rW rB e1 X T ea eb Ba Bb Ya Yb HR HR1 E HA HB EA EB EYa EYb.
  apply add_neurons_inv in E. destruct E as (f & n & W' & B' & Ef & En & EW & EB' & L1 & L2 & L3 & ->).
  pose proof (tr_wf _ _ _ _ HA) as HW.
  assert (is_mat (s_inputs (e_net e)) n W') as SW.
  { destruct W as [[c W]|]; subst W'.
    - cbn [snd fst] in *. subst n. split; auto. specialize (HR _ _ eq_refl). now rewrite L2 in HR.
    - eapply WfProofs.default_W_shape; eauto. }
  destruct (merge_hrow (s_inputs (e_net e)) (s_neurons (e_net e)) n f W' B' (wf_groups _ HW) SW L3) as (k & Hk & HM).
  destruct (trained_inv _ _ _ _ HA) as (_ & _ & _ & _ & _ & _ & _ & WX & _).
  destruct (trained_predict _ _ _ _ HA) as (B1 & E1 & R1 & P1). destruct (trained_predict _ _ _ _ HB) as (B2 & E2 & R2 & P2).
  rewrite E1 in EA. injection EA as ->. rewrite E2 in EB. injection EB as ->.
  cbn [e_net with_net slfn_add_neurons with_B reset with_neurons s_inputs s_outputs s_norm s_neurons] in R2, P2.
  rewrite (P1 _ WX) in EYa. rewrite (P2 _ WX) in EYb. injection EYa as <-. injection EYb as <-.
  destruct (tr_data _ _ _ _ HA) as (_ & _ & HT).
  set (c := s_outputs (e_net e)) in *. set (norm := s_norm (e_net e)) in *. set (L := nneurons (s_neurons (e_net e))) in *.
  destruct R1 as ((S1 & S1') & _), R2 as (S2 & _ & _ & O2).
  set (Bx := firstn k Ba ++ repeat (repeat 0 c) n ++ skipn k Ba).
  assert (shape (L + n) c Bx) as SX.
  { split.
    - unfold Bx. rewrite !app_length, repeat_length, firstn_length, skipn_length. cbn [num NumR] in *. unfold L in *. lia.
    - intros r Hr. unfold Bx in Hr. rewrite !in_app_iff in Hr. destruct Hr as [Hr|[Hr|Hr]].
      + apply S1'. rewrite <- (firstn_skipn k Ba). apply in_app_iff. now left.
      + apply repeat_spec in Hr. rewrite Hr. apply repeat_length.
      + apply S1'. rewrite <- (firstn_skipn k Ba). apply in_app_iff. now right. }
  specialize (O2 Bx). rewrite merge_count in S2, O2. fold L in S2, O2. rewrite !loss_predict in O2 by auto.
  eapply Rle_trans; [exact O2|]. apply Req_le. apply f_equal2.
  - apply f_equal. unfold outputs_of. rewrite !map_map. apply map_ext. intros x. apply map_ext. intros q.
    assert (length (hidden e x) = L) as HL by exact (hrow_length _ _ x (wf_groups _ HW)).
    change (hidden (with_net e (slfn_add_neurons (e_net e) n f W' B')) x) with (hrow (merge_neurons (s_neurons (e_net e)) n f W' B') x).
    rewrite HM. change (hrow (s_neurons (e_net e)) x) with (hidden e x).
    unfold Bx. rewrite predict1_app by (rewrite !firstn_length; cbn [num NumR] in *; unfold L in *; lia).
    rewrite predict1_app by (unfold new_features; now rewrite repeat_length, map_length, seq_length).
    rewrite predict1_zero, Rplus_0_l.
    rewrite <- predict1_app by (rewrite !firstn_length; cbn [num NumR] in *; unfold L in *; lia). now rewrite !firstn_skipn.
  - apply f_equal. unfold Bx. rewrite !size_sq_app, size_sq_zero, Rplus_0_l, <- size_sq_app. now rewrite firstn_skipn.
Qed.

(** ** integer class weights are repetitions of the samples *)
Definition repeat_by {A} (ns : list nat) (ks : list nat) (l : list A) : list A :=
  concat (map2 (fun k x => repeat x (nth k ns 0%nat)) ks l).

(** e' is the model after a successful run of e on the classification data X, T (classes ks) with the class weights ws *)
Record wtrained (e : elm) (X T : list (list R)) (ks : list nat) (ws : list R) (e' : elm) : Prop := mkWtrained {
  wt_wf : wf_net (e_net e);
  wt_norm : 0 < s_norm (e_net e);
  wt_data : X <> [] /\ length X = length T /\ Forall2 (has_class (s_outputs (e_net e))) T ks;
  wt_weights : length ws = s_outputs (e_net e) /\ (forall w, In w ws -> 0 <= w);
  wt_proj : exists H, elm_project e (Arr2 (s_inputs (e_net e)) X) = Ok H;
  wt_call : exists args kw e1, smem "V" args = false /\ smem "CV" args = false /\ smem "LOO" args = false /\
    parse_args e args kw = (e1, Ok tt) /\ is_wc e1 = true /\ e_wc e1 = Some (map Fin ws) /\ (0 < e_batch e1)%Z /\
    train e (Arr2 (s_inputs (e_net e)) X) (Arr2 (s_outputs (e_net e)) T) args kw = (e', Ok None) }.

Lemma Rsum_app : forall l m, Rsum (l ++ m) = Rsum l + Rsum m.
Proof. exact nsum_app. Qed.
Lemma sum_repeat : forall (f : sample -> R) ns ks H T, length ks = length T -> length H = length T ->
  (forall w h t, f (w, h, t) = w * f (1, h, t)) ->
  Rsum (map f (samples (map (fun k => nth k (map INR ns) 0) ks) H T)) =
  Rsum (map f (plain (repeat_by ns ks H) (repeat_by ns ks T))).
Proof.
  intros f ns ks H T E1 E2 Hf. revert H T E1 E2. induction ks as [|k ks IH]; intros [|h H] [|t T] E1 E2; try discriminate; [reflexivity|].
  cbn [map samples]. unfold repeat_by. cbn [map2 concat]. unfold plain. rewrite map2_app by (now rewrite !repeat_length). rewrite map_app.
  cbn [Rsum fold_right map]. change (fold_right Rplus 0) with Rsum. cbn in E1, E2. rewrite (IH H T) by lia.
  rewrite Rsum_app. apply f_equal2; [|reflexivity].
  rewrite Hf. assert (nth k (map INR ns) 0 = INR (nth k ns 0%nat)) as ->.
  { change 0 with (INR 0). apply map_nth. }
  generalize (nth k ns 0%nat). clear. intros n. induction n as [|n IHn]; [cbn; lra|].
  rewrite S_INR. cbn [repeat map2 map Rsum fold_right]. change (fold_right Rplus 0) with Rsum. rewrite <- IHn. lra.
Qed.

Lemma ridge_repeat : forall L c norm ns ks H T B, length ks = length T -> length H = length T ->
  ridge_solution L c norm (samples (map (fun k => nth k (map INR ns) 0) ks) H T) B ->
  solves L c (spec_HH L norm (plain (repeat_by ns ks H) (repeat_by ns ks T))) B (spec_HT L c (plain (repeat_by ns ks H) (repeat_by ns ks T))).
Proof.
  intros L c norm ns ks H T B E1 E2 (_ & RB & _).
  assert (spec_HH L norm (plain (repeat_by ns ks H) (repeat_by ns ks T)) = spec_HH L norm (samples (map (fun k => nth k (map INR ns) 0) ks) H T)) as ->.
  { unfold spec_HH. apply map_ext. intros i. apply map_ext. intros j. apply f_equal. symmetry.
    apply (sum_repeat (fun s => sm_w s * entry (sm_h s) i * entry (sm_h s) j)); auto. intros. unfold sm_w, sm_h. cbn [fst snd]. ring. }
  assert (spec_HT L c (plain (repeat_by ns ks H) (repeat_by ns ks T)) = spec_HT L c (samples (map (fun k => nth k (map INR ns) 0) ks) H T)) as ->.
  { unfold spec_HT. apply map_ext. intros i. apply map_ext. intros j. symmetry.
    apply (sum_repeat (fun s => sm_w s * entry (sm_h s) i * entry (sm_t s) j)); auto. intros. unfold sm_w, sm_h, sm_t. cbn [fst snd]. ring. }
  exact RB.
Qed.

Lemma map_repeat_by : forall {A B} (f : A -> B) ns ks l, map f (repeat_by ns ks l) = repeat_by ns ks (map f l).
Proof.
  intros A B f ns ks. unfold repeat_by. induction ks as [|k ks IH]; intros [|a l]; cbn [map map2 concat]; auto.
  rewrite map_app, IH. f_equal. apply repeat_map.
Qed.

Theorem weights_are_repetitions : forall e X T ks ns e1 e2, wtrained e X T ks (map INR ns) e1 ->
  trained e (repeat_by ns ks X) (repeat_by ns ks T) e2 ->
  s_B (e_net e1) = s_B (e_net e2) /\ s_neurons (e_net e1) = s_neurons (e_net e2).
Proof.
  intros e X T ks ns e1 e2 [HW Hn (HX & HL & HT) (Lw & Pw) (H & HPr) (args & kw & e1' & HV & HCV & HLOO & HP & Hw & Ew & Hb & E)] H2.
  destruct (train_ridge_weighted e X T H args kw e1' (map INR ns) ks HW Hn HP Hw Ew Lw Pw HV HCV HLOO Hb HX HL HT HPr) as (e1'' & B & E' & EB & EN & RS).
  rewrite E' in E. injection E as ->.
  destruct (trained_inv _ _ _ _ H2) as (B2 & EB2 & HU & EN2 & EI & EO & En & WX & HG & RS2).
  rewrite EB, EB2, EN, EN2. split; [|reflexivity]. apply f_equal. apply RS2; [apply RS|].
  destruct (elm_project_inv _ _ _ HPr) as (_ & _ & ->). rewrite map_repeat_by. apply ridge_repeat; [| |exact RS].
  - clear -HT. induction HT; cbn; auto.
  - now rewrite map_length.
Qed.
End Train.
