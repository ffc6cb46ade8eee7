(** Energy balance of a trained model, stability in the targets, repeated data (C83, C84; reals). *)
From Coq Require Import Reals Lra Permutation.
From Verif Require Import Base Num Mat LinAlg Slfn Strs Elm Mrsr Search Mss Hpelm MatFacts SplitProofs Spec ElmFacts RLin
  AccProofs TrainProofs RidgeProofs WfProofs TrainThms IncrThms SolveThms RangeThms NeuronThms ErrThms SearchThms SelectThms RankThms SubThms FeatureThms RangeTrain Spec RegMore RegMore2.
Local Open Scope R_scope.
#[local] Existing Instance NumR.

Lemma plain_good : forall L H T, Forall (fun h => length h = L) H -> good L (plain H T).
Proof.
  intros L H T HF s Hs. unfold plain in Hs. rewrite map2_combine in Hs. apply in_map_iff in Hs as ((h & t) & <- & Hs). apply in_combine_l in Hs.
  split; [apply Rle_0_1|]. rewrite Forall_forall in HF. apply HF, Hs.
Qed.

Lemma loss_zero_weights : forall L c norm H T, length T = length H -> Forall (fun t => length t = c) T ->
  ridge_loss L c norm (plain H T) [] = size_sq T.
Proof.
  intros L c norm H T HL HF. unfold ridge_loss.
  assert (forall i k, entry (nth i (@nil (list R)) []) k = 0) as E0 by (intros [|i] [|k]; reflexivity).
  assert (forall h k, predict1 [] h k = 0) as P0. { intros h k. unfold predict1. rewrite Rsum_S. apply sum_zero. intros i _. rewrite E0. rring. }
  match goal with |- ?a + _ * ?b = _ => assert (b = 0) as -> end.
  { rewrite Rsum_S. apply sum_zero. intros i _. rewrite Rsum_S. apply sum_zero. intros k _. rewrite E0. rring. }
  rewrite Rmult_0_r, Rplus_0_r. unfold size_sq, plain.
  revert T HL HF. induction H as [|h H IH]; intros [|t T] HL HF; try discriminate; [reflexivity|]. inversion HF; subst.
  cbn [map2 map Rsum fold_right]. change (fold_right Rplus 0) with Rsum. rewrite IH by auto. apply f_equal2; [|reflexivity].
  rewrite (Rsum_map_nth 0 _ t _ eq_refl), Rsum_S. apply sum_ext. intros k _. rewrite P0. unfold sm_w, sm_t, entry. cbn [fst snd]. rring.
Qed.

Lemma total_zero : forall c Y, Forall (fun y => length y = c) Y -> total_sq (repeat (repeat 0 c) (length Y)) Y = size_sq Y.
Proof.
  intros c Y HF. unfold total_sq, size_sq. induction HF as [|y Y Hy HF IH]; [reflexivity|].
  cbn [length repeat map2 map Rsum fold_right]. change (fold_right Rplus 0) with Rsum. rewrite IH. apply f_equal2; [|reflexivity].
  unfold sqd. subst c. clear. induction y as [|a y IH]; [reflexivity|].
  cbn [length repeat map2 map Rsum fold_right]. change (fold_right Rplus 0) with Rsum. rewrite IH. ring.
Qed.

(** the targets split into residual, prediction and weights *)
Lemma ridge_energy : forall L c norm H T B, 0 < norm -> Forall (fun h => length h = L) H ->
  length T = length H -> Forall (fun t => length t = c) T -> ridge_solution L c norm (plain H T) B ->
  size_sq T = total_sq T (outputs_of c B H) + size_sq (outputs_of c B H) + 2 * norm * size_sq B.
Proof.
  intros L c norm H T B Hn HF HL HT (SB & RB & _).
  assert (length (outputs_of c B H) = length H) as LY by (unfold outputs_of; now rewrite map_length).
  assert (Forall (fun y => length y = c) (outputs_of c B H)) as FY.
  { apply Forall_forall. intros y Hy. apply in_map_iff in Hy as (h & <- & _). now rewrite map_length, seq_length. }
  set (Z := repeat (repeat 0 c) (length H)).
  assert (Forall (fun t => length t = c) Z) as FZ.
  { apply Forall_forall. intros t Ht. apply repeat_spec in Ht as ->. apply repeat_length. }
  assert (length Z = length H) as LZ by apply repeat_length.
  assert (ridge_loss L c norm (plain H T) [] = ridge_loss L c norm (plain H T) B + ridge_loss L c norm (plain H Z) B) as Q.
  { rewrite !ridge_loss_cols by now apply plain_good. rewrite <- sum_add. apply sum_ext. intros k Hk.
    transitivity (loss1 L norm (plain H T) k (fun i => col B k i + - col B k i)).
    { assert (forall j, entry (nth j (@nil (list R)) []) k = col B k j + - col B k j) as E0.
      { intros j. rewrite Rplus_opp_r. destruct j, k; reflexivity. }
      unfold loss1. apply f_equal2.
      - apply nsum_map_ext. intros s _. apply f_equal. apply (f_equal (fun a => (a - _) ^ 2)). apply sum_ext; intros j Hj. apply f_equal. apply E0.
      - apply f_equal. apply sum_ext; intros j Hj. apply (f_equal (fun a => a ^ 2)). apply E0. }
    rewrite loss_expand.
    - apply f_equal. rewrite (HH_plain L norm H T Z) by auto. rewrite quad_spec. unfold loss1. rewrite Rplus_comm. apply f_equal2.
      + apply nsum_map_ext. intros s Hs. unfold plain in Hs. rewrite map2_combine in Hs. apply in_map_iff in Hs as ((h & t) & <- & Hs).
        apply in_combine_r in Hs. apply repeat_spec in Hs. subst t. unfold sm_w, sm_h, sm_t. cbn [fst snd].
        assert (vR (repeat 0 c) k = 0) as ->. { unfold vget. rewrite nth_repeat. reflexivity. }
        assert (dotS L h (fun i => - col B k i) = - dotS L h (col B k)) as ->; [|rring].
        unfold dotS. transitivity (S_ L (fun i => (-1) * (vR h i * col B k i))); [apply sum_ext; intros; rring|]. rewrite sum_scal. rring.
      + apply f_equal. apply sum_ext; intros; rring.
    - intros i Hi. unfold col. rewrite (proj1 (solves_msolves _ _ _ _ _) RB) by auto. rewrite spec_HT_mk, mget_mk by auto. reflexivity. }
  rewrite loss_zero_weights in Q by auto. rewrite !loss_predict in Q by auto.
  unfold Z in Q. rewrite <- LY in Q. rewrite total_zero in Q by auto. lra.
Qed.

Lemma outputs_lin2 : forall L c a b B1 B2 H, shape L c B1 -> shape L c B2 -> Forall (fun h => length h = L) H ->
  outputs_of c (map2 (lin2 a b) B1 B2) H = map2 (lin2 a b) (outputs_of c B1 H) (outputs_of c B2 H).
Proof.
  intros L c a b B1 B2 H [S1 S1'] [S2 S2'] HF. unfold outputs_of.
  induction HF as [|h H HL HF IH]; [reflexivity|]. cbn [map map2]. f_equal; [|exact IH].
  unfold lin2 at 2. rewrite map2_map_l, map2_map_r.
  assert (forall l : list nat, (forall k, In k l -> (k < c)%nat) -> map (predict1 (map2 (lin2 a b) B1 B2) h) l =
    map2 (fun p q => a * predict1 B1 h p + b * predict1 B2 h q) l l) as HH; [|apply HH; intros k Hk; apply in_seq in Hk; lia].
  induction l as [|k l IHl]; intros Hl; [reflexivity|]. cbn [map map2]. f_equal; [|apply IHl; intros; apply Hl; right; auto].
  assert (k < c)%nat as Hk by (apply Hl; left; auto). unfold predict1. rewrite !Rsum_S, HL.
  etransitivity; [|symmetry; etransitivity; [apply f_equal2; symmetry; apply sum_scal|symmetry; apply sum_add]]. apply sum_ext. intros j Hj.
  rewrite nth_map2 with (da := @nil R) (db := @nil R) by lia.
  rewrite (lin2_entry a b c) by (first [exact Hk | apply S1'; apply nth_In; lia | apply S2'; apply nth_In; lia]). rring.
Qed.

Lemma size_lin2 : forall A B, size_sq (map2 (lin2 1 (-1)) A B) = total_sq A B.
Proof.
  unfold size_sq, total_sq. induction A as [|a A IH]; intros [|b B]; try reflexivity.
  cbn [map2 map Rsum fold_right]. change (fold_right Rplus 0) with Rsum. rewrite IH. apply f_equal2; [|reflexivity].
  unfold lin2, sqd. clear. revert b. induction a as [|x a IH]; intros [|y b]; try reflexivity.
  cbn [map2 map Rsum fold_right]. change (fold_right Rplus 0) with Rsum. rewrite IH. ring.
Qed.

Section Train.
Context {SG : Sing} {BR : Brent} {SH : Shuffle}.

Lemma trained_hidden : forall e X T e', trained e X T e' -> Forall (fun h => length h = nneurons (s_neurons (e_net e))) (map (hidden e) X).
Proof. intros e X T e' H. apply Forall_forall. intros h Hh. apply in_map_iff in Hh as (x & <- & _). exact (hrow_length _ _ x (wf_groups _ (tr_wf _ _ _ _ H))). Qed.

Theorem energy_balance : forall e X T e' B Y, trained e X T e' -> s_B (e_net e') = Some B ->
  elm_predict e' (Arr2 (s_inputs (e_net e)) X) = Ok Y ->
  size_sq T = total_sq T Y + size_sq Y + 2 * s_norm (e_net e) * size_sq B.
Proof.
  intros e X T e' B Y HT EB EY.
  destruct (trained_inv _ _ _ _ HT) as (_ & _ & _ & _ & _ & _ & _ & WX & HG & _).
  destruct (trained_predict _ _ _ _ HT) as (B' & EB' & RS & P). rewrite EB' in EB. injection EB as ->. rewrite (P _ WX) in EY. injection EY as <-.
  destruct (tr_data _ _ _ _ HT) as (_ & HL & HF).
  eapply ridge_energy; [exact (tr_norm _ _ _ _ HT)|eapply trained_hidden; exact HT|now rewrite map_length|exact HF|exact RS].
Qed.

Theorem target_stability : forall e X T1 T2 e1 e2 B1 B2 Y1 Y2, trained e X T1 e1 -> trained e X T2 e2 ->
  s_B (e_net e1) = Some B1 -> s_B (e_net e2) = Some B2 ->
  elm_predict e1 (Arr2 (s_inputs (e_net e)) X) = Ok Y1 -> elm_predict e2 (Arr2 (s_inputs (e_net e)) X) = Ok Y2 ->
  total_sq Y1 Y2 + 2 * s_norm (e_net e) * total_sq B1 B2 <= total_sq T1 T2.
Proof.
  intros e X T1 T2 e1 e2 B1 B2 Y1 Y2 H1 H2 EB1 EB2 E1 E2.
  destruct (trained_inv _ _ _ _ H1) as (_ & _ & _ & _ & _ & _ & _ & WX & HG & _).
  destruct (trained_predict _ _ _ _ H1) as (B' & EB' & RS1 & P1). rewrite EB' in EB1. injection EB1 as ->. rewrite (P1 _ WX) in E1. injection E1 as <-.
  destruct (trained_predict _ _ _ _ H2) as (B' & EB'' & RS2 & P2). rewrite EB'' in EB2. injection EB2 as ->. rewrite (P2 _ WX) in E2. injection E2 as <-.
  destruct (tr_data _ _ _ _ H1) as (_ & L1 & F1). destruct (tr_data _ _ _ _ H2) as (_ & L2 & F2).
  pose proof (trained_hidden _ _ _ _ H1) as HF. set (H := map (hidden e) X) in *.
  assert (length T1 = length H) as L1' by (unfold H; now rewrite map_length). assert (length T2 = length H) as L2' by (unfold H; now rewrite map_length).
  pose proof (ridge_lin2 _ _ _ H T1 T2 B1 B2 1 (-1) (tr_norm _ _ _ _ H1) HF L1' L2' F1 F2 RS1 RS2) as R3.
  assert (length (map2 (lin2 1 (-1)) T1 T2) = length H) as L3 by (rewrite map2_length; lia).
  assert (Forall (fun t => length t = s_outputs (e_net e)) (map2 (lin2 1 (-1)) T1 T2)) as F3.
  { apply Forall_forall. intros r Hr. rewrite map2_combine in Hr. apply in_map_iff in Hr as ((u & v) & <- & Hr). rewrite Forall_forall in F1, F2.
    pose proof (F1 u (in_combine_l _ _ _ _ Hr)). pose proof (F2 v (in_combine_r _ _ _ _ Hr)). unfold lin2. rewrite map2_length. cbn [fst snd]. lia. }
  pose proof (ridge_energy _ _ _ H _ _ (tr_norm _ _ _ _ H1) HF L3 F3 R3) as Q.
  rewrite (outputs_lin2 _ _ 1 (-1) B1 B2 H (proj1 RS1) (proj1 RS2) HF) in Q. rewrite !size_lin2 in Q.
  match type of Q with _ = ?r + _ + _ => assert (0 <= r) by apply total_nonneg end. lra.
Qed.

(** ** the whole data set k times *)
Lemma plain_times : forall k H T, length H = length T ->
  plain (concat (repeat H k)) (concat (repeat T k)) = concat (repeat (plain H T) k).
Proof.
  intros k H T HL. induction k as [|k IH]; [reflexivity|]. cbn [repeat concat]. rewrite <- IH. unfold plain.
  rewrite !map2_combine, <- map_app. apply f_equal. clear IH. generalize (concat (repeat H k)), (concat (repeat T k)). intros H' T'. revert T HL. induction H as [|h H IH]; intros [|t T] HL; try discriminate; [reflexivity|].
  cbn [app combine]. f_equal. apply IH. now injection HL.
Qed.
Lemma sum_times : forall {A} (f : A -> R) k l, nsum (map f (concat (repeat l k))) = INR k * nsum (map f l).
Proof.
  intros A f k l. induction k as [|k IH]; [cbn; ring|]. cbn [repeat concat]. rewrite map_app, nsum_app, S_INR. rewrite IH. rring.
Qed.
Lemma map_times : forall {A B} (f : A -> B) k l, map f (concat (repeat l k)) = concat (repeat (map f l) k).
Proof. intros. rewrite concat_map. f_equal. induction k; cbn; congruence. Qed.

Theorem repeated_data : forall e1 e2 X T k e1' e2', (0 < k)%nat -> trained e1 X T e1' ->
  trained e2 (concat (repeat X k)) (concat (repeat T k)) e2' ->
  s_neurons (e_net e2) = s_neurons (e_net e1) -> s_inputs (e_net e2) = s_inputs (e_net e1) -> s_outputs (e_net e2) = s_outputs (e_net e1) ->
  s_norm (e_net e2) = INR k * s_norm (e_net e1) ->
  s_B (e_net e2') = s_B (e_net e1').
Proof.
  intros e1 e2 X T k e1' e2' Hk H1 H2 EN EI EO En.
  destruct (trained_predict _ _ _ _ H1) as (B1 & EB1 & R1 & _). destruct (trained_predict _ _ _ _ H2) as (B2 & EB2 & R2 & _).
  rewrite EB1, EB2. apply f_equal. symmetry. destruct R2 as (_ & _ & U2 & _). destruct R1 as (S1 & Q1 & _).
  assert (hidden e2 = hidden e1) as EH by (unfold hidden; now rewrite EN).
  destruct (tr_data _ _ _ _ H1) as (_ & L1 & _). rewrite EH, EN, EO, En in U2. apply U2; [exact S1|].
  apply solves_msolves. apply (proj1 (solves_msolves _ _ _ _ _)) in Q1. rewrite map_times, plain_times by now rewrite map_length.
  intros i q Hi Hq. specialize (Q1 i q Hi Hq). rewrite spec_HT_mk, mget_mk in * by auto.
  rewrite sum_times. rewrite <- Q1, <- sum_scal. apply sum_ext. intros j Hj. rewrite !spec_HH_mk, !mget_mk by auto. rewrite sum_times.
  destruct (i =? j)%nat; rring.
Qed.
End Train.
