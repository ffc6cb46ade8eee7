(** What k copies of one more sample change in a trained model (C106; reals). *)
From Coq Require Import Reals Lra Permutation.
From Verif Require Import Base Num Mat LinAlg Slfn Strs Elm Mrsr Search Mss Hpelm MatFacts SplitProofs Spec ElmFacts RLin
  AccProofs TrainProofs RidgeProofs WfProofs TrainThms IncrThms SolveThms RangeThms NeuronThms ErrThms SearchThms SelectThms RankThms SubThms FeatureThms RangeTrain Spec RegMore RegMore2 LooThms Stability.
Local Open Scope R_scope.
#[local] Existing Instance NumR.

Lemma Rsum_app : forall l r, Rsum (l ++ r) = Rsum l + Rsum r.
Proof. unfold Rsum. induction l as [|a l IH]; intros r; cbn [app fold_right]; [lra|]. rewrite IH. lra. Qed.
Lemma Rsum_rep : forall k v, Rsum (repeat v k) = INR k * v.
Proof. induction k as [|k IH]; intros v; [cbn; lra|]. cbn [repeat]. change (Rsum (v :: repeat v k)) with (v + Rsum (repeat v k)). rewrite IH, S_INR. ring. Qed.
Lemma map_rep : forall {A B} (f : A -> B) a k, map f (repeat a k) = repeat (f a) k.
Proof. induction k; cbn; congruence. Qed.
Lemma plain_copies : forall k H T h t, length H = length T -> plain (H ++ repeat h k) (T ++ repeat t k) = plain H T ++ repeat (1, h, t) k.
Proof.
  intros k. unfold plain. induction H as [|x H IH]; intros [|y T] h t E; try discriminate.
  - cbn [app map2]. induction k as [|k IH]; [reflexivity|]. cbn [repeat map2]. exact (f_equal (cons _) IH).
  - cbn [app map2]. refine (f_equal (cons _) _). apply IH. cbn in E. lia.
Qed.
Lemma HH_copies : forall L norm ss h t k i j, (i < L)%nat -> (j < L)%nat ->
  mR (spec_HH L norm (ss ++ repeat (1, h, t) k)) i j = mR (spec_HH L norm ss) i j + INR k * (entry h i * entry h j).
Proof.
  intros. rewrite !spec_HH_entry by auto. rewrite map_app, map_rep, Rsum_app, Rsum_rep. assert (sm_w (1, h, t) * entry (sm_h (1, h, t)) i * entry (sm_h (1, h, t)) j = entry h i * entry h j) as -> by (unfold sm_w, sm_h; cbn [fst snd]; rring). symmetry. apply Rplus_assoc.
Qed.
Lemma HT_copies : forall L c ss h t k i j, (i < L)%nat -> (j < c)%nat ->
  mR (spec_HT L c (ss ++ repeat (1, h, t) k)) i j = mR (spec_HT L c ss) i j + INR k * (entry h i * entry t j).
Proof.
  intros. rewrite !spec_HT_entry by auto. rewrite map_app, map_rep, Rsum_app, Rsum_rep. assert (sm_w (1, h, t) * entry (sm_h (1, h, t)) i * entry (sm_t (1, h, t)) j = entry h i * entry t j) as -> by (unfold sm_w, sm_h, sm_t; cbn [fst snd]; rring). reflexivity.
Qed.
Lemma zero_or : forall L (q : nat -> R), (exists i, (i < L)%nat /\ q i <> 0) \/ (forall i, (i < L)%nat -> q i = 0).
Proof.
  induction L as [|L IH]; intros q; [right; intros; lia|]. destruct (IH q) as [(i & Hi & N)|Z]; [left; exists i; split; [lia|exact N]|].
  destruct (Req_EM_T (q L) 0) as [E|N]; [right|left; exists L; split; [lia|exact N]]. intros i Hi. destruct (Nat.eq_dec i L) as [->|D]; [exact E|apply Z; lia].
Qed.

Section Copies.
Variables (L : nat) (norm : R) (ss : list sample) (h : list R) (q : nat -> R).
Hypothesis Hn : 0 < norm.
Hypothesis Hg : nonneg ss.
Hypothesis Hh : length h = L.
Hypothesis Hq : forall i, (i < L)%nat -> S_ L (fun j => mR (spec_HH L norm ss) i j * q j) = entry h i.
Definition lev : R := S_ L (fun j => entry h j * q j).
Lemma lev_pos : 0 <= lev /\ (lev = 0 -> forall i, (i < L)%nat -> entry h i = 0).
Proof.
  assert (lev = quad L (mR (spec_HH L norm ss)) q) as E.
  { unfold lev, quad. apply sum_ext. intros i Hi. rewrite <- Hq by auto. rewrite <- sum_scal_r. apply sum_ext. intros. rring. }
  destruct (zero_or L q) as [X|Z].
  - pose proof (PD_spec L norm ss Hn Hg q X) as P. rewrite <- E in P. split; [rlra|]. intros C. exfalso. rlra.
  - split; [unfold lev; rewrite sum_zero; [apply Rle_refl|]; intros i Hi; rewrite Z by auto; rring|]. intros _ i Hi. rewrite <- Hq by auto. apply sum_zero. intros j Hj. rewrite Z by auto. rring.
Qed.
Lemma predict1_S : forall B k, predict1 B h k = S_ L (fun j => entry h j * mR B j k).
Proof. intros. unfold predict1. rewrite Rsum_S, Hh. reflexivity. Qed.
Lemma copies_weights : forall c t k B1 B2, ridge_solution L c norm ss B1 -> ridge_solution L c norm (ss ++ repeat (1, h, t) k) B2 ->
  forall i j, (i < L)%nat -> (j < c)%nat -> mR B2 i j = mR B1 i j + q i * (INR k / (1 + INR k * lev) * (entry t j - predict1 B1 h j)).
Proof.
  intros c t k B1 B2 R1 R2 i j Hi Hj. destruct R1 as (_ & R1 & _), R2 as (_ & R2 & _). apply (proj1 (solves_msolves _ _ _ _ _)) in R1. apply (proj1 (solves_msolves _ _ _ _ _)) in R2.
  assert (nonneg (ss ++ repeat (1, h, t) k)) as Hg'.
  { intros s Hs. apply in_app_or in Hs as [Hs|Hs]; [auto|]. apply repeat_spec in Hs. subst s. cbn. lra. }
  pose proof (PD_spec L norm _ Hn Hg') as PDA. destruct lev_pos as (LP & _).
  assert (0 <= INR k * lev) as KL by (apply Rmult_le_pos; [apply pos_INR|exact LP]).
  set (d := entry t j - predict1 B1 h j). set (w := INR k / (1 + INR k * lev)).
  assert (w * (1 + INR k * lev) = INR k) as EW by (unfold w; field; rlra).
  apply (PD_inj L _ (fun i => mR B2 i j) (fun i => mR B1 i j + q i * (w * d)) PDA); [|exact Hi]. clear i Hi. intros i Hi.
  rewrite (R2 i j Hi Hj). rewrite HT_copies by auto. rewrite <- (R1 i j Hi Hj).
  transitivity (S_ L (fun l => mR (spec_HH L norm ss) i l * mR B1 l j) + S_ L (fun l => mR (spec_HH L norm ss) i l * q l) * (w * d) +
     INR k * entry h i * (S_ L (fun l => entry h l * mR B1 l j) + S_ L (fun l => entry h l * q l) * (w * d))).
  - rewrite Hq by auto. rewrite <- predict1_S. change (S_ L (fun l => entry h l * q l)) with lev. clearbody w. 
    transitivity (S_ L (fun l => mR (spec_HH L norm ss) i l * mR B1 l j) + entry h i * (INR k * predict1 B1 h j + w * (1 + INR k * lev) * d)); [rewrite EW; unfold d; rring|rring].
  - rewrite <- !sum_scal_r, <- sum_add, <- sum_add, <- sum_scal, <- sum_add. apply sum_ext. intros l Hl. rewrite HH_copies by auto. rring.
Qed.
Lemma copies_own : forall c t k B1 B2, ridge_solution L c norm ss B1 -> ridge_solution L c norm (ss ++ repeat (1, h, t) k) B2 ->
  forall j, (j < c)%nat -> (1 + INR k * lev) * (entry t j - predict1 B2 h j) = entry t j - predict1 B1 h j.
Proof.
  intros c t k B1 B2 R1 R2 j Hj. destruct lev_pos as (LP & _).
  assert (0 <= INR k * lev) as KL by (apply Rmult_le_pos; [apply pos_INR|exact LP]).
  set (d := entry t j - predict1 B1 h j). set (w := INR k / (1 + INR k * lev)).
  assert (w * (1 + INR k * lev) = INR k) as EW by (unfold w; field; rlra).
  assert (predict1 B2 h j = predict1 B1 h j + lev * (w * d)) as E.
  { rewrite !predict1_S. unfold lev. rewrite <- sum_scal_r, <- sum_add. apply sum_ext. intros i Hi. rewrite (copies_weights c t k B1 B2 R1 R2 i j Hi Hj). fold w d. rring. }
  rewrite E. transitivity ((1 + INR k * lev) * d - lev * (w * (1 + INR k * lev)) * d); [unfold d; rring|]. rewrite EW. rring.
Qed.
End Copies.

Section Train.
Context {SG : Sing} {BR : Brent} {SH : Shuffle}.
Lemma direction : forall L norm ss (h : list R), 0 < norm -> nonneg ss -> exists q : nat -> R, forall i, (i < L)%nat -> S_ L (fun j => mR (spec_HH L norm ss) i j * q j) = entry h i.
Proof.
  intros L norm ss h Hn Hp. pose proof (PD_spec L norm ss Hn Hp) as PDA.
  assert (is_mat L L (spec_HH L norm ss)) as IM by (rewrite spec_HH_mk; apply is_mat_mk).
  assert (forall i j, (i < L)%nat -> (j < L)%nat -> mR (spec_HH L norm ss) i j = mR (spec_HH L norm ss) j i) as SY.
  { intros i j Hi Hj. rewrite !spec_HH_entry by auto. rewrite (Nat.eqb_sym j i). f_equal. f_equal. apply map_ext. intros s. rring. }
  destruct (pinv_solves L (spec_HH L norm ss) IM (PD_minj _ _ PDA)) as (SP & MP & _).
  { apply PD_minj. apply (PD_ext L (mR (spec_HH L norm ss))); auto. }
  assert (exists P : list (list R), msolves L L (spec_HH L norm ss) P (eye L)) as (P & MP') by (eexists; exact MP). clear MP SP.
  exists (fun a => S_ L (fun b => mR P a b * entry h b)). intros i Hi.
  transitivity (S_ L (fun b => S_ L (fun j => mR (spec_HH L norm ss) i j * mR P j b) * entry h b)).
  - transitivity (S_ L (fun j => S_ L (fun b => mR (spec_HH L norm ss) i j * mR P j b * entry h b))).
    + apply sum_ext; intros. rewrite <- sum_scal. apply sum_ext; intros; rring.
    + rewrite sum_swap. apply sum_ext; intros. now rewrite sum_scal_r.
  - transitivity (S_ L (fun b => if (b =? i)%nat then entry h b else 0)); [|apply (sum_delta L i (fun b => entry h b)); auto].
    apply sum_ext. intros b Hb. rewrite MP' by auto. rewrite mget_eye by auto. rewrite (Nat.eqb_sym i b). destruct (b =? i)%nat; rring.
Qed.
Theorem one_more : forall e X x, wf_net (e_net e) -> 0 < s_norm (e_net e) -> exists (q : nat -> R) (a : R), 0 <= a /\
  (forall h, elm_project e (Arr2 (s_inputs (e_net e)) [x]) = Ok [h] -> a = 0 -> forall i, (i < length h)%nat -> entry h i = 0) /\
  forall T t k e1 e2 B1 B2 y1 y2, trained e X T e1 -> trained e (X ++ repeat x k) (T ++ repeat t k) e2 ->
    s_B (e_net e1) = Some B1 -> s_B (e_net e2) = Some B2 ->
    elm_predict e1 (Arr2 (s_inputs (e_net e)) [x]) = Ok [y1] -> elm_predict e2 (Arr2 (s_inputs (e_net e)) [x]) = Ok [y2] ->
    forall j, (j < s_outputs (e_net e))%nat -> (1 + INR k * a) * (entry t j - entry y2 j) = entry t j - entry y1 j /\
      forall i, (i < nneurons (s_neurons (e_net e)))%nat -> entry (nth i B2 []) j = entry (nth i B1 []) j + q i * (INR k / (1 + INR k * a) * (entry t j - entry y1 j)).
Proof.
  intros e X x HW Hn. set (L := nneurons (s_neurons (e_net e))). set (h := hidden e x).
  assert (forall z, length (hidden e z) = L) as HL by (intros z; exact (hrow_length _ _ z (wf_groups _ HW))).
  set (T0 := map (fun _ => @nil R) X). set (ss := plain (map (hidden e) X) T0).
  assert (forall T, nonneg (plain (map (hidden e) X) T)) as Hp.
  { intros T s Hs. apply (plain_good L) in Hs; [apply Hs|]. apply Forall_map. apply Forall_forall. intros z _. apply HL. }
  destruct (direction L (s_norm (e_net e)) ss h Hn (Hp T0)) as (q & Hq). exists q, (lev L h q).
  destruct (lev_pos L (s_norm (e_net e)) ss h q Hn (Hp T0) Hq) as (A & B). split; [exact A|]. split.
  - intros h' E Z i Hi. destruct (elm_project_inv _ _ _ E) as (_ & _ & Eh). injection Eh as ->. apply B; [exact Z|]. rewrite <- (HL x). exact Hi.
  - intros T t k e1 e2 B1 B2 y1 y2 T1 T2 EB1 EB2 EP1 EP2.
    destruct (trained_predict _ _ _ _ T1) as (B1' & Q1 & R1 & P1). rewrite EB1 in Q1. injection Q1 as <-.
    destruct (trained_predict _ _ _ _ T2) as (B2' & Q2 & R2 & P2). rewrite EB2 in Q2. injection Q2 as <-.
    destruct (tr_data _ _ _ _ T1) as (_ & ELen & _).
    assert (wide (s_inputs (e_net e)) [x]) as WX by (apply predict_wide in EP1; apply EP1).
    rewrite P1 in EP1 by exact WX. injection EP1 as <-. rewrite P2 in EP2 by exact WX. injection EP2 as <-.
    rewrite map_app, map_rep, plain_copies in R2 by (rewrite map_length; exact ELen). fold h L in R1, R2 |- *.
    assert (spec_HH L (s_norm (e_net e)) (plain (map (hidden e) X) T) = spec_HH L (s_norm (e_net e)) ss) as EH by (apply HH_plain; [|unfold T0]; now rewrite ?map_length).
    rewrite <- EH in Hq. intros j Hj.
    assert (forall B, entry (map (predict1 B h) (seq 0 (s_outputs (e_net e)))) j = predict1 B h j) as EE.
    { intros B'. unfold entry. rewrite (nth_map_lt _ _ _ 0%nat) by (rewrite seq_length; exact Hj). now rewrite seq_nth. }
    rewrite !EE. split.
    + exact (copies_own L _ _ h q Hn (Hp T) (HL x) Hq _ t k B1 B2 R1 R2 j Hj).
    + intros i Hi. exact (copies_weights L _ _ h q Hn (Hp T) (HL x) Hq _ t k B1 B2 R1 R2 i j Hi Hj).
Qed.
(** samples that are predicted exactly change nothing *)
Theorem known_samples : forall e X T e1 X' T' e2, trained e X T e1 -> elm_predict e1 (Arr2 (s_inputs (e_net e)) X') = Ok T' ->
  trained e (X ++ X') (T ++ T') e2 -> s_B (e_net e2) = s_B (e_net e1).
Proof.
  intros e X T e1 X' T' e2 T1 EP T2. destruct (trained_predict _ _ _ _ T1) as (B1 & Q1 & R1 & P1). destruct (trained_predict _ _ _ _ T2) as (B2 & Q2 & R2 & P2).
  rewrite Q1, Q2. apply f_equal. symmetry. pose proof (proj2 (predict_wide _ _ _ _ EP)) as WX. rewrite P1 in EP by exact WX. injection EP as <-.
  destruct R2 as (_ & _ & U2 & _). destruct R1 as (S1 & M1 & _). apply U2; [exact S1|]. apply solves_msolves. apply (proj1 (solves_msolves _ _ _ _ _)) in M1.
  set (L := nneurons (s_neurons (e_net e))) in *. set (c := s_outputs (e_net e)) in *.
  assert (forall z, length (hidden e z) = L) as HL by (intros z; exact (hrow_length _ _ z (wf_groups _ (tr_wf _ _ _ _ T1)))).
  destruct (tr_data _ _ _ _ T1) as (_ & EL & _). rewrite map_app.
  assert (forall Z, (forall z, In z Z -> length z = L) -> forall H0 T0, length H0 = length T0 -> msolves L c (spec_HH L (s_norm (e_net e)) (plain H0 T0)) B1 (spec_HT L c (plain H0 T0)) ->
    msolves L c (spec_HH L (s_norm (e_net e)) (plain (H0 ++ Z) (T0 ++ outputs_of c B1 Z))) B1 (spec_HT L c (plain (H0 ++ Z) (T0 ++ outputs_of c B1 Z)))) as GO.
  { induction Z as [|z Z IH]; intros HZ H0 T0 E0 M; [now rewrite !app_nil_r|].
    replace (H0 ++ z :: Z) with ((H0 ++ [z]) ++ Z) by (rewrite <- app_assoc; reflexivity).
    change (outputs_of c B1 (z :: Z)) with (map (predict1 B1 z) (seq 0 c) :: outputs_of c B1 Z). set (y := map (predict1 B1 z) (seq 0 c)).
    replace (T0 ++ y :: outputs_of c B1 Z) with ((T0 ++ [y]) ++ outputs_of c B1 Z) by (rewrite <- app_assoc; reflexivity).
    apply IH; [intros z' Hz; apply HZ; now right|rewrite !app_length; cbn; lia|].
    pose proof (plain_copies 1 H0 T0 z y E0) as PC. change (repeat z 1) with [z] in PC. change (repeat y 1) with [y] in PC. rewrite PC. intros i j Hi Hj.
    refine (eq_trans _ (eq_sym (HT_copies L c (plain H0 T0) z y 1 i j Hi Hj))). rewrite <- (M i j Hi Hj).
    assert (entry y j = S_ L (fun l => entry z l * mR B1 l j)) as -> by (unfold y, entry; rewrite (nth_map_lt _ _ _ 0%nat) by (rewrite seq_length; exact Hj); rewrite seq_nth by exact Hj; apply (predict1_S L z (HZ z (or_introl eq_refl)))).
    rewrite <- !sum_scal, <- sum_add. apply sum_ext. intros l Hl. transitivity ((mR (spec_HH L (s_norm (e_net e)) (plain H0 T0)) i l + INR 1 * (entry z i * entry z l)) * mR B1 l j); [refine (f_equal (fun a => a * mR B1 l j) (HH_copies L _ (plain H0 T0) z y 1 i l Hi Hl))|]. rring. }
  apply GO; auto. 
  - intros z Hz. apply in_map_iff in Hz as (z' & <- & _). apply HL.
  - now rewrite map_length.
Qed.
Lemma total_app : forall T1 Y1 T2 Y2, length T1 = length Y1 -> total_sq (T1 ++ T2) (Y1 ++ Y2) = total_sq T1 Y1 + total_sq T2 Y2.
Proof.
  unfold total_sq. intros T1. induction T1 as [|t T1 IH]; intros [|y Y1] T2 Y2 E; try discriminate; cbn [app map2]; [unfold Rsum at 2; cbn; lra|].
  cbn [Rsum fold_right]. change (fold_right Rplus 0) with Rsum. rewrite IH by (cbn in E; lia). lra.
Qed.
(** data that are added are met at least as closely afterwards; the objective on the old data can only rise *)
Theorem new_data : forall e X T X' T' e1 e2 B1 B2 O1 O2 N1 N2, trained e X T e1 -> trained e (X ++ X') (T ++ T') e2 ->
  s_B (e_net e1) = Some B1 -> s_B (e_net e2) = Some B2 ->
  elm_predict e1 (Arr2 (s_inputs (e_net e)) X) = Ok O1 -> elm_predict e2 (Arr2 (s_inputs (e_net e)) X) = Ok O2 ->
  elm_predict e1 (Arr2 (s_inputs (e_net e)) X') = Ok N1 -> elm_predict e2 (Arr2 (s_inputs (e_net e)) X') = Ok N2 ->
  let rise := total_sq T O2 + s_norm (e_net e) * size_sq B2 - (total_sq T O1 + s_norm (e_net e) * size_sq B1) in
  0 <= rise /\ rise <= total_sq T' N1 - total_sq T' N2.
Proof.
  intros e X T X' T' e1 e2 B1 B2 O1 O2 N1 N2 T1 T2 EB1 EB2 P1 P2 P3 P4 rise.
  destruct (trained_predict _ _ _ _ T1) as (B1' & Q1 & R1 & E1). rewrite EB1 in Q1. injection Q1 as <-.
  destruct (trained_predict _ _ _ _ T2) as (B2' & Q2 & R2 & E2). rewrite EB2 in Q2. injection Q2 as <-.
  pose proof (proj2 (predict_wide _ _ _ _ P1)) as WX. pose proof (proj2 (predict_wide _ _ _ _ P3)) as WX'.
  rewrite E1 in P1, P3 by auto. rewrite E2 in P2, P4 by auto. injection P1 as <-. injection P2 as <-. injection P3 as <-. injection P4 as <-.
  destruct (tr_data _ _ _ _ T1) as (_ & EL & W1). destruct (tr_data _ _ _ _ T2) as (_ & _ & W2).
  destruct R1 as (S1 & _ & _ & M1), R2 as (S2 & _ & _ & M2). specialize (M1 B2). specialize (M2 B1).
  rewrite !loss_predict in M1, M2 by auto. rewrite map_app in M2. unfold outputs_of in M2. rewrite !map_app in M2.
  rewrite !total_app in M2 by (rewrite !map_length; auto). unfold rise. unfold outputs_of in *. split; rlra.
Qed.
End Train.
