(** Cross-validation with the ranking of mrsr (reals). *)
From Coq Require Import Reals Lra Permutation.
From Verif Require Import Base Num Mat LinAlg Slfn Strs Elm Mrsr Search Mss MatFacts SplitProofs Spec ElmFacts RLin
  AccProofs TrainProofs RidgeProofs WfProofs TrainThms IncrThms SolveThms NeuronThms ErrThms SearchThms SelectThms RankThms SubThms MssThms LooThms SelThms FoldThms CvThms WorksThms MrsrSpec MrsrPath OpWorks.
Local Open Scope R_scope.
#[local] Existing Instance NumR.

(** the ranking of the validation part of every split exists *)
Section Works.
Context {SG : @Sing NumR} {BR : @Brent NumR} {SH : Shuffle}.
Definition fold_ranking (e : elm) (N k : nat) (H T : list (list R)) : Prop :=
  e_op e = true /\ (s_outputs (e_net e) < 10)%nat /\
  forall i, (i < k)%nat -> let ix := val_part (fold_parts (length H) k i) in
    exists r, @mrsr NumR SG (pick H ix) (@rsel NumR T ix) N (s_outputs (e_net e)) (ranked_size e N) = Ok r.

Lemma build_folds_op : forall e0 X T H k, wf_net (e_net e0) -> project (e_net e0) X = Ok H -> length X = length T ->
  wide (s_outputs (e_net e0)) T -> (2 <= k)%nat -> (0 < getL (e_net e0))%nat -> fold_ranking e0 (getL (e_net e0)) k H T ->
  forall is_ e L0, (forall i, In i is_ -> (i < k)%nat) -> e = with_net e0 (e_net e) -> like (e_net e0) (e_net e) ->
  exists e' r, build_folds e X T (length X) k is_ L0 = (e', Ok r).
Proof.
  intros e0 X T H k HW0 HP0 HL WT Hk HG HS. pose proof (project_inv _ _ _ HP0) as (HU & WX & EH).
  assert (length H = length X) as HLH by (rewrite EH; apply map_length).
  induction is_ as [|i r IH]; intros e L0 Hi He Hl.
  - cbn [build_folds]. eauto.
  - cbn [build_folds]. destruct (fold_parts (length X) k i) as [[tr vl] ts] eqn:Ef.
    destruct Hl as (L1 & L2 & L3 & L4 & L5). assert (i < k)%nat as Hik by (apply Hi; left; auto).
    assert (forall n, In n tr \/ In n vl \/ In n ts -> (n < length X)%nat) as Hin.
    { intros n Hn. apply (fold_parts_in (length X) k i n Hk Hik). cbn [num NumR] in *. rewrite Ef. exact Hn. }
    set (s0 := reset (e_net e)) in *.
    assert (project s0 X = Ok H) as HP. { rewrite (project_with (e_net e0)); auto. }
    assert (Acc s0 []) as HA by reflexivity.
    assert (usable s0) as HU0. { unfold usable. change (s_neurons s0) with (s_neurons (e_net e)). change (s_inputs s0) with (s_inputs (e_net e)). rewrite L1, L2. exact HU. }
    pose proof (pick_project s0 X H tr HP ltac:(auto)) as Ptr. pose proof (project_inv _ _ _ Ptr) as (_ & Wtr & Etr).
    assert (wide (s_outputs s0) (@rsel NumR T tr)) as Wt.
    { change (s_outputs s0) with (s_outputs (e_net e)). rewrite L3. apply (pick_wide _ _ tr WT). intros n Hn. rewrite <- HL. auto. }
    assert (length (@rsel NumR X tr) = length (@rsel NumR T tr)) as Hxt by (unfold rsel; now rewrite !map_length).
    assert (length (repeat 1 (length tr)) = length (@rsel NumR T tr)) as Hrt by (rewrite repeat_length; unfold rsel; now rewrite map_length).
    destruct (add_batch_total s0 (@rsel NumR X tr) (@rsel NumR T tr) None (repeat 1 (length tr)) [] HA HU0 Wtr Wt Hxt Hrt) as (s1 & E1 & A1 & Es1 & N1).
    { intros w Hw. apply repeat_spec in Hw. lra. }
    { right. split; [reflexivity|]. unfold rsel. now rewrite map_length. }
    rewrite E1.
    assert (like (e_net e0) s1) as Hl1.
    { pose proof (wf_add_batch s0 (@rsel NumR X tr) (@rsel NumR T tr) None (wf_reset _ L5)) as Q. rewrite E1 in Q. cbn [fst] in Q.
      rewrite Es1 in Q |- *. split; [exact L1|]. split; [exact L2|]. split; [exact L3|]. split; [exact L4|]. exact Q. }
    pose proof (like_getL _ _ HW0 Hl1) as EL1. pose proof Hl1 as (M1 & M2 & M3 & M4 & M5).
    rewrite (get_corr_acc _ _ A1 N1). cbn [need_corr rbind].
    assert (forall ix, (forall n, In n ix -> (n < length X)%nat) -> project s1 (@rsel NumR X ix) = Ok (pick H ix)) as PP.
    { intros ix Hix. apply pick_project; auto. rewrite (project_with (e_net e0)); auto. }
    rewrite (PP vl ltac:(auto)), (PP ts ltac:(auto)). cbn [rbind].
    destruct HS as (HS1 & HS2 & HS3). destruct (HS3 i Hik) as [rr Hr]. unfold val_part in Hr. assert (fold_parts (length H) k i = (tr, vl, ts)) as Ef' by (rewrite <- Ef; f_equal; exact HLH). cbn [num NumR] in *. rewrite Ef' in Hr. cbn [fst snd] in Hr.
    destruct (op_ranking_ok (with_net e s1) i (getL s1) (pick H vl) (@rsel NumR T vl)) as [rk Er].
    { unfold op_ranking. rewrite He. cbn [e_op e_net with_net]. rewrite M3, EL1. split; [exact HS1|]. split; [exact HS2|].
      exists rr. exact Hr. }
    rewrite Er. cbn [rbind fst snd].
    match goal with |- context [build_folds _ X T _ k r ?L] => destruct (IH (with_net e s1) L) as (e2 & [fds2 L2'] & Eb) end.
    { intros n Hn. apply Hi; right; auto. } { rewrite He. reflexivity. } { exact Hl1. }
    rewrite Eb. eauto.
Qed.

Theorem train_cv_op : forall e X T args kw k e1 H, shuffles -> wf_net (e_net e) -> 0 < s_norm (e_net e) -> (0 < s_outputs (e_net e))%nat ->
  parse_args e args kw = (e1, Ok tt) -> smem "V" args = false -> smem "CV" args = true -> kw_k kw = Some k -> (3 <= k <= length X)%nat ->
  ErrThms.plain (e_class e1) -> fold_ranking e1 (nneurons (s_neurons (e_net e))) k H T -> (3 <= ranked_size e1 (nneurons (s_neurons (e_net e))))%nat ->
  length X = length T -> wide (s_outputs (e_net e)) T ->
  elm_project e (Arr2 (s_inputs (e_net e)) X) = Ok H ->
  exists e' err_t, train e (Arr2 (s_inputs (e_net e)) X) (Arr2 (s_outputs (e_net e)) T) args kw = (e', Ok (Some err_t)).
Proof.
  intros e X T args kw k e1 H shuf HW Hn Ho HP HV HCV Ek Hk Hp HS HR HL WT HPr.
  pose proof (parse_args_ok _ _ _ _ HP) as EN.
  unfold train. rewrite checkdata_ok, HP, HV, HCV, Ek by auto.
  destruct (Nat.leb_spec 3 k) as [H3|]; [|lia]. unfold train_cv.
  assert (wf_net (e_net e1)) as HW1 by (rewrite EN; now apply wf_reset).
  assert (s_outputs (e_net e1) = s_outputs (e_net e) /\ s_inputs (e_net e1) = s_inputs (e_net e) /\ s_neurons (e_net e1) = s_neurons (e_net e) /\ s_norm (e_net e1) = s_norm (e_net e) /\ getL (e_net e1) = getL (e_net e)) as (Eo & Ei & Es & Em & El) by (rewrite EN, (wf_getL _ HW); repeat split; reflexivity).
  assert (project (e_net e1) X = Ok H) as HP1. { rewrite (project_with (e_net e)); auto. now apply elm_project_arr. }
  assert (length H = length X) as HLH by (destruct (elm_project_inv _ _ _ HPr) as (_ & _ & ->); apply map_length).
  rewrite <- (wf_getL _ HW), <- El in HR, HS.
  assert (ranked_size e1 (getL (e_net e1)) <= getL (e_net e1))%nat as HLe by (unfold ranked_size; destruct (e_op e1); [destruct (e_kmax e1)|]; lia).
  assert (forall i, In i (seq 0 k) -> (i < k)%nat) as Hsq by (intros i Hi; apply in_seq in Hi; lia).
  assert (like (e_net e1) (e_net e1)) as Hlk by (repeat split; auto; apply HW1).
  assert (e1 = with_net e1 (e_net e1)) as He1 by (destruct e1; reflexivity).
  destruct (build_folds_op e1 X T H k HW1 HP1 HL ltac:(rewrite Eo; exact WT) ltac:(lia) ltac:(lia) HS (seq 0 k) e1 (getL (e_net e1)) Hsq He1 Hlk) as (e2 & [fds L] & Eb).
  rewrite Eb.
  destruct (build_folds_spec shuf e1 X T H k HW1 HP1 HL ltac:(rewrite Eo; exact WT) ltac:(lia) (seq 0 k) e1 (getL (e_net e1)) e2 fds L Hsq He1 Hlk Eb) as (B1 & B2 & B3 & B4).
  assert (L = ranked_size e1 (getL (e_net e1))) as EL. { rewrite B4. destruct k; [lia|reflexivity]. } clear B4.
  pose proof (like_getL _ _ HW1 B2) as EG. destruct B2 as (M1 & M2 & M3 & M4 & M5).
  destruct (select_cv_ok e2 fds k L) as [[[[kopt rank] err_t] t] Esel].
  { rewrite B1. exact Hp. } { rewrite M3, Eo. exact Ho. } { lia. }
  { intros fd Hfd. apply (In_nth _ _ (mkFold [] [] [] [] [] [] [])) in Hfd as (i & Hi & <-).
    assert (length fds = k) as Lf by (rewrite <- (F2_length _ _ _ B3); apply seq_length).
    pose proof (F2_nth _ _ _ 0%nat (mkFold [] [] [] [] [] [] []) B3 i ltac:(rewrite seq_length; cbn [num NumR] in *; lia)) as Q. rewrite seq_nth in Q by (cbn [num NumR] in *; lia). cbn [Nat.add] in Q.
    destruct Q as (_ & _ & Q3 & Q4 & Q5 & Q6 & _). cbn [num NumR] in *. rewrite Q3, Q4, Q5, Q6.
    destruct (parts_nonempty (length H) k i ltac:(lia) ltac:(lia) ltac:(lia)) as [P1 P2]. rewrite M3, Eo.
    assert (forall n, In n (val_part (fold_parts (length H) k i)) \/ In n (test_part (fold_parts (length H) k i)) -> (n < length T)%nat) as Hin.
    { intros n Hn'. rewrite <- HL, <- HLH. apply (fold_parts_in (length H) k i n); try lia. right. exact Hn'. }
    unfold pick at 1 2 4 5 6 8. rewrite !map_length. split; [reflexivity|]. split; [apply pick_wide; auto|]. split; [intros C; apply map_eq_nil in C; auto|].
    split; [reflexivity|]. split; [apply pick_wide; auto|]. intros C; apply map_eq_nil in C; auto. }
  rewrite Esel. cbn [lift_err].
  destruct (select_cv_spec e2 H T k fds L kopt rank err_t t M5) as (ranks & full & S1 & S2 & S3 & S4 & _); auto.
  { rewrite M4, Em. exact Hn. } { apply plain_nn. rewrite B1. exact Hp. } { lia. } { rewrite EG. apply (wide_project _ _ _ HW1 HP1). }
  { eapply F2_impl; [|exact B3]. intros i fd (O1 & O2 & O3 & O4 & O5 & O6 & O7). unfold fold_ok. cbv zeta. rewrite EG, M3, M4.
    split; [exact O1|]. split; [exact O2|]. split; [exact O3|]. split; [exact O4|]. split; [exact O5|]. split; [exact O6|].
    intros HN0. rewrite B1 in HN0. specialize (O7 HN0). rewrite B1. destruct O7 as (Q1 & Q2 & Q3 & Q4). split; [exact Q1|]. split; [exact Q2|]. split; [exact Q3|].
    cbn [e_op e_net with_net]. rewrite M3. exact Q4. }
  { rewrite EL, B1. cbn [e_net with_net]. rewrite EG. reflexivity. }
  rewrite slice_firstn by lia.
  destruct (refit_fitted e e2 X T (firstn (Z.to_nat kopt) rank) H (refit e2 X T (firstn (Z.to_nat kopt) rank)) M5 ltac:(rewrite M4, Em; exact Hn)) as (F1 & _); try congruence; try exact HL; try exact HPr.
  { intros i Hi. destruct (S2 (k - 1)%nat ltac:(lia)) as ((_ & HRk) & _). apply HRk. rewrite <- S3. rewrite <- (firstn_skipn (Z.to_nat kopt) rank). apply in_or_app; auto. }
  unfold done. rewrite F1. eauto.
Qed.
Theorem train_cv_rankable : forall e X T args kw k e1 H, shuffles -> wf_net (e_net e) -> 0 < s_norm (e_net e) -> (0 < s_outputs (e_net e) < 10)%nat ->
  parse_args e args kw = (e1, Ok tt) -> smem "V" args = false -> smem "CV" args = true -> kw_k kw = Some k -> (3 <= k <= length X)%nat ->
  ErrThms.plain (e_class e1) -> e_op e1 = true -> (3 <= ranked_size e1 (nneurons (s_neurons (e_net e))))%nat ->
  length X = length T -> wide (s_outputs (e_net e)) T ->
  elm_project e (Arr2 (s_inputs (e_net e)) X) = Ok H ->
  (forall i, (i < k)%nat -> let ix := val_part (fold_parts (length X) k i) in
     rankable (length ix) (nneurons (s_neurons (e_net e))) (s_outputs (e_net e)) (pick H ix) (pick T ix) (ranked_size e1 (nneurons (s_neurons (e_net e))))) ->
  exists e' err_t, train e (Arr2 (s_inputs (e_net e)) X) (Arr2 (s_outputs (e_net e)) T) args kw = (e', Ok (Some err_t)).
Proof.
  intros e X T args kw k e1 H shuf HW Hn Ho HP HV HCV Ek Hk Hp Hop HR HL WT HPr RK.
  apply (train_cv_op e X T args kw k e1 H); auto; try lia. pose proof (parse_args_ok _ _ _ _ HP) as EN.
  assert (s_outputs (e_net e1) = s_outputs (e_net e)) as Eo by (rewrite EN; reflexivity).
  pose proof (projected e X H HW HPr) as (P1 & P2).
  split; [exact Hop|]. rewrite Eo. split; [lia|]. intros i Hi ix. specialize (RK i Hi). cbv zeta in RK. assert (ix = val_part (fold_parts (length X) k i)) as -> by (unfold ix; do 2 f_equal; exact P1).
  eapply mrsr_rankable; [| |exact RK].
  - split; [unfold pick; apply map_length|]. apply pick_wide; [exact P2|]. intros n Hn'. rewrite P1 || (cbn [num NumR] in *; rewrite P1). apply (fold_parts_in (length X) k i n); try lia. right; left. exact Hn'.
  - split; [unfold rsel; apply map_length|]. apply pick_wide; [exact WT|]. intros n Hn'. rewrite <- HL. apply (fold_parts_in (length X) k i n); try lia. right; left. exact Hn'.
Qed.
End Works.
