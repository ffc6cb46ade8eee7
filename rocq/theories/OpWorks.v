(** train with structure selection and the ranking of mrsr ('OP' with fewer than 10 outputs) succeeds
    if the full least squares solution uses enough neurons (reals). *)
From Coq Require Import Reals Lra Permutation.
From Verif Require Import Base Num Mat LinAlg Slfn Strs Elm Mrsr Search Mss MatFacts SplitProofs Spec ElmFacts RLin
  AccProofs TrainProofs RidgeProofs WfProofs TrainThms IncrThms SolveThms NeuronThms ErrThms SearchThms SelectThms RankThms SubThms MssThms LooThms SelThms FoldThms CvThms WorksThms MrsrSpec MrsrPath.
Local Open Scope R_scope.
#[local] Existing Instance NumR.

(** the neurons are independent and the least squares solution W of all of them gives a nonzero
    weight to all but one of the k neurons to be ranked, or more *)
Definition rankable (n m p : nat) (H T : list (list R)) (k : nat) : Prop :=
  (2 <= m)%nat /\ independent n m H /\ exists (W : nat -> nat -> R) used,
  (forall j o, (j < m)%nat -> (o < p)%nat -> total n (fun i => MrsrSpec.at_ H i j * (MrsrSpec.at_ T i o - total m (fun l => MrsrSpec.at_ H i l * W l o))) = 0) /\
  NoDup used /\ (forall j, In j used -> (j < m)%nat /\ exists o, (o < p)%nat /\ W j o <> 0) /\
  used <> [] /\ (Nat.min k m <= S (length used))%nat.

Section Works.
Context {SG : @Sing NumR} {BR : @Brent NumR} {SH : Shuffle}.

Lemma mrsr_rankable : forall n m p H T k, @is_mat NumR n m H -> @is_mat NumR n p T -> rankable n m p H T k -> exists r, @mrsr NumR SG H T m p k = Ok r.
Proof. intros n m p H T k HX HT (H2 & HI & W & used & A & B & C & D & E). eapply mrsr_succeeds; eauto. Qed.

Definition op_ranking (e : elm) (N : nat) (H T : list (list R)) : Prop :=
  e_op e = true /\ (s_outputs (e_net e) < 10)%nat /\ exists r, @mrsr NumR SG H T N (s_outputs (e_net e)) (ranked_size e N) = Ok r.

Lemma op_ranking_ok : forall e i N H T, op_ranking e N H T -> exists r, ranking e i N H T = Ok (r, ranked_size e N).
Proof.
  intros e i N H T (Ho & Hp & r & Er). unfold ranking. unfold ranked_size in *. rewrite Ho in *. apply Nat.ltb_lt in Hp. rewrite Hp, Er. cbn [rbind]. eauto.
Qed.

Lemma select_v_op : forall e ss Xv Tv Hv, Acc (e_net e) ss -> s_HH (e_net e) <> None -> ErrThms.plain (e_class e) ->
  (0 < s_outputs (e_net e))%nat -> project (e_net e) Xv = Ok Hv -> length Xv = length Tv -> wide (s_outputs (e_net e)) Tv -> Tv <> [] ->
  op_ranking e (getL (e_net e)) Hv Tv -> (0 < ranked_size e (getL (e_net e)))%nat -> exists r, select_v e Xv Tv = Ok r.
Proof.
  intros e ss Xv Tv Hv HA HH Hp Ho Ep HL WT HN HS HR. unfold select_v. rewrite (get_corr_acc _ _ HA HH). cbn [need_corr rbind]. rewrite Ep. cbn [rbind].
  assert (length Hv = length Tv) as HLv by (apply project_inv in Ep as (_ & _ & ->); rewrite map_length; exact HL).
  assert (ranked_size e (getL (e_net e)) <= getL (e_net e))%nat as HLe by (unfold ranked_size; destruct (e_op e); [destruct (e_kmax e)|]; lia).
  destruct (op_ranking_ok e 0 (getL (e_net e)) Hv Tv HS) as [rk ->]. cbn [rbind].
  match goal with |- context [full_error e ?a ?b ?c ?d] => destruct (full_error_ok e a b c d Hp Ho WT HLv HN) as [full ->] end. cbn [rbind].
  destruct (Nat.eqb_spec (ranked_size e (getL (e_net e))) 0); [lia|].
  match goal with |- context [search_from (fun idx => let? v := sub_error e ?HH ?HT Hv Tv (slice rk 0 idx) in Ok (nadd v (nmul (nof_Z idx) ?pen))) (init_table ?size ?L ?f) ?lo _] =>
    destruct (search_ok (fun idx => sub_error e HH HT Hv Tv (slice rk 0 idx)) f pen lo L size ltac:(lia) ltac:(lia)) as [[[m k] t] Es] end.
  { intros i _. now apply sub_error_ok. }
  cbn [num NumR] in *. rewrite Es. cbn [rbind]. eauto.
Qed.

Theorem train_v_op : forall e X T Xv Tv args kw e1 H Hv, wf_net (e_net e) -> 0 < s_norm (e_net e) -> (0 < s_outputs (e_net e))%nat ->
  parse_args e args kw = (e1, Ok tt) -> smem "V" args = true ->
  kw_Xv kw = Some (Arr2 (s_inputs (e_net e)) Xv) -> kw_Tv kw = Some (Arr2 (s_outputs (e_net e)) Tv) ->
  ErrThms.plain (e_class e1) -> op_ranking e1 (nneurons (s_neurons (e_net e))) Hv Tv -> (0 < ranked_size e1 (nneurons (s_neurons (e_net e))))%nat ->
  (0 < e_batch e1)%Z -> X <> [] -> length X = length T -> wide (s_outputs (e_net e)) T ->
  Tv <> [] -> length Xv = length Tv -> wide (s_outputs (e_net e)) Tv ->
  elm_project e (Arr2 (s_inputs (e_net e)) X) = Ok H -> elm_project e (Arr2 (s_inputs (e_net e)) Xv) = Ok Hv ->
  shuffles ->
  exists e', train e (Arr2 (s_inputs (e_net e)) X) (Arr2 (s_outputs (e_net e)) T) args kw = (e', Ok None).
Proof.
  intros e X T Xv Tv args kw e1 H Hv HW Hn Ho HP HV EXv ETv Hp HS HR Hb HX HL WT HNv HLv WTv HPr HPv shuf.
  pose proof (parse_args_ok _ _ _ _ HP) as EN. pose proof (plain_wc _ Hp) as Hwc.
  destruct (trained_data e args kw e1 X T H (repeat 1 (length T)) HW HP Hb HX HL WT ltac:(now constructor) HPr) as (e2 & Ea & A & N & HW2 & En & Eo & Ei & Es & El & Hg & Hwn & Hrs & Hop & Htk).
  assert (e_class e2 = e_class e1) as Ec. { destruct Htk as (T1 & _). rewrite T1. unfold fill_wc. now rewrite Hwc. }
  unfold train. rewrite checkdata_ok, HP, HV, EXv, ETv by auto.
  assert (checkdata e1 (Arr2 (s_inputs (e_net e)) Xv) (Arr2 (s_outputs (e_net e)) Tv) = Ok (Xv, Tv)) as ->.
  { replace (s_inputs (e_net e)) with (s_inputs (e_net e1)) by (rewrite EN; reflexivity). replace (s_outputs (e_net e)) with (s_outputs (e_net e1)) by (rewrite EN; reflexivity). now apply checkdata_ok. }
  cbn [lift_err fst snd]. unfold train_v. rewrite Ea.
  destruct (select_v_op e2 _ Xv Tv Hv A N) as [[[k rank] mt] Esel]; auto.
  { now rewrite Ec. } { now rewrite Eo. } { rewrite (project_with (e_net e)); auto. now apply elm_project_arr. } { now rewrite Eo. }
  { unfold op_ranking in *. rewrite Hop, Hrs, El, Eo, (wf_getL _ HW). replace (s_outputs (e_net e1)) with (s_outputs (e_net e)) in HS by (rewrite EN; reflexivity). exact HS. }
  { rewrite Hrs, El, (wf_getL _ HW). exact HR. }
  rewrite Esel. cbn [lift_err].
  destruct (select_v_spec shuf e2 _ Xv Tv k rank mt A N HW2 ltac:(now rewrite En) ltac:(now rewrite El) Hwn Esel) as (Hv' & L & full & Pv & HRk & Hk & _).
  destruct (refit_fitted e e2 X T (slice rank 0 k) H (refit e2 X T (slice rank 0 k)) HW2 ltac:(now rewrite En) En Eo Ei Es) as (F1 & _); auto.
  { intros i Hi. rewrite slice_firstn in Hi by lia. destruct HRk as ((_ & HI) & _). apply HI. rewrite <- (firstn_skipn (Z.to_nat k) rank). apply in_or_app; auto. }
  unfold done. rewrite F1. eauto.
Qed.

Lemma select_loo_op : forall e H T, Acc (e_net e) (Spec.plain H T) -> s_HH (e_net e) <> None -> ErrThms.plain (e_class e) ->
  (0 < s_outputs (e_net e))%nat -> 0 < s_norm (e_net e) -> Forall (fun h => length h = getL (e_net e)) H -> wide (s_outputs (e_net e)) T ->
  length H = length T -> H <> [] -> shuffles ->
  op_ranking e (getL (e_net e)) H T -> (0 < ranked_size e (getL (e_net e)))%nat -> exists r, select_loo e H T = Ok r.
Proof.
  intros e H T HA HH Hp Ho Hn WH WT HL HN shuf HS HR. unfold select_loo. rewrite (get_corr_acc _ _ HA HH). cbn [need_corr rbind].
  assert (ranked_size e (getL (e_net e)) <= getL (e_net e))%nat as HLe by (unfold ranked_size; destruct (e_op e); [destruct (e_kmax e)|]; lia).
  destruct (op_ranking_ok e 0 (getL (e_net e)) H T HS) as [rk Er]. rewrite Er. cbn [rbind].
  pose proof (ranking_ranked shuf _ _ _ _ _ _ _ Er ltac:(lia)) as (HC & _).
  destruct (loo_error_ok e (getL (e_net e)) (s_outputs (e_net e)) (s_norm (e_net e)) H T) as [full Ef]; auto. rewrite Ef. cbn [rbind].
  destruct (Nat.eqb_spec (ranked_size e (getL (e_net e))) 0); [lia|].
  match goal with |- context [search_from _ (init_table ?size ?L ?f) ?lo _] =>
    destruct (search_ok (fun i => loo_error e (length (slice rk 0 i)) (@csel NumR H (slice rk 0 i)) (@sub_HH NumR (spec_HH (getL (e_net e)) (s_norm (e_net e)) (Spec.plain H T)) (slice rk 0 i)) (@rsel NumR (spec_HT (getL (e_net e)) (s_outputs (e_net e)) (Spec.plain H T)) (slice rk 0 i)) T)
      f (@penalty_of NumR full (ranked_size e (getL (e_net e)))) lo L size ltac:(lia) ltac:(lia)) as [[[m k] t] Es] end.
  { intros i Hi. rewrite slice_firstn by lia. pose proof (columns_firstn _ (Z.to_nat i) _ HC) as HC'.
    rewrite (sub_HH_spec _ _ _ _ HC'), (rsel_HT_spec _ _ _ _ HC'), plain_keep.
    apply (loo_error_ok e _ (s_outputs (e_net e)) (s_norm (e_net e)) (map (keep (firstn (Z.to_nat i) rk)) H) T); auto.
    - apply keep_wide.
    - now rewrite map_length.
    - destruct H; [congruence|discriminate]. }
  cbn [num NumR] in *. rewrite Es. cbn [rbind]. eauto.
Qed.

Theorem train_loo_op : forall e X T args kw e1 H, shuffles -> wf_net (e_net e) -> 0 < s_norm (e_net e) -> (0 < s_outputs (e_net e))%nat ->
  parse_args e args kw = (e1, Ok tt) -> smem "V" args = false -> smem "CV" args = false -> smem "LOO" args = true ->
  ErrThms.plain (e_class e1) -> op_ranking e1 (nneurons (s_neurons (e_net e))) H T -> (0 < ranked_size e1 (nneurons (s_neurons (e_net e))))%nat ->
  (0 < e_batch e1)%Z -> X <> [] -> length X = length T -> wide (s_outputs (e_net e)) T ->
  elm_project e (Arr2 (s_inputs (e_net e)) X) = Ok H ->
  exists e', train e (Arr2 (s_inputs (e_net e)) X) (Arr2 (s_outputs (e_net e)) T) args kw = (e', Ok None).
Proof.
  intros e X T args kw e1 H shuf HW Hn Ho HP HV HCV HLOO Hp HS HR Hb HX HL WT HPr.
  pose proof (parse_args_ok _ _ _ _ HP) as EN. pose proof (plain_wc _ Hp) as Hwc.
  destruct (trained_data e args kw e1 X T H (repeat 1 (length T)) HW HP Hb HX HL WT ltac:(now constructor) HPr) as (e2 & Ea & A & N & HW2 & En & Eo & Ei & Es & El & Hg & Hwn & Hrs & Hop & Htk).
  assert (e_class e2 = e_class e1) as Ec. { destruct Htk as (T1 & _). rewrite T1. unfold fill_wc. now rewrite Hwc. }
  assert (length H = length X) as HLH by (destruct (elm_project_inv _ _ _ HPr) as (_ & _ & ->); apply map_length).
  assert (length T = length H) as HTH by (rewrite HLH; symmetry; exact HL).
  rewrite HTH in A. rewrite samples_repeat1 in A by (symmetry; exact HTH).
  unfold train. rewrite checkdata_ok, HP, HV, HCV, HLOO by auto. unfold train_loo.
  assert (project (e_net e1) X = Ok H) as Ep1. { rewrite (project_with (e_net e)); [now apply elm_project_arr|rewrite EN; reflexivity|rewrite EN; reflexivity]. }
  assert (project (e_net e2) X = Ok H) as Ep2. { rewrite (project_with (e_net e)); [now apply elm_project_arr|auto|auto]. }
  rewrite Ep1. cbn [lift_err]. rewrite Ea.
  destruct (select_loo_op e2 H T A N) as [[[k rank] mt] Esel]; auto.
  { now rewrite Ec. } { now rewrite Eo. } { now rewrite En. } { exact (proj1 (wide_project _ _ _ HW2 Ep2)). } { now rewrite Eo. }
  { destruct H; [destruct X; [congruence|discriminate]|discriminate]. }
  { unfold op_ranking in *. rewrite Hop, Hrs, El, Eo, (wf_getL _ HW). replace (s_outputs (e_net e1)) with (s_outputs (e_net e)) in HS by (rewrite EN; reflexivity). exact HS. }
  { rewrite Hrs, El, (wf_getL _ HW). exact HR. }
  rewrite Esel. cbn [lift_err].
  destruct (select_loo_spec shuf e2 (Spec.plain H T) H T k rank mt) as (L & full & HRk & Hk & _); auto.
  { rewrite El. apply good_plain. rewrite <- El. exact (proj1 (wide_project _ _ _ HW2 Ep2)). } { exact (proj1 (wide_project _ _ _ HW2 Ep2)). }
  destruct (refit_fitted e e2 X T (slice rank 0 k) H (refit e2 X T (slice rank 0 k)) HW2 ltac:(now rewrite En) En Eo Ei Es) as (F1 & _); auto.
  { intros i Hi. rewrite slice_firstn in Hi by lia. destruct HRk as ((_ & HI) & _). apply HI. rewrite <- (firstn_skipn (Z.to_nat k) rank). apply in_or_app; auto. }
  unfold done. rewrite F1. eauto.
Qed.
End Works.

Section Rankable.
Context {SG : @Sing NumR} {BR : @Brent NumR} {SH : Shuffle}.
Lemma wide_is_mat : forall n c (M : list (list R)), length M = n -> wide c M -> @is_mat NumR n c M.
Proof. intros n c M HL HW. split; [exact HL|exact HW]. Qed.
Lemma projected : forall e X H, wf_net (e_net e) -> elm_project e (Arr2 (s_inputs (e_net e)) X) = Ok H -> @is_mat NumR (length X) (nneurons (s_neurons (e_net e))) H.
Proof.
  intros e X H HW HP. destruct (elm_project_inv _ _ _ HP) as (_ & _ & E). split; [rewrite E; apply map_length|].
  pose proof (proj1 (elm_project_arr _ _ _) HP) as Q. pose proof (proj1 (wide_project _ _ _ HW Q)) as W. rewrite (wf_getL _ HW) in W. exact W.
Qed.

Theorem train_v_rankable : forall e X T Xv Tv args kw e1 H Hv, shuffles -> wf_net (e_net e) -> 0 < s_norm (e_net e) -> (0 < s_outputs (e_net e) < 10)%nat ->
  parse_args e args kw = (e1, Ok tt) -> smem "V" args = true ->
  kw_Xv kw = Some (Arr2 (s_inputs (e_net e)) Xv) -> kw_Tv kw = Some (Arr2 (s_outputs (e_net e)) Tv) ->
  ErrThms.plain (e_class e1) -> e_op e1 = true -> (0 < ranked_size e1 (nneurons (s_neurons (e_net e))))%nat ->
  (0 < e_batch e1)%Z -> X <> [] -> length X = length T -> wide (s_outputs (e_net e)) T ->
  Tv <> [] -> length Xv = length Tv -> wide (s_outputs (e_net e)) Tv ->
  elm_project e (Arr2 (s_inputs (e_net e)) X) = Ok H -> elm_project e (Arr2 (s_inputs (e_net e)) Xv) = Ok Hv ->
  rankable (length Xv) (nneurons (s_neurons (e_net e))) (s_outputs (e_net e)) Hv Tv (ranked_size e1 (nneurons (s_neurons (e_net e)))) ->
  exists e', train e (Arr2 (s_inputs (e_net e)) X) (Arr2 (s_outputs (e_net e)) T) args kw = (e', Ok None).
Proof.
  intros e X T Xv Tv args kw e1 H Hv shuf HW Hn Ho HP HV EXv ETv Hp Hop HR Hb HX HL WT HNv HLv WTv HPr HPv RK.
  apply (train_v_op e X T Xv Tv args kw e1 H Hv); auto; try lia. pose proof (parse_args_ok _ _ _ _ HP) as EN.
  assert (s_outputs (e_net e1) = s_outputs (e_net e)) as Eo by (rewrite EN; reflexivity).
  split; [exact Hop|]. rewrite Eo. split; [lia|]. eapply mrsr_rankable; [apply (projected e Xv Hv HW HPv)|apply wide_is_mat; [symmetry; exact HLv|exact WTv]|exact RK].
Qed.
Theorem train_loo_rankable : forall e X T args kw e1 H, shuffles -> wf_net (e_net e) -> 0 < s_norm (e_net e) -> (0 < s_outputs (e_net e) < 10)%nat ->
  parse_args e args kw = (e1, Ok tt) -> smem "V" args = false -> smem "CV" args = false -> smem "LOO" args = true ->
  ErrThms.plain (e_class e1) -> e_op e1 = true -> (0 < ranked_size e1 (nneurons (s_neurons (e_net e))))%nat ->
  (0 < e_batch e1)%Z -> X <> [] -> length X = length T -> wide (s_outputs (e_net e)) T ->
  elm_project e (Arr2 (s_inputs (e_net e)) X) = Ok H ->
  rankable (length X) (nneurons (s_neurons (e_net e))) (s_outputs (e_net e)) H T (ranked_size e1 (nneurons (s_neurons (e_net e)))) ->
  exists e', train e (Arr2 (s_inputs (e_net e)) X) (Arr2 (s_outputs (e_net e)) T) args kw = (e', Ok None).
Proof.
  intros e X T args kw e1 H shuf HW Hn Ho HP HV HCV HLOO Hp Hop HR Hb HX HL WT HPr RK.
  apply (train_loo_op e X T args kw e1 H); auto; try lia. pose proof (parse_args_ok _ _ _ _ HP) as EN.
  assert (s_outputs (e_net e1) = s_outputs (e_net e)) as Eo by (rewrite EN; reflexivity).
  split; [exact Hop|]. rewrite Eo. split; [lia|]. eapply mrsr_rankable; [apply (projected e X H HW HPr)|apply wide_is_mat; [symmetry; exact HL|exact WT]|exact RK].
Qed.
End Rankable.
