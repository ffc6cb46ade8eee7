(** train with structure selection succeeds (C33, C35; reals). *)
From Coq Require Import Reals Lra Permutation.
From Verif Require Import Base Num Mat LinAlg Slfn Strs Elm Mrsr Search Mss MatFacts SplitProofs Spec ElmFacts RLin
  AccProofs TrainProofs RidgeProofs WfProofs TrainThms IncrThms SolveThms NeuronThms ErrThms SearchThms SelectThms RankThms SubThms MssThms LooThms SelThms FoldThms CvThms.
Local Open Scope R_scope.
#[local] Existing Instance NumR.

Section Works.
Context {SG : @Sing NumR} {BR : @Brent NumR} {SH : Shuffle}.

(** the ranking is random, or made by mrsr2 *)
Definition simple_ranking (e : elm) : Prop := e_op e = false \/ (10 <= s_outputs (e_net e))%nat.

Lemma ranking_ok : forall e i N H T, (0 < N)%nat -> simple_ranking e -> exists r, ranking e i N H T = Ok (r, ranked_size e N).
Proof.
  intros e i N H T HN HS. unfold ranking, ranked_size. destruct HS as [->|HS]; [eauto|]. destruct (e_op e); [|eauto].
  destruct (Nat.ltb_spec (s_outputs (e_net e)) 10); [lia|].
  match goal with |- context [mrsr2 ?a ?b ?c ?d ?f] => destruct (mrsr2_total a b c d f HN) as [r Er] end. rewrite Er. cbn [rbind]. eauto.
Qed.

Lemma mmul_wide : forall c (A B : list (list R)), wide c (@mmul NumR c A B) /\ length (@mmul NumR c A B) = length A.
Proof.
  intros. unfold mmul. split; [|apply map_length]. apply Forall_forall. intros r Hr. apply in_map_iff in Hr as (a & <- & _). apply mkv_length.
Qed.
Lemma error_finite : forall e T (A B : list (list R)), ErrThms.plain (e_class e) -> (0 < s_outputs (e_net e))%nat -> wide (s_outputs (e_net e)) T ->
  length A = length T -> T <> [] -> exists w, (let? x := error_ e T (@mmul NumR (s_outputs (e_net e)) A B) in @xfin NumR x) = Ok w.
Proof.
  intros e T A B Hp Hc WT HL HN. destruct (mmul_wide (s_outputs (e_net e)) A B) as [W1 W2]. unfold error_. 
  cbn [num NumR] in *.
  rewrite (raw_error_mean _ _ (s_outputs (e_net e))); auto; [cbn; eauto|]. etransitivity; [symmetry; exact HL|symmetry; exact W2].
Qed.
Lemma sub_error_ok : forall e HH HT Hv T ix, ErrThms.plain (e_class e) -> (0 < s_outputs (e_net e))%nat -> wide (s_outputs (e_net e)) T ->
  length Hv = length T -> T <> [] -> exists w, sub_error e HH HT Hv T ix = Ok w.
Proof. intros. unfold sub_error. apply error_finite; auto. unfold csel. now rewrite map_length. Qed.
Lemma full_error_ok : forall e HH HT Hv T, ErrThms.plain (e_class e) -> (0 < s_outputs (e_net e))%nat -> wide (s_outputs (e_net e)) T ->
  length Hv = length T -> T <> [] -> exists w, full_error e HH HT Hv T = Ok w.
Proof. intros. unfold full_error. apply error_finite; auto. Qed.

Lemma plain_nn : forall e, ErrThms.plain (e_class e) -> weights_nn e.
Proof. intros e [H|[H|H]] C; unfold is_wc in C; rewrite H in C; discriminate. Qed.
Lemma plain_wc : forall e, ErrThms.plain (e_class e) -> is_wc e = false.
Proof. intros e [H|[H|H]]; unfold is_wc; rewrite H; reflexivity. Qed.

Lemma search_ok : forall (f : Z -> res R) full pen lo L size, (0 <= lo <= L)%Z -> (L <= Z.of_nat size)%Z ->
  (forall i, (lo <= i <= L)%Z -> exists w, f i = Ok w) ->
  exists r, @search_from NumR (fun idx => let? v := f idx in Ok (@nadd NumR v (@nmul NumR (nof_Z idx) pen))) (@init_table NumR size L full) lo L = Ok r.
Proof.
  intros f full pen lo L size H1 H2 Hf.
  destruct (search_from_spec (fun idx => let? v := f idx in Ok (@nadd NumR v (@nmul NumR (nof_Z idx) pen))) lo L full size ltac:(lia) ltac:(lia) H2) as [(m & k & t & E & _)|(x & i & Hi & Ei & _)].
  - eexists. exact E.
  - destruct (Hf i Hi) as [w Ew]. rewrite Ew in Ei. discriminate.
Qed.

Lemma select_v_ok : forall e ss Xv Tv Hv, Acc (e_net e) ss -> s_HH (e_net e) <> None -> ErrThms.plain (e_class e) ->
  (0 < s_outputs (e_net e))%nat -> project (e_net e) Xv = Ok Hv -> length Xv = length Tv -> wide (s_outputs (e_net e)) Tv -> Tv <> [] ->
  simple_ranking e -> (0 < ranked_size e (getL (e_net e)))%nat -> exists r, select_v e Xv Tv = Ok r.
Proof.
  intros e ss Xv Tv Hv HA HH Hp Ho Ep HL WT HN HS HR. unfold select_v. rewrite (get_corr_acc _ _ HA HH). cbn [need_corr rbind]. rewrite Ep. cbn [rbind].
  assert (length Hv = length Tv) as HLv by (apply project_inv in Ep as (_ & _ & ->); rewrite map_length; exact HL).
  assert (ranked_size e (getL (e_net e)) <= getL (e_net e))%nat as HLe by (unfold ranked_size; destruct (e_op e); [destruct (e_kmax e)|]; lia).
  destruct (ranking_ok e 0 (getL (e_net e)) Hv Tv ltac:(lia) HS) as [rk ->]. cbn [rbind].
  match goal with |- context [full_error e ?a ?b ?c ?d] => destruct (full_error_ok e a b c d Hp Ho WT HLv HN) as [full ->] end. cbn [rbind].
  destruct (Nat.eqb_spec (ranked_size e (getL (e_net e))) 0); [lia|].
  match goal with |- context [search_from (fun idx => let? v := sub_error e ?HH ?HT Hv Tv (slice rk 0 idx) in Ok (nadd v (nmul (nof_Z idx) ?pen))) (init_table ?size ?L ?f) ?lo _] =>
    destruct (search_ok (fun idx => sub_error e HH HT Hv Tv (slice rk 0 idx)) f pen lo L size ltac:(lia) ltac:(lia)) as [[[m k] t] Es] end.
  { intros i _. now apply sub_error_ok. }
  cbn [num NumR] in *. rewrite Es. cbn [rbind]. eauto.
Qed.

Theorem train_v_works : forall e X T Xv Tv args kw e1 H Hv, wf_net (e_net e) -> 0 < s_norm (e_net e) -> (0 < s_outputs (e_net e))%nat ->
  parse_args e args kw = (e1, Ok tt) -> smem "V" args = true ->
  kw_Xv kw = Some (Arr2 (s_inputs (e_net e)) Xv) -> kw_Tv kw = Some (Arr2 (s_outputs (e_net e)) Tv) ->
  ErrThms.plain (e_class e1) -> simple_ranking e1 -> (0 < ranked_size e1 (nneurons (s_neurons (e_net e))))%nat ->
  (0 < e_batch e1)%Z -> X <> [] -> length X = length T -> wide (s_outputs (e_net e)) T ->
  Tv <> [] -> length Xv = length Tv -> wide (s_outputs (e_net e)) Tv ->
  elm_project e (Arr2 (s_inputs (e_net e)) X) = Ok H -> elm_project e (Arr2 (s_inputs (e_net e)) Xv) = Ok Hv ->
  shuffles ->
  exists e', train e (Arr2 (s_inputs (e_net e)) X) (Arr2 (s_outputs (e_net e)) T) args kw = (e', Ok None).
Proof.
  intros e X T Xv Tv args kw e1 H Hv HW Hn Ho HP HV EXv ETv Hp HS HR Hb HX HL WT HNv HLv WTv HPr HPv shuf.
  pose proof (parse_args_ok _ _ _ _ HP) as EN. pose proof (plain_wc _ Hp) as Hwc.
  destruct (trained_data e args kw e1 X T H (repeat 1 (length T)) HW HP Hb HX HL WT ltac:(now constructor) HPr) as (e2 & Ea & A & N & HW2 & En & Eo & Ei & Es & El & Hg & Hwn & Hrs & Hop & Htk).
  assert (e_class e2 = e_class e1) as Ec. { destruct Htk as (T1 & _). rewrite T1. unfold fill_wc. now rewrite Hwc. }
  unfold train. rewrite checkdata_ok, HP, HV, EXv, ETv by auto.
  assert (checkdata e1 (Arr2 (s_inputs (e_net e)) Xv) (Arr2 (s_outputs (e_net e)) Tv) = Ok (Xv, Tv)) as ->.
  { replace (s_inputs (e_net e)) with (s_inputs (e_net e1)) by (rewrite EN; reflexivity). replace (s_outputs (e_net e)) with (s_outputs (e_net e1)) by (rewrite EN; reflexivity). now apply checkdata_ok. }
  cbn [lift_err fst snd]. unfold train_v. rewrite Ea.
  destruct (select_v_ok e2 _ Xv Tv Hv A N) as [[[k rank] mt] Esel]; auto.
  { now rewrite Ec. } { now rewrite Eo. } { rewrite (project_with (e_net e)); auto. now apply elm_project_arr. } { now rewrite Eo. }
  { destruct HS as [HS|HS]; [left; congruence|right]. rewrite Eo. rewrite EN in HS. exact HS. }
  { rewrite Hrs, El, (wf_getL _ HW). exact HR. }
  rewrite Esel. cbn [lift_err].
  destruct (select_v_spec shuf e2 _ Xv Tv k rank mt A N HW2 ltac:(now rewrite En) ltac:(now rewrite El) Hwn Esel) as (Hv' & L & full & Pv & HRk & Hk & _).
  destruct (refit_fitted e e2 X T (slice rank 0 k) H (refit e2 X T (slice rank 0 k)) HW2 ltac:(now rewrite En) En Eo Ei Es) as (F1 & _); auto.
  { intros i Hi. rewrite slice_firstn in Hi by lia. destruct HRk as ((_ & HI) & _). apply HI. rewrite <- (firstn_skipn (Z.to_nat k) rank). apply in_or_app; auto. }
  unfold done. rewrite F1. eauto.
Qed.

(** ** LOO *)
Definition isfin (x : @xnum NumR) : Prop := exists a : R, x = @Fin NumR a.
Lemma xmean_isfin : forall l, Forall isfin l -> l <> [] -> isfin (@xmean NumR l).
Proof.
  intros l HF HN. assert (exists l' : list R, l = map (@Fin NumR) l') as [l' ->].
  { clear HN. induction HF as [|x l (a & ->) HF (l' & ->)]; [exists []; reflexivity|]. exists (a :: l'). reflexivity. }
  rewrite xmean_fin; [eexists; reflexivity|]. destruct l'; [exfalso; apply HN; reflexivity|discriminate].
Qed.
Lemma sq_isfin : forall a r : R, r <> 0 -> isfin (@xsq NumR (@np_div NumR a r)).
Proof. intros a r Hr. rewrite np_div_R by auto. eexists. reflexivity. Qed.
Lemma map2_isfin : forall (f : R -> R -> @xnum NumR) (u v : list R), (forall a b, isfin (f a b)) -> Forall isfin (map2 f u v).
Proof. induction u; intros [|b v] H; cbn; constructor; auto. Qed.

Lemma press_isfin : forall e c (T Y : list (list R)) (rv : list R), ErrThms.plain (e_class e) -> s_outputs (e_net e) = c -> (0 < c)%nat ->
  wide c T -> wide c Y -> length Y = length T -> length rv = length T -> T <> [] -> Forall (fun r => r <> 0) rv ->
  exists w, (let? x := press_ e T Y rv in @xfin NumR x) = Ok w.
Proof.
  intros e c T Y rv Hp Ho Hc WT WY HL HR HN Hr.
  assert (exists x, @raw_press NumR (e_class e) (e_wc e) T Y rv (s_outputs (e_net e)) = Ok x /\ isfin x) as (x & Ex & (a & ->)).
  { assert (forall (l : list ((list R * list R) * R)), l = combine (combine Y T) rv -> l <> [] /\ Forall (fun p => length (fst (fst p)) = c /\ length (snd (fst p)) = c /\ snd p <> 0) l) as HC.
    { intros l ->. split; [destruct Y, T, rv; try discriminate; congruence|]. apply Forall_forall. intros [[y t] r] Hin. cbn.
      pose proof (in_combine_l _ _ _ _ Hin) as H1. pose proof (in_combine_r _ _ _ _ Hin) as H2. pose proof (in_combine_l _ _ _ _ H1) as H3. pose proof (in_combine_r _ _ _ _ H1) as H4.
      unfold wide in *. rewrite Forall_forall in *. auto. }
    specialize (HC _ eq_refl) as [HC1 HC2].
    assert (forall f : (list R * list R) * R -> list (@xnum NumR), (forall p, snd p <> 0 -> Forall isfin (f p)) -> (forall p, length (fst (fst p)) = c -> length (snd (fst p)) = c -> f p <> []) ->
      isfin (@xmean NumR (concat (map f (combine (combine Y T) rv))))) as G.
    { intros f Hf1 Hf2. apply xmean_isfin.
      - apply Forall_concat. apply Forall_forall. intros l Hl. apply in_map_iff in Hl as (p & <- & Hin). apply Hf1. rewrite Forall_forall in HC2. apply (HC2 p Hin).
      - destruct (combine (combine Y T) rv) as [|p l]; [congruence|]. inversion HC2; subst. cbn. intros C. apply app_eq_nil in C as [C _]. apply (Hf2 p); tauto. }
    unfold raw_press, zip_rows. cbn [num NumR] in *.
    destruct Hp as [->|[->| ->]]; rewrite bcast_eq by auto; cbn [rbind]; rewrite bcast_eq by (rewrite combine_length; lia); cbn [rbind]; eexists; (split; [reflexivity|]).
    - apply G.
      + intros p Hp0. apply map2_isfin. intros. now apply sq_isfin.
      + intros [[y t] r]. cbn [fst snd]. destruct y, t; cbn; intros; try discriminate; lia.
    - apply xmean_isfin; [|intros C; apply map_eq_nil in C; congruence]. apply Forall_forall. intros q Hq. apply in_map_iff in Hq as (p & <- & Hin). apply sq_isfin. rewrite Forall_forall in HC2. apply (HC2 p Hin).
    - apply G.
      + intros p Hp0. apply map2_isfin. intros. now apply sq_isfin.
      + intros [[y t] r]. cbn [fst snd]. destruct y, t; cbn; intros; try discriminate; lia. }
  unfold press_. rewrite Ex. cbn. eauto.
Qed.

Lemma loo_error_ok : forall e n c norm (H T : list (list R)), ErrThms.plain (e_class e) -> s_outputs (e_net e) = c -> (0 < c)%nat -> 0 < norm ->
  Forall (fun h => length h = n) H -> wide c T -> length H = length T -> H <> [] ->
  exists w, loo_error e n H (spec_HH n norm (Spec.plain H T)) (spec_HT n c (Spec.plain H T)) T = Ok w.
Proof.
  intros e n c norm H T Hcl Ho Hc Hn WH WT HL HN.
  set (ss := Spec.plain H T). set (A := spec_HH n norm ss). set (Y := spec_HT n c ss).
  assert (good n ss) as Hg by now apply good_plain.
  assert (nonneg ss) as Hp by (intros s Hs; apply (Hg s Hs)).
  assert (is_mat n n A) as SA by (unfold A; rewrite spec_HH_mk; apply is_mat_mk).
  assert (is_mat n c Y) as SY by (unfold Y; rewrite spec_HT_mk; apply is_mat_mk).
  pose proof (PD_spec n norm ss Hn Hp) as PDA. fold A in PDA.
  assert (minj n (mR A)) as I1 by now apply PD_minj.
  assert (minj n (fun i j => mR A j i)) as I2.
  { intros x Hx. apply I1. intros i Hi. rewrite <- (Hx i Hi). apply sum_ext. intros j Hj. unfold A. now rewrite spec_HH_sym. }
  destruct (pinv_solves n A SA I1 I2) as (SP & MP & EP). set (P := @pinv NumR SG n A) in *. clearbody P.
  pose proof (inv_mul_solves n c A P Y SP SY MP) as MB.
  assert (is_mat n c (mmul c P Y)) as SB.
  { pose proof (is_mat_mmul c P Y) as Q. destruct SP as [SP _]. cbn [num NumR] in *. rewrite SP in Q. exact Q. }
  unfold loo_error. rewrite Ho, EP. cbn [rbind].
  apply (press_isfin e c); auto.
  - apply mmul_wide.
  - unfold mmul. rewrite map_length. exact HL.
  - unfold press_R. rewrite map_length. exact HL.
  - destruct T; [destruct H; [congruence|discriminate]|discriminate].
  - apply Forall_forall. intros r Hr. apply (In_nth _ _ 0) in Hr as (i & Hi & <-). unfold press_R in Hi. rewrite map_length in Hi.
    unfold press_R. rewrite nth_map_lt with (da := @nil R) by exact Hi.
    assert (length (nth i H []) = n) as Hh by (rewrite Forall_forall in WH; apply WH, nth_In, Hi).
    set (Bi := solve_corr (e_net e) n (spec_HH n norm (without i ss)) (spec_HT n c (without i ss))).
    assert (ridge_solution n c norm (without i ss) Bi) as (RS1 & RS2 & _) by (unfold Bi; rewrite <- Ho; apply solve_corr_spec; auto; now apply good_without).
    rewrite (press_R_value n) by assumption.
    apply (loo_identity n c norm ss (without i ss) (nth i H []) (nth i T []) P (mmul c P Y) Bi); auto.
    + rewrite <- (plain_nth i H T (0, [], []) HL Hi). fold ss. apply nth_without. unfold ss. now rewrite plain_length.
    + intros s Hs. apply (good_without n i ss Hg s Hs).
    + now apply shape_is_mat.
Qed.

Lemma select_loo_ok : forall e H T, Acc (e_net e) (Spec.plain H T) -> s_HH (e_net e) <> None -> ErrThms.plain (e_class e) ->
  (0 < s_outputs (e_net e))%nat -> 0 < s_norm (e_net e) -> Forall (fun h => length h = getL (e_net e)) H -> wide (s_outputs (e_net e)) T ->
  length H = length T -> H <> [] -> shuffles ->
  simple_ranking e -> (0 < ranked_size e (getL (e_net e)))%nat -> exists r, select_loo e H T = Ok r.
Proof.
  intros e H T HA HH Hp Ho Hn WH WT HL HN shuf HS HR. unfold select_loo. rewrite (get_corr_acc _ _ HA HH). cbn [need_corr rbind].
  assert (ranked_size e (getL (e_net e)) <= getL (e_net e))%nat as HLe by (unfold ranked_size; destruct (e_op e); [destruct (e_kmax e)|]; lia).
  destruct (ranking_ok e 0 (getL (e_net e)) H T ltac:(lia) HS) as [rk Er]. rewrite Er. cbn [rbind].
  pose proof (ranking_ranked shuf _ _ _ _ _ _ _ Er ltac:(lia)) as (HC & _).
  destruct (loo_error_ok e (getL (e_net e)) (s_outputs (e_net e)) (s_norm (e_net e)) H T) as [full Ef]; auto. rewrite Ef. cbn [rbind].
  destruct (Nat.eqb_spec (ranked_size e (getL (e_net e))) 0); [lia|].
  match goal with |- context [search_from _ (init_table ?size ?L ?f) ?lo _] =>
    destruct (search_ok (fun i => loo_error e (length (slice rk 0 i)) (@csel NumR H (slice rk 0 i)) (@sub_HH NumR (spec_HH (getL (e_net e)) (s_norm (e_net e)) (Spec.plain H T)) (slice rk 0 i)) (@rsel NumR (spec_HT (getL (e_net e)) (s_outputs (e_net e)) (Spec.plain H T)) (slice rk 0 i)) T)
      f (@penalty_of NumR full (ranked_size e (getL (e_net e)))) lo L size ltac:(lia) ltac:(lia)) as [[[m k] t] Es] end.
  { intros i Hi. rewrite slice_firstn by lia. pose proof (columns_firstn _ (Z.to_nat i) _ HC) as HC'.
    rewrite (sub_HH_spec _ _ _ _ HC'), (rsel_HT_spec _ _ _ _ HC'), plain_keep.
    apply (loo_error_ok e _ (s_outputs (e_net e)) (s_norm (e_net e)) (map (keep (firstn (Z.to_nat i) rk)) H) T); auto.
    - apply keep_wide.
    - now rewrite map_length.
    - destruct H; [congruence|discriminate]. }
  cbn [num NumR] in *. rewrite Es. cbn [rbind]. eauto.
Qed.

Theorem train_loo_works : forall e X T args kw e1 H, shuffles -> wf_net (e_net e) -> 0 < s_norm (e_net e) -> (0 < s_outputs (e_net e))%nat ->
  parse_args e args kw = (e1, Ok tt) -> smem "V" args = false -> smem "CV" args = false -> smem "LOO" args = true ->
  ErrThms.plain (e_class e1) -> simple_ranking e1 -> (0 < ranked_size e1 (nneurons (s_neurons (e_net e))))%nat ->
  (0 < e_batch e1)%Z -> X <> [] -> length X = length T -> wide (s_outputs (e_net e)) T ->
  elm_project e (Arr2 (s_inputs (e_net e)) X) = Ok H ->
  exists e', train e (Arr2 (s_inputs (e_net e)) X) (Arr2 (s_outputs (e_net e)) T) args kw = (e', Ok None).
Proof.
  intros e X T args kw e1 H shuf HW Hn Ho HP HV HCV HLOO Hp HS HR Hb HX HL WT HPr.
  pose proof (parse_args_ok _ _ _ _ HP) as EN. pose proof (plain_wc _ Hp) as Hwc.
  destruct (trained_data e args kw e1 X T H (repeat 1 (length T)) HW HP Hb HX HL WT ltac:(now constructor) HPr) as (e2 & Ea & A & N & HW2 & En & Eo & Ei & Es & El & Hg & Hwn & Hrs & Hop & Htk).
  assert (e_class e2 = e_class e1) as Ec. { destruct Htk as (T1 & _). rewrite T1. unfold fill_wc. now rewrite Hwc. }
  assert (length H = length X) as HLH by (destruct (elm_project_inv _ _ _ HPr) as (_ & _ & ->); apply map_length).
  assert (length T = length H) as HTH by (rewrite HLH; symmetry; exact HL).
  rewrite HTH in A. rewrite samples_repeat1 in A by (symmetry; exact HTH).
  unfold train. rewrite checkdata_ok, HP, HV, HCV, HLOO by auto. unfold train_loo.
  assert (project (e_net e1) X = Ok H) as Ep1. { rewrite (project_with (e_net e)); [now apply elm_project_arr|rewrite EN; reflexivity|rewrite EN; reflexivity]. }
  assert (project (e_net e2) X = Ok H) as Ep2. { rewrite (project_with (e_net e)); [now apply elm_project_arr|auto|auto]. }
  rewrite Ep1. cbn [lift_err]. rewrite Ea.
  destruct (select_loo_ok e2 H T A N) as [[[k rank] mt] Esel]; auto.
  { now rewrite Ec. } { now rewrite Eo. } { now rewrite En. } { exact (proj1 (wide_project _ _ _ HW2 Ep2)). } { now rewrite Eo. }
  { destruct H; [destruct X; [congruence|discriminate]|discriminate]. }
  { destruct HS as [HS|HS]; [left; congruence|right]. rewrite Eo. rewrite EN in HS. exact HS. }
  { rewrite Hrs, El, (wf_getL _ HW). exact HR. }
  rewrite Esel. cbn [lift_err].
  destruct (select_loo_spec shuf e2 (Spec.plain H T) H T k rank mt) as (L & full & HRk & Hk & _); auto.
  { rewrite El. apply good_plain. rewrite <- El. exact (proj1 (wide_project _ _ _ HW2 Ep2)). } { exact (proj1 (wide_project _ _ _ HW2 Ep2)). }
  destruct (refit_fitted e e2 X T (slice rank 0 k) H (refit e2 X T (slice rank 0 k)) HW2 ltac:(now rewrite En) En Eo Ei Es) as (F1 & _); auto.
  { intros i Hi. rewrite slice_firstn in Hi by lia. destruct HRk as ((_ & HI) & _). apply HI. rewrite <- (firstn_skipn (Z.to_nat k) rank). apply in_or_app; auto. }
  unfold done. rewrite F1. eauto.
Qed.

(** ** CV *)
Lemma build_folds_ok : forall e0 X T H k, wf_net (e_net e0) -> project (e_net e0) X = Ok H -> length X = length T ->
  wide (s_outputs (e_net e0)) T -> (2 <= k)%nat -> (0 < getL (e_net e0))%nat -> simple_ranking e0 ->
  forall is_ e L0, (forall i, In i is_ -> (i < k)%nat) -> e = with_net e0 (e_net e) -> like (e_net e0) (e_net e) ->
  exists e' r, build_folds e X T (length X) k is_ L0 = (e', Ok r).
Proof.
  intros e0 X T H k HW0 HP0 HL WT Hk HG HS. pose proof (project_inv _ _ _ HP0) as (HU & WX & EH).
  induction is_ as [|i r IH]; intros e L0 Hi He Hl.
  - cbn [build_folds]. eauto.
  - cbn [build_folds]. destruct (fold_parts (length X) k i) as [[tr vl] ts] eqn:Ef.
    destruct Hl as (L1 & L2 & L3 & L4 & L5). assert (i < k)%nat as Hik by (apply Hi; left; auto).
    assert (forall n, In n tr \/ In n vl \/ In n ts -> (n < length X)%nat) as Hin.
    { intros n Hn. apply (fold_parts_in (length X) k i n Hk Hik). cbn [num NumR] in *. rewrite Ef. exact Hn. }
    set (s0 := reset (e_net e)) in *.
    assert (project s0 X = Ok H) as HP. { rewrite (project_with (e_net e0)); auto. }
    assert (Acc s0 []) as HA by reflexivity.
    assert (usable s0) as HU0. { unfold usable. change (s_neurons s0) with (s_neurons (e_net e)). change (s_inputs s0) with (s_inputs (e_net e)). rewrite L1, L2. exact HU. }
    pose proof (pick_project s0 X H tr HP ltac:(auto)) as Ptr. pose proof (project_inv _ _ _ Ptr) as (_ & Wtr & Etr).
    assert (wide (s_outputs s0) (@rsel NumR T tr)) as Wt.
    { change (s_outputs s0) with (s_outputs (e_net e)). rewrite L3. apply (pick_wide _ _ tr WT). intros n Hn. rewrite <- HL. auto. }
    assert (length (@rsel NumR X tr) = length (@rsel NumR T tr)) as Hxt by (unfold rsel; now rewrite !map_length).
    assert (length (repeat 1 (length tr)) = length (@rsel NumR T tr)) as Hrt by (rewrite repeat_length; unfold rsel; now rewrite map_length).
    destruct (add_batch_total s0 (@rsel NumR X tr) (@rsel NumR T tr) None (repeat 1 (length tr)) [] HA HU0 Wtr Wt Hxt Hrt) as (s1 & E1 & A1 & Es1 & N1).
    { intros w Hw. apply repeat_spec in Hw. lra. }
    { right. split; [reflexivity|]. unfold rsel. now rewrite map_length. }
    rewrite E1.
    assert (like (e_net e0) s1) as Hl1.
    { pose proof (wf_add_batch s0 (@rsel NumR X tr) (@rsel NumR T tr) None (wf_reset _ L5)) as Q. rewrite E1 in Q. cbn [fst] in Q.
      rewrite Es1 in Q |- *. split; [exact L1|]. split; [exact L2|]. split; [exact L3|]. split; [exact L4|]. exact Q. }
    pose proof (like_getL _ _ HW0 Hl1) as EL1. pose proof Hl1 as (M1 & M2 & M3 & M4 & M5).
    rewrite (get_corr_acc _ _ A1 N1). cbn [need_corr rbind].
    assert (forall ix, (forall n, In n ix -> (n < length X)%nat) -> project s1 (@rsel NumR X ix) = Ok (pick H ix)) as PP.
    { intros ix Hix. apply pick_project; auto. rewrite (project_with (e_net e0)); auto. }
    rewrite (PP vl ltac:(auto)), (PP ts ltac:(auto)). cbn [rbind].
    destruct (ranking_ok (with_net e s1) i (getL s1) (pick H vl) (@rsel NumR T vl)) as [rk Er].
    { rewrite EL1. exact HG. } { destruct HS as [HS|HS]; [left; rewrite He; exact HS|right]. cbn [e_net with_net]. rewrite M3. exact HS. }
    rewrite Er. cbn [rbind fst snd].
    match goal with |- context [build_folds _ X T _ k r ?L] => destruct (IH (with_net e s1) L) as (e2 & [fds2 L2'] & Eb) end.
    { intros n Hn. apply Hi; right; auto. } { rewrite He. reflexivity. } { exact Hl1. }
    rewrite Eb. eauto.
Qed.

Lemma avg_ok : forall (f : fold_data -> res R) k fds, (forall fd, In fd fds -> exists w, f fd = Ok w) -> forall acc, exists w, @avg_folds NumR f k fds acc = Ok w.
Proof.
  induction fds as [|fd fds IH]; intros Hf acc; cbn [avg_folds]; [eauto|].
  destruct (Hf fd (or_introl eq_refl)) as [w ->]. cbn [rbind]. apply IH. intros; apply Hf; right; auto.
Qed.

Lemma select_cv_ok : forall e fds k L, ErrThms.plain (e_class e) -> (0 < s_outputs (e_net e))%nat -> (3 <= L)%nat ->
  (forall fd, In fd fds -> length (fd_Hv fd) = length (fd_Tv fd) /\ wide (s_outputs (e_net e)) (fd_Tv fd) /\ fd_Tv fd <> [] /\
                           length (fd_Ht fd) = length (fd_Tt fd) /\ wide (s_outputs (e_net e)) (fd_Tt fd) /\ fd_Tt fd <> []) ->
  exists r, select_cv e fds k L = Ok r.
Proof.
  intros e fds k L Hp Ho H3 HF. unfold select_cv. change (@n0 NumR) with 0.
  destruct (avg_ok (fun fd => full_error e (fd_HH fd) (fd_HT fd) (fd_Hv fd) (fd_Tv fd)) k fds ltac:(intros fd Hfd; destruct (HF fd Hfd) as (Q1 & Q2 & Q3 & Q4 & Q5 & Q6); apply full_error_ok; assumption) 0) as [full Ef].
  cbn [num NumR] in *. rewrite Ef. cbn [rbind]. destruct (Nat.eqb_spec L 0); [lia|].
  match goal with |- context [search_from _ (init_table ?size ?L' ?f) ?lo _] =>
    destruct (search_ok (fun i => @avg_folds NumR (fun fd => sub_error e (fd_HH fd) (fd_HT fd) (fd_Hv fd) (fd_Tv fd) (slice (fd_rank fd) 0 i)) k fds 0)
      f (@penalty_of NumR full L) lo L' size ltac:(lia) ltac:(lia)) as [[[m kk] t] Es] end.
  { intros i _. apply avg_ok. intros fd Hfd. destruct (HF fd Hfd) as (Q1 & Q2 & Q3 & _). apply sub_error_ok; assumption. }
  cbn [num NumR] in *. rewrite Es. cbn [rbind].
  destruct (avg_ok (fun fd => full_error e (fd_HH fd) (fd_HT fd) (fd_Ht fd) (fd_Tt fd)) k fds ltac:(intros fd Hfd; destruct (HF fd Hfd) as (Q1 & Q2 & Q3 & Q4 & Q5 & Q6); apply full_error_ok; assumption) 0) as [et Et].
  cbn [num NumR] in *. rewrite Et. cbn [rbind]. eauto.
Qed.

Lemma parts_nonempty : forall N k i, (2 <= k)%nat -> (k <= N)%nat -> (i < k)%nat ->
  val_part (fold_parts N k i) <> [] /\ test_part (fold_parts N k i) <> [].
Proof.
  intros N k i Hk HN Hi. assert (forall j, (j < k)%nat -> fold_idx N k j <> []) as G.
  { intros j Hj C. assert (In j (fold_idx N k j)) as Q; [|rewrite C in Q; exact Q]. apply filter_In. split; [apply in_seq; lia|]. apply Nat.eqb_eq, Nat.mod_small, Hj. }
  unfold fold_parts, val_part, test_part. cbn [fst snd].
  split; apply G; rewrite nth_map_lt with (da := 0%nat) by (rewrite seq_length; lia); apply Nat.mod_upper_bound; lia.
Qed.

Theorem train_cv_works : forall e X T args kw k e1 H, shuffles -> wf_net (e_net e) -> 0 < s_norm (e_net e) -> (0 < s_outputs (e_net e))%nat ->
  parse_args e args kw = (e1, Ok tt) -> smem "V" args = false -> smem "CV" args = true -> kw_k kw = Some k -> (3 <= k <= length X)%nat ->
  ErrThms.plain (e_class e1) -> simple_ranking e1 -> (3 <= ranked_size e1 (nneurons (s_neurons (e_net e))))%nat ->
  length X = length T -> wide (s_outputs (e_net e)) T ->
  elm_project e (Arr2 (s_inputs (e_net e)) X) = Ok H ->
  exists e' err_t, train e (Arr2 (s_inputs (e_net e)) X) (Arr2 (s_outputs (e_net e)) T) args kw = (e', Ok (Some err_t)).
Proof.
  intros e X T args kw k e1 H shuf HW Hn Ho HP HV HCV Ek Hk Hp HS HR HL WT HPr.
  pose proof (parse_args_ok _ _ _ _ HP) as EN.
  unfold train. rewrite checkdata_ok, HP, HV, HCV, Ek by auto.
  destruct (Nat.leb_spec 3 k) as [H3|]; [|lia]. unfold train_cv.
  assert (wf_net (e_net e1)) as HW1 by (rewrite EN; now apply wf_reset).
  assert (s_outputs (e_net e1) = s_outputs (e_net e) /\ s_inputs (e_net e1) = s_inputs (e_net e) /\ s_neurons (e_net e1) = s_neurons (e_net e) /\ s_norm (e_net e1) = s_norm (e_net e) /\ getL (e_net e1) = getL (e_net e)) as (Eo & Ei & Es & Em & El) by (rewrite EN, (wf_getL _ HW); repeat split; reflexivity).
  assert (project (e_net e1) X = Ok H) as HP1. { rewrite (project_with (e_net e)); auto. now apply elm_project_arr. }
  assert (length H = length X) as HLH by (destruct (elm_project_inv _ _ _ HPr) as (_ & _ & ->); apply map_length).
  rewrite <- (wf_getL _ HW), <- El in HR.
  assert (ranked_size e1 (getL (e_net e1)) <= getL (e_net e1))%nat as HLe by (unfold ranked_size; destruct (e_op e1); [destruct (e_kmax e1)|]; lia).
  assert (forall i, In i (seq 0 k) -> (i < k)%nat) as Hsq by (intros i Hi; apply in_seq in Hi; lia).
  assert (like (e_net e1) (e_net e1)) as Hlk by (repeat split; auto; apply HW1).
  assert (e1 = with_net e1 (e_net e1)) as He1 by (destruct e1; reflexivity).
  destruct (build_folds_ok e1 X T H k HW1 HP1 HL ltac:(rewrite Eo; exact WT) ltac:(lia) ltac:(lia) HS (seq 0 k) e1 (getL (e_net e1)) Hsq He1 Hlk) as (e2 & [fds L] & Eb).
  rewrite Eb.
  destruct (build_folds_spec shuf e1 X T H k HW1 HP1 HL ltac:(rewrite Eo; exact WT) ltac:(lia) (seq 0 k) e1 (getL (e_net e1)) e2 fds L Hsq He1 Hlk Eb) as (B1 & B2 & B3 & B4).
  assert (L = ranked_size e1 (getL (e_net e1))) as EL. { rewrite B4. destruct k; [lia|reflexivity]. } clear B4.
  pose proof (like_getL _ _ HW1 B2) as EG. destruct B2 as (M1 & M2 & M3 & M4 & M5).
  destruct (select_cv_ok e2 fds k L) as [[[[kopt rank] err_t] t] Esel].
  { rewrite B1. exact Hp. } { rewrite M3, Eo. exact Ho. } { lia. }
  { intros fd Hfd. apply (In_nth _ _ (mkFold [] [] [] [] [] [] [])) in Hfd as (i & Hi & <-).
    assert (length fds = k) as Lf by (rewrite <- (F2_length _ _ _ B3); apply seq_length).
    pose proof (F2_nth _ _ _ 0%nat (mkFold [] [] [] [] [] [] []) B3 i ltac:(rewrite seq_length; cbn [num NumR] in *; lia)) as Q. rewrite seq_nth in Q by (cbn [num NumR] in *; lia). cbn [Nat.add] in Q.
    destruct Q as (_ & _ & Q3 & Q4 & Q5 & Q6 & _). cbn [num NumR] in *. rewrite Q3, Q4, Q5, Q6.
    destruct (parts_nonempty (length H) k i ltac:(lia) ltac:(lia) ltac:(lia)) as [P1 P2]. rewrite M3, Eo.
    assert (forall n, In n (val_part (fold_parts (length H) k i)) \/ In n (test_part (fold_parts (length H) k i)) -> (n < length T)%nat) as Hin.
    { intros n Hn'. rewrite <- HL, <- HLH. apply (fold_parts_in (length H) k i n); try lia. right. exact Hn'. }
    unfold pick at 1 2 4 5 6 8. rewrite !map_length. split; [reflexivity|]. split; [apply pick_wide; auto|]. split; [intros C; apply map_eq_nil in C; auto|].
    split; [reflexivity|]. split; [apply pick_wide; auto|]. intros C; apply map_eq_nil in C; auto. }
  rewrite Esel. cbn [lift_err].
  destruct (select_cv_spec e2 H T k fds L kopt rank err_t t M5) as (ranks & full & S1 & S2 & S3 & S4 & _); auto.
  { rewrite M4, Em. exact Hn. } { apply plain_nn. rewrite B1. exact Hp. } { lia. } { rewrite EG. apply (wide_project _ _ _ HW1 HP1). }
  { eapply F2_impl; [|exact B3]. intros i fd (O1 & O2 & O3 & O4 & O5 & O6 & O7). unfold fold_ok. cbv zeta. rewrite EG, M3, M4.
    split; [exact O1|]. split; [exact O2|]. split; [exact O3|]. split; [exact O4|]. split; [exact O5|]. split; [exact O6|].
    intros HN0. rewrite B1 in HN0. specialize (O7 HN0). rewrite B1. destruct O7 as (Q1 & Q2 & Q3 & Q4). split; [exact Q1|]. split; [exact Q2|]. split; [exact Q3|].
    cbn [e_op e_net with_net]. rewrite M3. exact Q4. }
  { rewrite EL, B1. cbn [e_net with_net]. rewrite EG. reflexivity. }
  rewrite slice_firstn by lia.
  destruct (refit_fitted e e2 X T (firstn (Z.to_nat kopt) rank) H (refit e2 X T (firstn (Z.to_nat kopt) rank)) M5 ltac:(rewrite M4, Em; exact Hn)) as (F1 & _); try congruence.
  { intros i Hi. destruct (S2 (k - 1)%nat ltac:(lia)) as ((_ & HRk) & _). apply HRk. rewrite <- S3. rewrite <- (firstn_skipn (Z.to_nat kopt) rank). apply in_or_app; auto. }
  unfold done. rewrite F1. eauto.
Qed.

(** ** the full size *)
(** as [selects], but every evaluated size, the largest one included, has its own error *)
Definition selects_all (lo L : nat) (err : nat -> R -> Prop) (full : R) (k : nat) : Prop :=
  exists (tried : list nat) (v : nat -> R), In lo tried /\ In L tried /\ In k tried /\
    forall i, In i tried -> (lo <= i <= L)%nat /\ v k <= v i /\
      exists w, err i w /\ v i = w + INR i * (full * (1 / 100) / INR L).
Lemma selects_full : forall lo L err full k, selects lo L err full k -> err L full -> selects_all lo L err full k.
Proof.
  intros lo L err full k (tr & v & A & B & C & _ & _ & D & _) E. exists tr, v. split; [auto|]. split; [auto|]. split; [auto|].
  intros i Hi. destruct (D i Hi) as (D1 & D2 & w & D3 & D4). split; [auto|]. split; [auto|]. exists w. split; [|auto].
  destruct (Nat.eqb_spec i L) as [->|]; [now rewrite D3|auto].
Qed.

(** every neuron takes part in the selection *)
Definition all_ranked (e : elm) (N n : nat) : Prop :=
  ranked_size e N = N /\ (e_op e = false \/ (s_outputs (e_net e) < 10)%nat \/ (N <= n)%nat).
Lemma ranked_perm : forall e N n rank L, ranked e N n rank L -> all_ranked e N n -> L = N /\ Permutation (firstn L rank) (seq 0 N).
Proof.
  intros e N n rank L ((ND & HI) & HL & EL & Hlen) (A & B). rewrite A in EL. subst L. split; [reflexivity|].
  assert (length rank = N) as HN.
  { rewrite Hlen. destruct B as [B|[B|B]]; [rewrite B; reflexivity| |]; destruct (e_op e); cbn [andb]; auto; destruct (Nat.ltb_spec (s_outputs (e_net e)) 10); cbn [negb]; lia. }
  rewrite <- HN at 1. rewrite firstn_all. apply NoDup_Permutation_bis; auto.
  - rewrite seq_length. lia.
  - intros i Hi. apply in_seq. specialize (HI i Hi). lia.
Qed.

Theorem train_v_full : forall e X T Xv Tv args kw e1 H Hv ws e' v, shuffles ->
  wf_net (e_net e) -> 0 < s_norm (e_net e) ->
  parse_args e args kw = (e1, Ok tt) -> smem "V" args = true ->
  kw_Xv kw = Some (Arr2 (s_inputs (e_net e)) Xv) -> kw_Tv kw = Some (Arr2 (s_outputs (e_net e)) Tv) ->
  (0 < e_batch e1)%Z -> X <> [] -> length X = length T -> wide (s_outputs (e_net e)) T -> weighting e1 T ws ->
  elm_project e (Arr2 (s_inputs (e_net e)) X) = Ok H -> elm_project e (Arr2 (s_inputs (e_net e)) Xv) = Ok Hv ->
  all_ranked e1 (nneurons (s_neurons (e_net e))) (length Hv) ->
  train e (Arr2 (s_inputs (e_net e)) X) (Arr2 (s_outputs (e_net e)) T) args kw = (e', Ok v) ->
  exists rank full k, let N := nneurons (s_neurons (e_net e)) in let norm := s_norm (e_net e) in
    Permutation rank (seq 0 N) /\
    submodel_error e' norm (samples ws H T) Hv Tv (seq 0 N) full /\
    selects_all 1 N (fun i => submodel_error e' norm (samples ws H T) Hv Tv (firstn i rank)) full k /\
    fitted e e' (firstn k rank) H T.
Proof.
  intros e X T Xv Tv args kw e1 H Hv ws e' v shuf HW Hn HP HV EXv ETv Hb HX HL WT Hws HPr HPv HA E.
  destruct (train_v_selects e X T Xv Tv args kw e1 H ws e' v) as (_ & Hv' & rank & L & full & k & P & R1 & S1 & S2 & F & _); auto.
  rewrite HPv in P. injection P as <-.
  destruct (trained_data e args kw e1 X T H ws HW HP Hb HX HL WT Hws HPr) as (e2 & _ & _ & _ & HW2 & _ & _ & Ei & Es & El & Hg & _).
  destruct (ranked_perm _ _ _ _ _ R1 HA) as [-> HPm]. cbv zeta in *.
  exists (firstn (nneurons (s_neurons (e_net e))) rank), full, k. split; [exact HPm|]. split; [exact S1|].
  assert (k <= nneurons (s_neurons (e_net e)))%nat as Hk. { destruct S2 as (tr & v' & _ & _ & Q & _ & _ & D & _). apply (D k Q). }
  assert (forall i, (i <= nneurons (s_neurons (e_net e)))%nat -> firstn i (firstn (nneurons (s_neurons (e_net e))) rank) = firstn i rank) as Hf.
  { intros i Hi. rewrite firstn_firstn. f_equal. lia. }
  split; [|rewrite Hf by auto; exact F].
  apply selects_full.
  - destruct S2 as (tr & v' & A & B & C & ND & F1 & D & G). exists tr, v'. split; [auto|]. split; [auto|]. split; [auto|]. split; [auto|]. split; [auto|]. split.
    + intros i Hi. destruct (D i Hi) as (D1 & D2 & w & D3). split; [auto|]. split; [auto|]. exists w. rewrite Hf by lia. exact D3.
    + intros g o H1 H2 H3. apply (G g o H1 H2). intros i w Hi (w0 & E1 & E2). apply H3; [auto|]. exists w0. rewrite Hf by lia. auto.
  - rewrite Hf by lia. apply (submodel_perm _ _ _ _ _ (nneurons (s_neurons (e_net e)))); auto.
    + rewrite <- (wf_getL _ HW). exact Hg.
    + pose proof (proj1 (elm_project_arr _ _ _) HPv) as Pv. rewrite <- (wf_getL _ HW). exact (proj1 (wide_project _ _ _ HW Pv)).
Qed.

(** CV never succeeds with fewer than three ranked neurons *)
Theorem train_cv_small : forall e X T args kw k e1 H, shuffles ->
  wf_net (e_net e) -> 0 < s_norm (e_net e) ->
  parse_args e args kw = (e1, Ok tt) -> smem "V" args = false -> smem "CV" args = true -> kw_k kw = Some k ->
  (forall ws w, kw_w kw = Some ws -> In w ws -> 0 <= w) ->
  length X = length T -> wide (s_outputs (e_net e)) T ->
  elm_project e (Arr2 (s_inputs (e_net e)) X) = Ok H ->
  (ranked_size e1 (nneurons (s_neurons (e_net e))) < 3)%nat ->
  exists e' x, train e (Arr2 (s_inputs (e_net e)) X) (Arr2 (s_outputs (e_net e)) T) args kw = (e', Err x).
Proof.
  intros e X T args kw k e1 H shuf HW Hn HP HV HCV Ek Hws HL WT HPr HR.
  destruct (train _ _ _ _ _) as [e' [v|x]] eqn:E; [exfalso|eauto].
  destruct (train_cv_selects e X T args kw k e1 H e' v) as (sp & ranks & L & full & n & et & _ & H3 & _ & _ & HRk & HL3 & _); auto.
  destruct (HRk 0%nat ltac:(lia)) as (_ & _ & EL & _). lia.
Qed.
End Works.
