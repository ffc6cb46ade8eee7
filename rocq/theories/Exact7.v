(** When structure selection succeeds, with and without class weights: the forms used in PropsExact6 (reals). *)
From Coq Require Import Reals Lra Lia Permutation.
From Verif Require Import Base Num Mat LinAlg Slfn Strs Elm Mrsr Search Mss MatFacts SplitProofs ElmFacts RLin
  AccProofs TrainProofs RidgeProofs WfProofs TrainThms IncrThms SolveThms NeuronThms ErrThms SearchThms SelectThms RankThms SubThms MssThms LooThms SelThms FoldThms CvThms WorksThms Spec.
Local Open Scope R_scope.
#[local] Existing Instance NumR.

Section Works.
Context {SG : @Sing NumR} {BR : @Brent NumR} {SH : Shuffle}.

(** the errors of all submodels are numbers / raise *)
Definition fin_err (e : @elm NumR) : Prop := forall T (A B : list (list R)), wide (s_outputs (e_net e)) T -> length A = length T -> T <> [] ->
  exists w, (let? x := error_ e T (@mmul NumR (s_outputs (e_net e)) A B) in @xfin NumR x) = Ok w.
Definition bad_err (e : @elm NumR) : Prop := forall T (A B : list (list R)), length A = length T ->
  exists x, (let? x := error_ e T (@mmul NumR (s_outputs (e_net e)) A B) in @xfin NumR x) = Err x.

Lemma fin_plain : forall e, ErrThms.plain (e_class e) -> (0 < s_outputs (e_net e))%nat -> fin_err e.
Proof. intros e Hp Ho T A B WT HL HN. now apply error_finite. Qed.
Lemma fin_wc : forall e ws, e_class e = Some "wc"%string -> e_wc e = Some (fin_all ws) -> length ws = s_outputs (e_net e) -> Rsum ws <> 0 -> fin_err e.
Proof.
  intros e ws He Hw Hl Hs T A B WT HL HN. unfold error_. rewrite He, Hw, (raw_error_wc ws); auto; [cbn; eauto|].
  destruct (mmul_wide (s_outputs (e_net e)) A B) as [_ W2]. etransitivity; [symmetry; exact HL|symmetry; exact W2].
Qed.
Lemma fin_task : forall e e', same_task e e' -> fin_err e -> fin_err e'.
Proof. intros e e' (T1 & T2 & T3) HF T A B. unfold error_. rewrite T1, T2, T3. apply HF. Qed.
Lemma bad_task : forall e e', same_task e e' -> bad_err e -> bad_err e'.
Proof. intros e e' (T1 & T2 & T3) HF T A B. unfold error_. rewrite T1, T2, T3. apply HF. Qed.

(** the weighted error of a model whose weights are not numbers, or sum to 0 *)
Lemma wc_rates : forall (T Y : list (list R)) c, length T = length Y ->
  mapM (fun i => @class_err NumR Y (@rows_with NumR T i) (fun _ y => @Fin NumR (b2n (neq_arg y i)))) (seq 0 c) = Ok (map (fun k => @Fin NumR (class_rate T Y k)) (seq 0 c)).
Proof. intros. apply mapM_ok_map. intros. now apply class_err_rate. Qed.

Lemma np_div_zero : forall a : R, @np_div NumR a 0 = if Req_EM_T a 0 then XNaN else @xinf NumR (nltb 0 a).
Proof.
  intros a. unfold np_div. change (@neqb NumR 0 n0) with (Reqb 0 0). change (@neqb NumR a n0) with (Reqb a 0). unfold Reqb.
  destruct (Req_EM_T 0 0) as [|C]; [|exfalso; apply C; reflexivity]. destruct (Req_EM_T a 0); reflexivity.
Qed.

Lemma bad_zero : forall e ws, e_class e = Some "wc"%string -> e_wc e = Some (fin_all ws) -> length ws = s_outputs (e_net e) -> Rsum ws = 0 -> bad_err e.
Proof.
  intros e ws He Hw Hl Hs T A B HL. unfold error_, raw_error. rewrite He, Hw.
  destruct (mmul_wide (s_outputs (e_net e)) A B) as [_ W2].
  assert (length T = length (@mmul NumR (s_outputs (e_net e)) A B)) as HT by (etransitivity; [symmetry; exact HL|symmetry; exact W2]).
  rewrite (wc_rates _ _ _ HT). cbn [rbind]. set (Y := @mmul NumR (s_outputs (e_net e)) A B) in *.
  rewrite <- (map_map (class_rate T Y) (@Fin NumR)). unfold fin_all.
  rewrite bcast_eq by (rewrite !map_length, seq_length; auto). cbn [rbind]. cbn [num NumR] in *. rewrite wsum_fin, xsum_fin, Hs. cbn [xdiv].
  rewrite np_div_zero. destruct (Req_EM_T _ 0); [cbn; eauto|]. match goal with |- context [xinf ?b] => destruct b end; cbn; eauto.
Qed.

Lemma xsum_inf : forall l, Forall xnn l -> In (@PInf NumR) l -> @xsum NumR l = PInf \/ @xsum NumR l = XNaN.
Proof.
  induction l as [|x l IH]; intros HF Hin; [contradiction|]. inversion HF; subst. unfold xsum in *. cbn [fold_right].
  destruct Hin as [->|Hin].
  - destruct (fold_right _ _ l) eqn:E; cbn; auto.
  - destruct (IH H2 Hin) as [->| ->]; destruct x; cbn; auto.
Qed.

(** automatic weights: the weight of a class without samples is infinite *)
Lemma auto_absent : forall c T ks k, Forall2 (has_class c) T ks -> T <> [] -> (k < c)%nat -> ~ In k ks -> nth_error (@auto_wc NumR c T) k = Some PInf.
Proof.
  intros c T ks k HF HN Hk Hin. unfold auto_wc. cbv zeta.
  assert (Forall (fun a => 0 <= a) (@col_sums NumR c T)) as HC.
  { apply Forall_forall. intros a Ha. unfold col_sums, mkv in Ha. apply in_map_iff in Ha as (j & <- & Hj). apply in_seq in Hj.
    rewrite (col_count c T ks j HF) by lia. apply pos_INR. }
  assert (0 < @nsum NumR (@col_sums NumR c T)) as HS.
  { destruct ks as [|j ks']; [inversion HF; subst; congruence|]. inversion HF as [|x j0 l ks0 HcX HF' EX EJ]; subst. destruct HcX as (_ & Hj & _).
    assert (In (INR (count_occ Nat.eq_dec (j :: ks') j)) (@col_sums NumR c (x :: l))) as HI.
    { unfold col_sums, mkv. apply in_map_iff. exists j. split; [apply (col_count c _ (j :: ks') j HF Hj)|apply in_seq; lia]. }
    assert (0 < INR (count_occ Nat.eq_dec (j :: ks') j)) as HP by (apply lt_0_INR, count_occ_In; left; reflexivity).
    revert HC HI HP. generalize (@col_sums NumR c (x :: l)) (INR (count_occ Nat.eq_dec (j :: ks') j)). clear. intros l v HC HI HP.
    induction l as [|b l IH]; [contradiction|]. inversion HC; subst. change (@nsum NumR (b :: l)) with (b + @nsum NumR l).
    pose proof (nsum_nonneg l H2). destruct HI as [->|HI]; [lra|]. specialize (IH H2 HI). lra. }
  assert (nth_error (@col_sums NumR c T) k = Some 0) as EN.
  { unfold col_sums, mkv. rewrite nth_error_map, nth_error_nth' with (d := 0%nat) by (rewrite seq_length; exact Hk). cbn [option_map]. rewrite seq_nth by exact Hk. cbn [Nat.add].
    f_equal. rewrite (col_count c T ks k HF Hk). rewrite (proj1 (count_occ_not_In Nat.eq_dec ks k) Hin). reflexivity. }
  rewrite nth_error_map, EN. cbn [option_map]. f_equal. rewrite np_div_zero. destruct (Req_EM_T _ 0) as [C|C]; [cbn [num NumR] in *; lra|].
  cbn [nltb NumR]. unfold Rltb. destruct (Rlt_dec 0 _) as [|D]; [reflexivity|]. contradiction.
Qed.
Lemma auto_present : forall c T ks, Forall2 (has_class c) T ks -> T <> [] -> (forall k, (k < c)%nat -> In k ks) -> (0 < c)%nat ->
  exists ws, @auto_wc NumR c T = fin_all ws /\ length ws = c /\ Rsum ws <> 0.
Proof.
  intros c T ks HF HN Hin Hc. exists (map (auto_weight ks) (seq 0 c)). split; [|split; [rewrite map_length, seq_length; reflexivity|]].
  - apply (nth_ext _ _ XNaN XNaN).
    + unfold auto_wc, fin_all. cbv zeta. rewrite !map_length. unfold col_sums. rewrite mkv_length, seq_length. reflexivity.
    + intros k Hk. assert (k < c)%nat as Hkc by (unfold auto_wc in Hk; cbv zeta in Hk; rewrite map_length in Hk; unfold col_sums in Hk; rewrite mkv_length in Hk; exact Hk).
      pose proof (auto_wc_class c T ks k HF (Hin k Hkc)) as Q. cbn [num NumR] in Q. rewrite (nth_error_nth _ _ _ Q). unfold fin_all. rewrite map_map.
      rewrite nth_map_lt with (da := 0%nat) by (rewrite seq_length; exact Hkc). rewrite seq_nth by exact Hkc. reflexivity.
  - assert (0 < Rsum (map (auto_weight ks) (seq 0 c))) as Q; [|lra].
    assert (0 < length ks)%nat as HL. { destruct ks; [specialize (Hin 0%nat Hc); contradiction|cbn; lia]. }
    assert (forall k, (k < c)%nat -> 0 < auto_weight ks k) as HP.
    { intros k Hk. unfold auto_weight. apply Rdiv_lt_0_compat; apply lt_0_INR; [exact HL|]. now apply count_occ_In, Hin. }
    clear - HP Hc. assert (forall n a, (a + n <= c)%nat -> 0 <= Rsum (map (auto_weight ks) (seq a n)) /\ ((0 < n)%nat -> 0 < Rsum (map (auto_weight ks) (seq a n)))) as G.
    { induction n as [|n IH]; intros a Ha; cbn [seq map]; [split; [unfold Rsum; cbn; lra|lia]|]. destruct (IH (S a) ltac:(lia)) as [G _].
      assert (0 < auto_weight ks a) by (apply HP; lia). change (Rsum (auto_weight ks a :: map (auto_weight ks) (seq (S a) n))) with (auto_weight ks a + Rsum (map (auto_weight ks) (seq (S a) n))). split; intros; lra. }
    apply (G c 0%nat); lia.
Qed.
Lemma bad_inf : forall e (w : list (@xnum NumR)), e_class e = Some "wc"%string -> e_wc e = Some w -> Forall xnn w -> In PInf w -> length w = s_outputs (e_net e) -> bad_err e.
Proof.
  intros e w He Hw Hnn Hin Hl T A B HL. unfold error_, raw_error. rewrite He, Hw.
  destruct (mmul_wide (s_outputs (e_net e)) A B) as [_ W2].
  assert (length T = length (@mmul NumR (s_outputs (e_net e)) A B)) as HT by (etransitivity; [symmetry; exact HL|symmetry; exact W2]).
  rewrite (wc_rates _ _ _ HT). cbn [rbind]. set (Y := @mmul NumR (s_outputs (e_net e)) A B) in *.
  rewrite bcast_eq by (rewrite map_length, seq_length; auto). cbn [rbind]. cbn [num NumR] in *.
  assert (exists p, In p (combine (map (fun k => @Fin NumR (class_rate T Y k)) (seq 0 (s_outputs (e_net e)))) w) /\ snd p = PInf) as ([a b] & Hp & Hb).
  { apply In_nth_error in Hin as (k & Hk). exists (nth k (combine (map (fun k => @Fin NumR (class_rate T Y k)) (seq 0 (s_outputs (e_net e)))) w) (XNaN, XNaN)).
    assert (k < length w)%nat as Hkl by (apply nth_error_Some; rewrite Hk; discriminate).
    split; [apply nth_In; rewrite combine_length, map_length, seq_length; lia|].
    rewrite combine_nth by (rewrite map_length, seq_length; lia). cbn [snd]. now apply nth_error_nth. }
  cbn [snd] in Hb. subst b.
  assert (exists r, a = @Fin NumR r) as [r ->]. { apply in_combine_l, in_map_iff in Hp as (k & <- & _). eauto. }
  assert (Forall xnn (map (fun q : @xnum NumR * @xnum NumR => xmul (fst q) (snd q)) (combine (map (fun k => @Fin NumR (class_rate T Y k)) (seq 0 (s_outputs (e_net e)))) w))) as HFn.
  { apply Forall_forall. intros x Hx. apply in_map_iff in Hx as ([u v] & <- & Huv). cbn [fst snd]. apply xmul_nn.
    - apply in_combine_l, in_map_iff in Huv as (k & <- & _). cbn [xnn]. unfold class_rate. destruct (members T Y k) as [|m ms] eqn:EM; [lra|].
      unfold Rdiv. apply Rmult_le_pos; [apply pos_INR|]. left. apply Rinv_0_lt_compat, lt_0_INR. cbn; lia.
    - apply in_combine_r in Huv. rewrite Forall_forall in Hnn. auto. }
  assert (xsum w = PInf \/ xsum w = XNaN) as Hsw by now apply xsum_inf.
  set (S := xsum (map _ (combine _ w))). assert (S = PInf \/ S = XNaN) as HS.
  { assert (xmul (@Fin NumR r) PInf = XNaN \/ xmul (@Fin NumR r) PInf = PInf \/ xmul (@Fin NumR r) PInf = NInf) as [E|[E|E]].
    { unfold xmul. destruct (neqb r n0); [left; reflexivity|]. unfold xinf. destruct (nltb n0 r); tauto. }
    - right. apply xsum_nan. rewrite <- E. exact (in_map (fun q : @xnum NumR * @xnum NumR => xmul (fst q) (snd q)) _ _ Hp).
    - apply xsum_inf; [exact HFn|]. rewrite <- E. exact (in_map (fun q : @xnum NumR * @xnum NumR => xmul (fst q) (snd q)) _ _ Hp).
    - exfalso. rewrite Forall_forall in HFn. specialize (HFn _ (in_map (fun q : @xnum NumR * @xnum NumR => xmul (fst q) (snd q)) _ _ Hp)). cbn [fst snd] in HFn. rewrite E in HFn. contradiction. }
  destruct HS as [->| ->], Hsw as [->| ->]; cbn; eauto.
Qed.

(** ** V *)
Lemma select_v_fin : forall e ss Xv Tv Hv, Acc (e_net e) ss -> s_HH (e_net e) <> None -> fin_err e ->
  project (e_net e) Xv = Ok Hv -> length Xv = length Tv -> wide (s_outputs (e_net e)) Tv -> Tv <> [] ->
  simple_ranking e -> (0 < ranked_size e (getL (e_net e)))%nat -> exists r, select_v e Xv Tv = Ok r.
Proof.
  intros e ss Xv Tv Hv HA HH Hf Ep HL WT HN HS HR. unfold select_v. rewrite (get_corr_acc _ _ HA HH). cbn [need_corr rbind]. rewrite Ep. cbn [rbind].
  assert (length Hv = length Tv) as HLv by (apply project_inv in Ep as (_ & _ & ->); rewrite map_length; exact HL).
  assert (ranked_size e (getL (e_net e)) <= getL (e_net e))%nat as HLe by (unfold ranked_size; destruct (e_op e); [destruct (e_kmax e)|]; lia).
  destruct (ranking_ok e 0 (getL (e_net e)) Hv Tv ltac:(lia) HS) as [rk ->]. cbn [rbind]. unfold full_error.
  match goal with |- context [error_ e Tv (mmul _ Hv ?b)] => destruct (Hf Tv Hv b WT HLv HN) as [full ->] end. cbn [rbind].
  destruct (Nat.eqb_spec (ranked_size e (getL (e_net e))) 0); [lia|].
  match goal with |- context [search_from (fun idx => let? v := sub_error e ?HH ?HT Hv Tv (slice rk 0 idx) in Ok (nadd v (nmul (nof_Z idx) ?pen))) (init_table ?size ?L ?f) ?lo _] =>
    destruct (search_ok (fun idx => sub_error e HH HT Hv Tv (slice rk 0 idx)) f pen lo L size ltac:(lia) ltac:(lia)) as [[[m k] t] Es] end.
  { intros i _. unfold sub_error. apply Hf; auto. unfold csel. now rewrite map_length. }
  cbn [num NumR] in *. rewrite Es. cbn [rbind]. eauto.
Qed.
Lemma select_v_bad : forall e Xv Tv Hv, bad_err e -> project (e_net e) Xv = Ok Hv -> length Xv = length Tv -> exists x, select_v e Xv Tv = Err x.
Proof.
  intros e Xv Tv Hv Hb Ep HL. unfold select_v. destruct (need_corr _) as [[HH HT]|x]; cbn [rbind]; [|eauto]. rewrite Ep. cbn [rbind].
  assert (length Hv = length Tv) as HLv by (apply project_inv in Ep as (_ & _ & ->); rewrite map_length; exact HL).
  destruct (ranking _ _ _ _ _) as [[rk L]|x]; cbn [rbind]; [|eauto]. unfold full_error.
  match goal with |- context [error_ e Tv (mmul _ Hv ?b)] => destruct (Hb Tv Hv b HLv) as [x ->] end. cbn [rbind]. eauto.
Qed.

Lemma train_v_either : forall e X T Xv Tv args kw e1 H Hv ws, wf_net (e_net e) -> 0 < s_norm (e_net e) ->
  parse_args e args kw = (e1, Ok tt) -> smem "V" args = true ->
  kw_Xv kw = Some (Arr2 (s_inputs (e_net e)) Xv) -> kw_Tv kw = Some (Arr2 (s_outputs (e_net e)) Tv) ->
  weighting e1 T ws -> (0 < e_batch e1)%Z -> X <> [] -> length X = length T -> wide (s_outputs (e_net e)) T ->
  Tv <> [] -> length Xv = length Tv -> wide (s_outputs (e_net e)) Tv ->
  elm_project e (Arr2 (s_inputs (e_net e)) X) = Ok H -> elm_project e (Arr2 (s_inputs (e_net e)) Xv) = Ok Hv ->
  shuffles ->
  (fin_err (fill_wc e1 T) -> simple_ranking e1 -> (0 < ranked_size e1 (nneurons (s_neurons (e_net e))))%nat ->
     exists e', train e (Arr2 (s_inputs (e_net e)) X) (Arr2 (s_outputs (e_net e)) T) args kw = (e', Ok None)) /\
  (bad_err (fill_wc e1 T) -> exists e' x, train e (Arr2 (s_inputs (e_net e)) X) (Arr2 (s_outputs (e_net e)) T) args kw = (e', Err x)).
Proof.
  intros e X T Xv Tv args kw e1 H Hv ws HW Hn HP HV EXv ETv Hws Hb HX HL WT HNv HLv WTv HPr HPv shuf.
  pose proof (parse_args_ok _ _ _ _ HP) as EN.
  destruct (trained_data e args kw e1 X T H ws HW HP Hb HX HL WT Hws HPr) as (e2 & Ea & A & N & HW2 & En & Eo & Ei & Es & El & Hg & Hwn & Hrs & Hop & Htk).
  unfold train. rewrite checkdata_ok, HP, HV, EXv, ETv by auto.
  assert (checkdata e1 (Arr2 (s_inputs (e_net e)) Xv) (Arr2 (s_outputs (e_net e)) Tv) = Ok (Xv, Tv)) as ->.
  { replace (s_inputs (e_net e)) with (s_inputs (e_net e1)) by (rewrite EN; reflexivity). replace (s_outputs (e_net e)) with (s_outputs (e_net e1)) by (rewrite EN; reflexivity). now apply checkdata_ok. }
  cbn [lift_err fst snd]. unfold train_v. rewrite Ea.
  assert (project (e_net e2) Xv = Ok Hv) as Pv2. { rewrite (project_with (e_net e)); auto. now apply elm_project_arr. }
  split.
  - intros Hf HS HR. destruct (select_v_fin e2 _ Xv Tv Hv A N) as [[[k rank] mt] Esel]; auto.
    { eapply fin_task; [exact Htk|exact Hf]. } { now rewrite Eo. }
    { destruct HS as [HS|HS]; [left; congruence|right]. rewrite Eo. rewrite EN in HS. exact HS. }
    { rewrite Hrs, El, (wf_getL _ HW). exact HR. }
    rewrite Esel. cbn [lift_err].
    destruct (select_v_spec shuf e2 _ Xv Tv k rank mt A N HW2 ltac:(now rewrite En) ltac:(now rewrite El) Hwn Esel) as (Hv' & L & full & Pv & HRk & Hk & _).
    destruct (refit_fitted e e2 X T (slice rank 0 k) H (refit e2 X T (slice rank 0 k)) HW2 ltac:(now rewrite En) En Eo Ei Es) as (F1 & _); auto.
    { intros i Hi. rewrite slice_firstn in Hi by lia. destruct HRk as ((_ & HI) & _). apply HI. rewrite <- (firstn_skipn (Z.to_nat k) rank). apply in_or_app; auto. }
    unfold done. rewrite F1. eauto.
  - intros Hbad. destruct (select_v_bad e2 Xv Tv Hv (bad_task _ _ Htk Hbad) Pv2 HLv) as [x ->]. cbn [lift_err]. eauto.
Qed.

(** given weights *)
Theorem train_v_given : forall e X T Xv Tv args kw e1 H Hv ws ks, wf_net (e_net e) -> 0 < s_norm (e_net e) ->
  parse_args e args kw = (e1, Ok tt) -> smem "V" args = true ->
  kw_Xv kw = Some (Arr2 (s_inputs (e_net e)) Xv) -> kw_Tv kw = Some (Arr2 (s_outputs (e_net e)) Tv) ->
  e_class e1 = Some "wc"%string -> e_wc e1 = Some (map Fin ws) -> length ws = s_outputs (e_net e) -> (forall w, In w ws -> 0 <= w) ->
  Forall2 (has_class (s_outputs (e_net e))) T ks ->
  simple_ranking e1 -> (0 < ranked_size e1 (nneurons (s_neurons (e_net e))))%nat ->
  (0 < e_batch e1)%Z -> X <> [] -> length X = length T -> wide (s_outputs (e_net e)) T ->
  Tv <> [] -> length Xv = length Tv -> wide (s_outputs (e_net e)) Tv ->
  elm_project e (Arr2 (s_inputs (e_net e)) X) = Ok H -> elm_project e (Arr2 (s_inputs (e_net e)) Xv) = Ok Hv ->
  shuffles ->
  ((exists e', train e (Arr2 (s_inputs (e_net e)) X) (Arr2 (s_outputs (e_net e)) T) args kw = (e', Ok None)) <-> Rsum ws <> 0).
Proof.
  intros e X T Xv Tv args kw e1 H Hv ws ks HW Hn HP HV EXv ETv Hcl Hwc Hlw Hnn Hks HS HR Hb HX HL WT HNv HLv WTv HPr HPv shuf.
  pose proof (parse_args_ok _ _ _ _ HP) as EN.
  assert (s_outputs (e_net e1) = s_outputs (e_net e)) as Eo by (rewrite EN; reflexivity).
  assert (is_wc e1 = true) as Hiw by (unfold is_wc; rewrite Hcl; reflexivity).
  assert (fill_wc e1 T = e1) as Hfill by (unfold fill_wc; rewrite Hiw, Hwc; reflexivity).
  assert (weighting e1 T (map (fun k => nth k ws 0) ks)) as Hwt by (constructor; try rewrite Eo; auto).
  destruct (train_v_either e X T Xv Tv args kw e1 H Hv _ HW Hn HP HV EXv ETv Hwt Hb HX HL WT HNv HLv WTv HPr HPv shuf) as [G1 G2]. rewrite Hfill in *.
  split.
  - intros (e' & E) C. destruct G2 as (e'' & x & E2); [|rewrite E in E2; discriminate]. apply (bad_zero e1 ws); auto. now rewrite Eo.
  - intros Hs. apply G1; auto. apply (fin_wc e1 ws); auto. now rewrite Eo.
Qed.
(** automatic weights *)
Theorem train_v_auto : forall e X T Xv Tv args kw e1 H Hv ks, wf_net (e_net e) -> 0 < s_norm (e_net e) ->
  parse_args e args kw = (e1, Ok tt) -> smem "V" args = true ->
  kw_Xv kw = Some (Arr2 (s_inputs (e_net e)) Xv) -> kw_Tv kw = Some (Arr2 (s_outputs (e_net e)) Tv) ->
  e_class e1 = Some "wc"%string -> e_wc e1 = None -> Forall2 (has_class (s_outputs (e_net e))) T ks ->
  simple_ranking e1 -> (0 < ranked_size e1 (nneurons (s_neurons (e_net e))))%nat ->
  (0 < e_batch e1)%Z -> X <> [] -> length X = length T -> wide (s_outputs (e_net e)) T ->
  Tv <> [] -> length Xv = length Tv -> wide (s_outputs (e_net e)) Tv ->
  elm_project e (Arr2 (s_inputs (e_net e)) X) = Ok H -> elm_project e (Arr2 (s_inputs (e_net e)) Xv) = Ok Hv ->
  shuffles ->
  ((exists e', train e (Arr2 (s_inputs (e_net e)) X) (Arr2 (s_outputs (e_net e)) T) args kw = (e', Ok None)) <-> forall k, (k < s_outputs (e_net e))%nat -> In k ks).
Proof.
  intros e X T Xv Tv args kw e1 H Hv ks HW Hn HP HV EXv ETv Hcl Hwc Hks HS HR Hb HX HL WT HNv HLv WTv HPr HPv shuf.
  pose proof (parse_args_ok _ _ _ _ HP) as EN.
  assert (s_outputs (e_net e1) = s_outputs (e_net e)) as Eo by (rewrite EN; reflexivity).
  assert (is_wc e1 = true) as Hiw by (unfold is_wc; rewrite Hcl; reflexivity).
  assert (fill_wc e1 T = with_wc e1 (Some (@auto_wc NumR (s_outputs (e_net e)) T))) as Hfill by (unfold fill_wc; rewrite Hiw, Hwc, Eo; reflexivity).
  assert (weighting e1 T (map (auto_weight ks) ks)) as Hwt by (constructor; try rewrite Eo; auto).
  assert (T <> []) as HNT by (intros ->; destruct X; [congruence|discriminate]).
  destruct (train_v_either e X T Xv Tv args kw e1 H Hv _ HW Hn HP HV EXv ETv Hwt Hb HX HL WT HNv HLv WTv HPr HPv shuf) as [G1 G2]. rewrite Hfill in *.
  assert (0 < s_outputs (e_net e))%nat as Hc. { destruct Hks as [|? ? ? ? (_ & Q & _) _]; [congruence|lia]. }
  split.
  - intros (e' & E) k Hk. destruct (in_dec Nat.eq_dec k ks) as [|C]; [assumption|exfalso].
    destruct G2 as (e'' & x & E2); [|rewrite E in E2; discriminate].
    pose proof (auto_absent _ _ _ k Hks HNT Hk C) as Q. eapply (bad_inf _ (@auto_wc NumR (s_outputs (e_net e)) T)); cbn [e_class e_wc e_net with_wc]; auto.
    + eapply auto_nn; eauto.
    + eapply nth_error_In; eauto.
    + rewrite Eo. unfold auto_wc. cbv zeta. rewrite map_length. unfold col_sums. now rewrite mkv_length.
  - intros Hall. apply G1; auto. destruct (auto_present _ _ _ Hks HNT Hall Hc) as (ws & E1 & E2 & E3).
    apply (fin_wc _ ws); cbn [e_class e_wc e_net with_wc]; auto; [now rewrite E1|now rewrite Eo].
Qed.

Lemma filter_none : forall {A} (f : A -> bool) l, (forall a, In a l -> f a = false) -> filter f l = [].
Proof. induction l as [|a l IH]; intros H; [reflexivity|]. cbn [filter]. rewrite H by (left; reflexivity). apply IH. intros; apply H; right; auto. Qed.
(** LOO with automatic weights and a class without samples *)
Lemma mapM_err : forall {A B} (f : A -> res B) l r, mapM f l = r -> (exists v, r = Ok v /\ length v = length l) \/ exists x, r = Err x.
Proof.
  induction l as [|a l IH]; intros r <-; cbn [mapM]; [left; eexists; split; reflexivity|].
  destruct (f a); cbn [rbind]; [|eauto]. destruct (IH _ eq_refl) as [(v & -> & Hv)|(x & ->)]; cbn [rbind]; [|eauto]. left. eexists. split; [reflexivity|]. cbn. now rewrite Hv.
Qed.
Lemma press_bad : forall e (T Y : list (list R)) rv ks k, e_class e = Some "wc"%string -> Forall2 (has_class (s_outputs (e_net e))) T ks -> T <> [] ->
  (k < s_outputs (e_net e))%nat -> ~ In k ks -> e_wc e = Some (@auto_wc NumR (s_outputs (e_net e)) T) ->
  exists x, (let? x := press_ e T Y rv in @xfin NumR x) = Err x.
Proof.
  intros e T Y rv ks k He Hks HN Hk Hin Hw. unfold press_, raw_press. rewrite He, Hw.
  destruct (mapM _ (seq 0 (s_outputs (e_net e)))) as [errc|x] eqn:Em; cbn [rbind]; [|eauto].
  assert (length (@auto_wc NumR (s_outputs (e_net e)) T) = s_outputs (e_net e)) as HLw by (unfold auto_wc; cbv zeta; rewrite map_length; unfold col_sums; now rewrite mkv_length).
  destruct (mapM_err _ _ _ Em) as [(v & Ev & Hv)|(x & Ex)]; [|discriminate]. injection Ev as <-. rewrite seq_length in Hv.
  assert (nth_error errc k = Some (@Fin NumR 0)) as Ek.
  { clear Hw. assert (forall n a l, mapM (fun i => @class_err NumR Y (@rows_with NumR T i) (fun r y => xsq (np_div (b2n (neq_arg y i)) (vget rv r)))) (seq a n) = Ok l ->
      forall j, (j < n)%nat -> @rows_with NumR T (a + j) = [] -> nth_error l j = Some (@Fin NumR 0)) as G.
    { induction n as [|n IH]; intros a l El j Hj Hr; [lia|]. cbn [seq mapM] in El.
      destruct (@class_err NumR Y (@rows_with NumR T a) _) as [c0|] eqn:Ec; cbn [rbind] in El; [|discriminate].
      destruct (mapM _ (seq (S a) n)) as [l'|] eqn:El'; cbn [rbind] in El; [|discriminate]. injection El as <-.
      destruct j as [|j]; [rewrite Nat.add_0_r in Hr; cbn [num NumR] in *; rewrite Hr in Ec; cbn in Ec |- *; congruence|]. cbn [nth_error].
      apply (IH (S a) l' El' j ltac:(lia)). replace (S a + j)%nat with (a + S j)%nat by lia. exact Hr. }
    apply (G _ _ _ Em k Hk). cbn [Nat.add]. unfold rows_with.
    assert (forall r, In r (seq 0 (length T)) -> @neqb NumR (@mget NumR T r k) n1 = false) as Hz.
    { intros r Hr. apply in_seq in Hr. assert (r < length T)%nat as Hrl by (cbn [num NumR] in *; lia). unfold mget. cbn [neqb NumR]. unfold Reqb. destruct (Req_EM_T _ _) as [C|]; [exfalso|reflexivity].
      pose proof (F2_nth _ _ _ [] 0%nat Hks r Hrl) as (Q1 & Q2 & Q3). cbn [num NumR] in *.
      specialize (Q3 k Hk). change (@n0 NumR) with 0 in C. change (@n1 NumR) with 1 in C.
      assert (nth k (nth r T []) 0 = 1) as C' by exact C. rewrite Q3 in C'. destruct (Nat.eqb_spec k (nth r ks 0%nat)) as [->|]; [|lra].
      apply Hin. apply nth_In. rewrite <- (SelThms.F2_length _ _ _ Hks). exact Hrl. }
    apply filter_none. exact Hz. }
  pose proof (auto_absent _ _ _ k Hks HN Hk Hin) as Qk. clear Em.
  set (w := @auto_wc NumR (s_outputs (e_net e)) T) in *. clearbody w.
  assert (length errc = length w) as Hlen by (etransitivity; [exact Hv|symmetry; exact HLw]).
  rewrite bcast_eq by exact Hlen. cbn [rbind].
  assert (In (@XNaN NumR) (map (fun q : @xnum NumR * @xnum NumR => xmul (fst q) (snd q)) (combine errc w))) as Hnan.
  { apply in_map_iff. exists (@Fin NumR 0, @PInf NumR). split.
    - cbn. unfold Reqb. destruct (Req_EM_T _ _) as [|C]; [reflexivity|exfalso; apply C; reflexivity].
    - clear - Ek Qk. revert k w Ek Qk. induction errc as [|a errc IH]; intros [|k] [|b w] Ek Qk; try discriminate; cbn in *.
      + left. congruence. + right. eauto. }
  unfold xmean. destruct (map _ (combine errc w)) as [|q qs] eqn:Eq; [contradiction|].
  rewrite (xsum_nan _ Hnan). cbn. eauto.
Qed.

Theorem train_loo_absent : forall e X T args kw e1 H ks k, wf_net (e_net e) -> 0 < s_norm (e_net e) ->
  parse_args e args kw = (e1, Ok tt) -> smem "V" args = false -> smem "CV" args = false -> smem "LOO" args = true ->
  e_class e1 = Some "wc"%string -> e_wc e1 = None -> Forall2 (has_class (s_outputs (e_net e))) T ks ->
  (0 < e_batch e1)%Z -> X <> [] -> length X = length T -> wide (s_outputs (e_net e)) T ->
  elm_project e (Arr2 (s_inputs (e_net e)) X) = Ok H -> (k < s_outputs (e_net e))%nat -> ~ In k ks ->
  exists e' x, train e (Arr2 (s_inputs (e_net e)) X) (Arr2 (s_outputs (e_net e)) T) args kw = (e', Err x).
Proof.
  intros e X T args kw e1 H ks k HW Hn HP HV HCV HLOO Hcl Hwc Hks Hb HX HL WT HPr Hk Hin.
  pose proof (parse_args_ok _ _ _ _ HP) as EN.
  assert (s_outputs (e_net e1) = s_outputs (e_net e)) as Eo by (rewrite EN; reflexivity).
  assert (is_wc e1 = true) as Hiw by (unfold is_wc; rewrite Hcl; reflexivity).
  assert (T <> []) as HNT by (intros ->; destruct X; [congruence|discriminate]).
  destruct (trained_data e args kw e1 X T H (map (auto_weight ks) ks) HW HP Hb HX HL WT ltac:(constructor; try rewrite Eo; auto) HPr) as (e2 & Ea & A & N & HW2 & En & Eo2 & Ei & Es & El & Hg & Hwn & Hrs & Hop & Htk).
  unfold train. rewrite checkdata_ok, HP, HV, HCV, HLOO by auto. unfold train_loo.
  assert (project (e_net e1) X = Ok H) as Ep1. { rewrite (project_with (e_net e)); [now apply elm_project_arr|rewrite EN; reflexivity|rewrite EN; reflexivity]. }
  rewrite Ep1. cbn [lift_err]. rewrite Ea.
  assert (exists x, select_loo e2 H T = Err x) as [x ->]; [|cbn [lift_err]; eauto].
  unfold select_loo. destruct (need_corr _) as [[HH HT]|x]; cbn [rbind]; [|eauto].
  destruct (ranking _ _ _ _ _) as [[rk L]|x]; cbn [rbind]; [|eauto].
  unfold loo_error at 1. destruct (inv _ _) as [P|x]; cbn [rbind]; [|eauto].
  destruct Htk as (T1 & T2 & _). unfold fill_wc in T1, T2. rewrite Hiw, Hwc in T1, T2. cbn [e_class e_wc with_wc] in T1, T2. rewrite Eo in T2.
  match goal with |- context [press_ e2 T ?Y ?rv] => destruct (press_bad e2 T Y rv ks k) as [x Ex] end; auto.
  - rewrite T1. exact Hcl.
  - now rewrite Eo2.
  - now rewrite Eo2.
  - rewrite T2, Eo2. reflexivity.
  - rewrite Ex. cbn [rbind]. eauto.
Qed.

(** ** CV *)
Lemma select_cv_fin : forall e fds k L, fin_err e -> (3 <= L)%nat ->
  (forall fd, In fd fds -> length (fd_Hv fd) = length (fd_Tv fd) /\ wide (s_outputs (e_net e)) (fd_Tv fd) /\ fd_Tv fd <> [] /\
                           length (fd_Ht fd) = length (fd_Tt fd) /\ wide (s_outputs (e_net e)) (fd_Tt fd) /\ fd_Tt fd <> []) ->
  exists r, select_cv e fds k L = Ok r.
Proof.
  intros e fds k L Hf H3 HF. unfold select_cv. change (@n0 NumR) with 0.
  assert (forall HH HT Hv T, length Hv = length T -> wide (s_outputs (e_net e)) T -> T <> [] -> exists w, full_error e HH HT Hv T = Ok w) as F1 by (intros; unfold full_error; now apply Hf).
  assert (forall HH HT Hv T ix, length Hv = length T -> wide (s_outputs (e_net e)) T -> T <> [] -> exists w, sub_error e HH HT Hv T ix = Ok w) as F2.
  { intros HH HT Hv T ix Q1 Q2 Q3. unfold sub_error. apply Hf; auto. unfold csel. now rewrite map_length. }
  destruct (avg_ok (fun fd => full_error e (fd_HH fd) (fd_HT fd) (fd_Hv fd) (fd_Tv fd)) k fds ltac:(intros fd Hfd; destruct (HF fd Hfd) as (Q1 & Q2 & Q3 & Q4 & Q5 & Q6); apply F1; assumption) 0) as [full Ef].
  cbn [num NumR] in *. rewrite Ef. cbn [rbind]. destruct (Nat.eqb_spec L 0); [lia|].
  match goal with |- context [search_from _ (init_table ?size ?L' ?f) ?lo _] =>
    destruct (search_ok (fun i => @avg_folds NumR (fun fd => sub_error e (fd_HH fd) (fd_HT fd) (fd_Hv fd) (fd_Tv fd) (slice (fd_rank fd) 0 i)) k fds 0)
      f (@penalty_of NumR full L) lo L' size ltac:(lia) ltac:(lia)) as [[[m kk] t] Es] end.
  { intros i _. apply avg_ok. intros fd Hfd. destruct (HF fd Hfd) as (Q1 & Q2 & Q3 & _). apply F2; assumption. }
  cbn [num NumR] in *. rewrite Es. cbn [rbind].
  destruct (avg_ok (fun fd => full_error e (fd_HH fd) (fd_HT fd) (fd_Ht fd) (fd_Tt fd)) k fds ltac:(intros fd Hfd; destruct (HF fd Hfd) as (Q1 & Q2 & Q3 & Q4 & Q5 & Q6); apply F1; assumption) 0) as [et Et].
  cbn [num NumR] in *. rewrite Et. cbn [rbind]. eauto.
Qed.
Lemma avg_bad : forall (f : fold_data -> res R) k fds fd x, In fd fds -> f fd = Err x -> forall acc, exists y, @avg_folds NumR f k fds acc = Err y.
Proof.
  induction fds as [|fd0 fds IH]; intros fd x Hin Ex acc; [contradiction|]. cbn [avg_folds]. destruct Hin as [->|Hin]; [rewrite Ex; cbn; eauto|].
  destruct (f fd0); cbn [rbind]; [|eauto]. eapply IH; eauto.
Qed.
Lemma select_cv_bad : forall e fds k L fd x, In fd fds -> full_error e (fd_HH fd) (fd_HT fd) (fd_Hv fd) (fd_Tv fd) = Err x -> exists y, select_cv e fds k L = Err y.
Proof.
  intros e fds k L fd x Hin Ex. unfold select_cv.
  destruct (avg_bad (fun fd => full_error e (fd_HH fd) (fd_HT fd) (fd_Hv fd) (fd_Tv fd)) k fds fd x Hin Ex (@n0 NumR)) as [y Ey].
  cbn [num NumR] in *. rewrite Ey. cbn [rbind]. eauto.
Qed.
(** with fewer samples than parts a validation part is empty *)
Lemma part_empty : forall N k, (3 <= k)%nat -> (N < k)%nat -> exists i, (i < k)%nat /\ val_part (fold_parts N k i) = [].
Proof.
  intros N k Hk HN. exists ((N + 2) mod k)%nat. split; [apply Nat.mod_upper_bound; lia|].
  unfold fold_parts, val_part. cbn [fst snd]. rewrite nth_map_lt with (da := 0%nat) by (rewrite seq_length; lia). rewrite seq_nth by lia. cbn [Nat.add].
  rewrite Nat.add_mod_idemp_l by lia. replace (N + 2 + (k - 2))%nat with (N + 1 * k)%nat by lia. rewrite Nat.mod_add by lia. rewrite (Nat.mod_small N k) by lia.
  unfold fold_idx. assert (forall n, In n (seq 0 N) -> (n mod k =? N)%nat = false) as G.
  { intros n Hn. apply in_seq in Hn. rewrite Nat.mod_small by lia. apply Nat.eqb_neq. lia. }
  revert G. generalize (seq 0 N). induction l as [|a l IH]; intros G; [reflexivity|]. cbn [filter]. rewrite G by (left; reflexivity). apply IH. intros; apply G; right; auto.
Qed.
Lemma plain_empty : forall e (A B : list (list R)), ErrThms.plain (e_class e) -> length A = 0%nat ->
  exists x, (let? x := error_ e [] (@mmul NumR (s_outputs (e_net e)) A B) in @xfin NumR x) = Err x.
Proof. intros e [|] B Hp HA; [|discriminate]. unfold error_. destruct Hp as [->|[->| ->]]; cbn; eauto. Qed.

Lemma train_cv_either : forall e X T args kw k e1 H, shuffles -> wf_net (e_net e) -> 0 < s_norm (e_net e) ->
  parse_args e args kw = (e1, Ok tt) -> smem "V" args = false -> smem "CV" args = true -> kw_k kw = Some k -> (3 <= k)%nat ->
  weights_nn e1 -> simple_ranking e1 -> (0 < nneurons (s_neurons (e_net e)))%nat ->
  length X = length T -> wide (s_outputs (e_net e)) T ->
  elm_project e (Arr2 (s_inputs (e_net e)) X) = Ok H ->
  (fin_err e1 -> (3 <= ranked_size e1 (nneurons (s_neurons (e_net e))))%nat -> (k <= length X)%nat ->
    exists e' err_t, train e (Arr2 (s_inputs (e_net e)) X) (Arr2 (s_outputs (e_net e)) T) args kw = (e', Ok (Some err_t))) /\
  (bad_err e1 \/ (ErrThms.plain (e_class e1) /\ (length X < k)%nat) ->
    exists e' x, train e (Arr2 (s_inputs (e_net e)) X) (Arr2 (s_outputs (e_net e)) T) args kw = (e', Err x)) /\
  (e_class e1 = Some "wc"%string -> e_wc e1 = None ->
    exists e', train e (Arr2 (s_inputs (e_net e)) X) (Arr2 (s_outputs (e_net e)) T) args kw = (e', Err TypeError)).
Proof.
  intros e X T args kw k e1 H shuf HW Hn HP HV HCV Ek Hk Hwn HS HG HL WT HPr.
  pose proof (parse_args_ok _ _ _ _ HP) as EN.
  unfold train. rewrite checkdata_ok, HP, HV, HCV, Ek by auto.
  destruct (Nat.leb_spec 3 k) as [H3|]; [|lia]. unfold train_cv.
  assert (wf_net (e_net e1)) as HW1 by (rewrite EN; now apply wf_reset).
  assert (s_outputs (e_net e1) = s_outputs (e_net e) /\ s_inputs (e_net e1) = s_inputs (e_net e) /\ s_neurons (e_net e1) = s_neurons (e_net e) /\ s_norm (e_net e1) = s_norm (e_net e) /\ getL (e_net e1) = getL (e_net e)) as (Eo & Ei & Es & Em & El) by (rewrite EN, (wf_getL _ HW); repeat split; reflexivity).
  assert (project (e_net e1) X = Ok H) as HP1. { rewrite (project_with (e_net e)); auto. now apply elm_project_arr. }
  assert (length H = length X) as HLH by (destruct (elm_project_inv _ _ _ HPr) as (_ & _ & ->); apply map_length).
  rewrite <- (wf_getL _ HW), <- El in HG |- *.
  assert (ranked_size e1 (getL (e_net e1)) <= getL (e_net e1))%nat as HLe by (unfold ranked_size; destruct (e_op e1); [destruct (e_kmax e1)|]; lia).
  assert (forall i, In i (seq 0 k) -> (i < k)%nat) as Hsq by (intros i Hi; apply in_seq in Hi; lia).
  assert (like (e_net e1) (e_net e1)) as Hlk by (repeat split; auto; apply HW1).
  assert (e1 = with_net e1 (e_net e1)) as He1 by (destruct e1; reflexivity).
  destruct (build_folds_ok e1 X T H k HW1 HP1 HL ltac:(rewrite Eo; exact WT) ltac:(lia) ltac:(lia) HS (seq 0 k) e1 (getL (e_net e1)) Hsq He1 Hlk) as (e2 & [fds L] & Eb).
  rewrite Eb.
  destruct (build_folds_spec shuf e1 X T H k HW1 HP1 HL ltac:(rewrite Eo; exact WT) ltac:(lia) (seq 0 k) e1 (getL (e_net e1)) e2 fds L Hsq He1 Hlk Eb) as (B1 & B2 & B3 & B4).
  assert (L = ranked_size e1 (getL (e_net e1))) as EL. { rewrite B4. destruct k; [lia|reflexivity]. } clear B4.
  pose proof (like_getL _ _ HW1 B2) as EG. destruct B2 as (M1 & M2 & M3 & M4 & M5).
  assert (same_task e1 e2) as Htk by (rewrite B1; repeat split; exact M3).
  assert (length fds = k) as Lf by (rewrite <- (F2_length _ _ _ B3); apply seq_length).
  assert (forall i, (i < k)%nat -> fold_ok e1 H T k i (nth i fds (mkFold [] [] [] [] [] [] []))) as HFok.
  { intros i Hi. pose proof (F2_nth _ _ _ 0%nat (mkFold [] [] [] [] [] [] []) B3 i ltac:(rewrite seq_length; cbn [num NumR] in *; lia)) as Q. rewrite seq_nth in Q by (cbn [num NumR] in *; lia). exact Q. }
  assert (forall i, (i < k)%nat -> In (nth i fds (mkFold [] [] [] [] [] [] [])) fds) as HIn by (intros i Hi; apply nth_In; cbn [num NumR] in *; lia).
  split; [|split].
  - intros Hf HR Hk2.
    destruct (select_cv_fin e2 fds k L) as [[[[kopt rank] err_t] t] Esel].
    { exact (fin_task _ _ Htk Hf). } { lia. }
    { intros fd Hfd. apply (In_nth _ _ (mkFold [] [] [] [] [] [] [])) in Hfd as (i & Hi & <-).
      destruct (HFok i ltac:(cbn [num NumR] in *; lia)) as (_ & _ & Q3 & Q4 & Q5 & Q6 & _). cbn [num NumR] in *. rewrite Q3, Q4, Q5, Q6.
      destruct (parts_nonempty (length H) k i ltac:(lia) ltac:(lia) ltac:(lia)) as [P1 P2]. rewrite M3, Eo.
      assert (forall n, In n (val_part (fold_parts (length H) k i)) \/ In n (test_part (fold_parts (length H) k i)) -> (n < length T)%nat) as Hin.
      { intros n Hn'. rewrite <- HL, <- HLH. apply (fold_parts_in (length H) k i n); try lia. right. exact Hn'. }
      unfold pick at 1 2 4 5 6 8. rewrite !map_length. split; [reflexivity|]. split; [apply pick_wide; auto|]. split; [intros C; apply map_eq_nil in C; auto|].
      split; [reflexivity|]. split; [apply pick_wide; auto|]. intros C; apply map_eq_nil in C; auto. }
    rewrite Esel. cbn [lift_err].
    destruct (select_cv_spec e2 H T k fds L kopt rank err_t t M5) as (ranks & full & S1 & S2 & S3 & S4 & _); auto.
    { rewrite M4, Em. exact Hn. } { rewrite B1. exact Hwn. } { lia. } { rewrite EG. apply (wide_project _ _ _ HW1 HP1). }
    { eapply F2_impl; [|exact B3]. intros i fd (O1 & O2 & O3 & O4 & O5 & O6 & O7). unfold fold_ok. cbv zeta. rewrite EG, M3, M4.
      split; [exact O1|]. split; [exact O2|]. split; [exact O3|]. split; [exact O4|]. split; [exact O5|]. split; [exact O6|].
      intros HN0. rewrite B1 in HN0. specialize (O7 HN0). rewrite B1. destruct O7 as (Q1 & Q2 & Q3 & Q4). split; [exact Q1|]. split; [exact Q2|]. split; [exact Q3|].
      cbn [e_op e_net with_net]. rewrite M3. exact Q4. }
    { rewrite EL, B1. cbn [e_net with_net]. rewrite EG. reflexivity. }
    rewrite slice_firstn by lia.
    destruct (refit_fitted e e2 X T (firstn (Z.to_nat kopt) rank) H (refit e2 X T (firstn (Z.to_nat kopt) rank)) M5 ltac:(rewrite M4, Em; exact Hn)) as (F1 & _); try congruence.
    { intros i Hi. destruct (S2 (k - 1)%nat ltac:(lia)) as ((_ & HRk) & _). apply HRk. rewrite <- S3. rewrite <- (firstn_skipn (Z.to_nat kopt) rank). apply in_or_app; auto. }
    unfold done. rewrite F1. eauto.
  - intros Hc. assert (exists fd x, In fd fds /\ full_error e2 (fd_HH fd) (fd_HT fd) (fd_Hv fd) (fd_Tv fd) = Err x) as (fd & x & Hfd & Ex).
    { destruct Hc as [Hb|[Hp HNk]].
      - destruct (HFok 0%nat ltac:(lia)) as (_ & _ & Q3 & Q4 & _). eexists. unfold full_error.
        match goal with |- exists x, In ?fd _ /\ _ => idtac | _ => idtac end.
        edestruct (bad_task _ _ Htk Hb) as [x Ex]; [|exists x; split; [apply (HIn 0%nat); lia|exact Ex]].
        cbn [num NumR] in *. rewrite Q3, Q4. unfold pick. now rewrite !map_length.
      - destruct (part_empty (length H) k Hk ltac:(lia)) as (i & Hi & Hv). destruct (HFok i Hi) as (_ & _ & Q3 & Q4 & _).
        cbn [num NumR] in *. rewrite Hv in Q3, Q4. exists (nth i fds (mkFold [] [] [] [] [] [] [])). unfold full_error. cbn [num NumR] in *. rewrite Q3, Q4.
        edestruct (plain_empty e2 (pick H [])) as [x Ex]; [rewrite B1; exact Hp|reflexivity|]. exists x. split; [now apply HIn|exact Ex]. }
    destruct (select_cv_bad e2 fds k L fd x Hfd Ex) as [y ->]. cbn [lift_err]. eauto.
  - intros Hcl Hwc. assert (select_cv e2 fds k L = Err TypeError) as ->; [|cbn [lift_err]; eauto].
    assert (avg_folds (fun fd => full_error e2 (fd_HH fd) (fd_HT fd) (fd_Hv fd) (fd_Tv fd)) k fds (@n0 NumR) = Err TypeError) as Q.
    { destruct fds as [|fd fds']; [cbn in Lf; lia|]. destruct (HFok 0%nat ltac:(lia)) as (_ & _ & Q3 & Q4 & _). cbn [nth] in Q3, Q4.
      cbn [avg_folds]. unfold full_error at 1, error_, raw_error. replace (e_class e2) with (e_class e1) by (rewrite B1; reflexivity). replace (e_wc e2) with (e_wc e1) by (rewrite B1; reflexivity).
      rewrite Hcl, Hwc. match goal with |- context [mmul ?c (fd_Hv fd) ?b] => pose proof (mmul_wide c (fd_Hv fd) b) as [_ W2] end.
      rewrite wc_rates; [reflexivity|]. cbn [num NumR] in *. rewrite W2, Q3, Q4. unfold pick. now rewrite !map_length. }
    unfold select_cv. rewrite Q. reflexivity.
Qed.

Theorem train_cv_exact : forall e X T args kw k e1 H, shuffles -> wf_net (e_net e) -> 0 < s_norm (e_net e) -> (0 < s_outputs (e_net e))%nat ->
  parse_args e args kw = (e1, Ok tt) -> smem "V" args = false -> smem "CV" args = true -> kw_k kw = Some k ->
  ErrThms.plain (e_class e1) -> simple_ranking e1 -> (0 < nneurons (s_neurons (e_net e)))%nat ->
  (forall ws w, kw_w kw = Some ws -> In w ws -> 0 <= w) ->
  length X = length T -> wide (s_outputs (e_net e)) T ->
  elm_project e (Arr2 (s_inputs (e_net e)) X) = Ok H ->
  ((exists e' err_t, train e (Arr2 (s_inputs (e_net e)) X) (Arr2 (s_outputs (e_net e)) T) args kw = (e', Ok (Some err_t))) <->
   (3 <= k <= length X)%nat /\ (3 <= ranked_size e1 (nneurons (s_neurons (e_net e))))%nat).
Proof.
  intros e X T args kw k e1 H shuf HW Hn Ho HP HV HCV Ek Hp HS HG Hkw HL WT HPr.
  pose proof (parse_args_ok _ _ _ _ HP) as EN.
  split.
  - intros (e' & t & E). destruct (le_lt_dec 3 k) as [H3|H3].
    2:{ exfalso. unfold train in E. rewrite checkdata_ok, HP, HV, HCV, Ek in E by auto. destruct (Nat.leb_spec 3 k) as [C|]; [lia|]. discriminate. }
    destruct (train_cv_either e X T args kw k e1 H shuf HW Hn HP HV HCV Ek H3 (plain_nn _ Hp) HS HG HL WT HPr) as (_ & G2 & _).
    split; [split; [lia|]|].
    + destruct (le_lt_dec k (length X)) as [|C]; [auto|exfalso]. destruct G2 as (e'' & x & E2); [right; auto|]. rewrite E in E2. discriminate.
    + destruct (le_lt_dec 3 (ranked_size e1 (nneurons (s_neurons (e_net e))))) as [|C]; [auto|exfalso].
      destruct (train_cv_small e X T args kw k e1 H) as (e'' & x & E2); auto. rewrite E in E2. discriminate.
  - intros ((H3 & Hk) & HR).
    destruct (train_cv_either e X T args kw k e1 H shuf HW Hn HP HV HCV Ek H3 (plain_nn _ Hp) HS HG HL WT HPr) as (G1 & _).
    apply G1; auto. apply fin_plain; auto. rewrite EN. exact Ho.
Qed.
Theorem train_cv_weighted : forall e X T args kw k e1 H ws, shuffles -> wf_net (e_net e) -> 0 < s_norm (e_net e) ->
  parse_args e args kw = (e1, Ok tt) -> smem "V" args = false -> smem "CV" args = true -> kw_k kw = Some k -> (3 <= k <= length X)%nat ->
  e_class e1 = Some "wc"%string -> e_wc e1 = Some (map Fin ws) -> length ws = s_outputs (e_net e) -> (forall w, In w ws -> 0 <= w) ->
  simple_ranking e1 -> (3 <= ranked_size e1 (nneurons (s_neurons (e_net e))))%nat ->
  length X = length T -> wide (s_outputs (e_net e)) T ->
  elm_project e (Arr2 (s_inputs (e_net e)) X) = Ok H ->
  ((exists e' err_t, train e (Arr2 (s_inputs (e_net e)) X) (Arr2 (s_outputs (e_net e)) T) args kw = (e', Ok (Some err_t))) <-> Rsum ws <> 0).
Proof.
  intros e X T args kw k e1 H ws shuf HW Hn HP HV HCV Ek Hk Hcl Hwc Hlw Hnn HS HR HL WT HPr.
  pose proof (parse_args_ok _ _ _ _ HP) as EN.
  assert (s_outputs (e_net e1) = s_outputs (e_net e)) as Eo by (rewrite EN; reflexivity).
  assert (weights_nn e1) as Hwn. { intros _ w E. rewrite Hwc in E. injection E as <-. apply Forall_forall. intros x Hx. apply in_map_iff in Hx as (a & <- & Ha). cbn. auto. }
  assert (0 < nneurons (s_neurons (e_net e)))%nat as HG.
  { assert (ranked_size e1 (nneurons (s_neurons (e_net e))) <= nneurons (s_neurons (e_net e)))%nat by (unfold ranked_size; destruct (e_op e1); [destruct (e_kmax e1)|]; lia). lia. }
  destruct (train_cv_either e X T args kw k e1 H shuf HW Hn HP HV HCV Ek ltac:(lia) Hwn HS HG HL WT HPr) as (G1 & G2 & _).
  split.
  - intros (e' & t & E) C. destruct G2 as (e'' & x & E2); [|rewrite E in E2; discriminate]. left. apply (bad_zero e1 ws); auto. now rewrite Eo.
  - intros Hs. apply G1; auto; [|lia]. apply (fin_wc e1 ws); auto. now rewrite Eo.
Qed.
Theorem train_cv_auto : forall e X T args kw k e1 H, shuffles -> wf_net (e_net e) -> 0 < s_norm (e_net e) ->
  parse_args e args kw = (e1, Ok tt) -> smem "V" args = false -> smem "CV" args = true -> kw_k kw = Some k -> (3 <= k)%nat ->
  e_class e1 = Some "wc"%string -> e_wc e1 = None ->
  simple_ranking e1 -> (0 < nneurons (s_neurons (e_net e)))%nat ->
  length X = length T -> wide (s_outputs (e_net e)) T ->
  elm_project e (Arr2 (s_inputs (e_net e)) X) = Ok H ->
  exists e', train e (Arr2 (s_inputs (e_net e)) X) (Arr2 (s_outputs (e_net e)) T) args kw = (e', Err TypeError).
Proof.
  intros e X T args kw k e1 H shuf HW Hn HP HV HCV Ek Hk Hcl Hwc HS HG HL WT HPr.
  destruct (train_cv_either e X T args kw k e1 H shuf HW Hn HP HV HCV Ek Hk ltac:(intros _ w C; congruence) HS HG HL WT HPr) as (_ & _ & G3). now apply G3.
Qed.
End Works.
