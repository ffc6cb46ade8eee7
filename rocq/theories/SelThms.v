(** train with 'V', 'LOO' and 'CV' (C33-C40; reals). *)
From Coq Require Import Reals Lra Permutation.
From Verif Require Import Base Num Mat LinAlg Slfn Strs Elm Mrsr Search Mss MatFacts SplitProofs Spec ElmFacts RLin
  AccProofs TrainProofs RidgeProofs WfProofs TrainThms IncrThms SolveThms NeuronThms ErrThms SearchThms SelectThms RankThms SubThms MssThms LooThms.
Local Open Scope R_scope.
#[local] Existing Instance NumR.

(** the weights of the training samples: 1 unless 'WC'; given with w=...; or
    computed from the class frequencies *)
Inductive weighting (e : elm) (T : list (list R)) : list R -> Prop :=
| W_plain : is_wc e = false -> weighting e T (repeat 1 (length T))
| W_given : forall ws ks, is_wc e = true -> e_wc e = Some (map Fin ws) -> length ws = s_outputs (e_net e) ->
    (forall w, In w ws -> 0 <= w) -> Forall2 (has_class (s_outputs (e_net e))) T ks ->
    weighting e T (map (fun k => nth k ws 0) ks)
| W_auto : forall ks, is_wc e = true -> e_wc e = None -> Forall2 (has_class (s_outputs (e_net e))) T ks ->
    weighting e T (map (auto_weight ks) ks).

Lemma nsum_nonneg : forall l : list R, Forall (fun a => 0 <= a) l -> 0 <= @nsum NumR l.
Proof. induction 1; [cbn; lra|]. change (@nsum NumR (x :: l)) with (x + @nsum NumR l). lra. Qed.

Lemma auto_nn : forall c T ks, Forall2 (has_class c) T ks -> Forall xnn (@auto_wc NumR c T).
Proof.
  intros c T ks HF. unfold auto_wc. cbv zeta.
  assert (Forall (fun a => 0 <= a) (@col_sums NumR c T)) as HC.
  { apply Forall_forall. intros a Ha. unfold col_sums, mkv in Ha. apply in_map_iff in Ha as (j & <- & Hj). apply in_seq in Hj.
    rewrite (col_count c T ks j HF) by lia. apply pos_INR. }
  apply Forall_forall. intros x Hx. apply in_map_iff in Hx as (a & <- & Ha). apply np_div_nn.
  - now apply nsum_nonneg.
  - rewrite Forall_forall in HC. now apply HC.
Qed.

Lemma F2_length : forall {A B} (P : A -> B -> Prop) l m, Forall2 P l m -> length l = length m.
Proof. induction 1; cbn; auto. Qed.

Lemma weights_auto : forall e T ks, is_wc e = true -> e_wc e = None -> Forall2 (has_class (s_outputs (e_net e))) T ks ->
  exists g, map g T = map (auto_weight ks) ks /\ weights_ok e g T.
Proof.
  intros e T ks Hw Ew HT.
  set (g := fun t : list R => match @where1_row NumR 0 t with [k] => auto_weight ks k | _ => 0 end).
  assert (forall t k, has_class (s_outputs (e_net e)) t k -> g t = auto_weight ks k) as Hg.
  { intros t k Hk. unfold g. now rewrite (where1_row_class _ _ _ Hk). }
  exists g. split.
  - clear -HT Hg. clearbody g. revert Hg. generalize (auto_weight ks) as aw. intros aw Hg.
    induction HT as [|t k T' ks' Hc HF IH]; [reflexivity|]. cbn [map]. rewrite IH, (Hg t k Hc). reflexivity.
  - split.
    + intros t Hin. destruct (classes_in _ _ _ _ HT Hin) as (k & Hk & Hc). rewrite (Hg t k Hc).
      unfold auto_weight. apply Rmult_le_pos; [apply pos_INR|]. left. apply Rinv_0_lt_compat, lt_0_INR.
      now apply count_occ_In.
    + rewrite Hw. unfold fill_wc. rewrite Hw, Ew. eexists. split; [reflexivity|].
      intros t Hin. destruct (classes_in _ _ _ _ HT Hin) as (k & Hk & Hc).
      rewrite (Hg t k Hc), (where1_row_class _ _ _ Hc). unfold wc_index. cbn [mapM].
      rewrite (auto_wc_class _ _ _ _ HT Hk). reflexivity.
Qed.

Section Sel.
Context {SG : @Sing NumR} {BR : @Brent NumR} {SH : Shuffle}.

Lemma weighting_ok : forall e T ws, weighting e T ws -> wide (s_outputs (e_net e)) T -> exists g, ws = map g T /\ weights_ok e g T /\
  weights_nn (fill_wc e T) /\ weights_nn e /\ length ws = length T /\ (is_wc e = false -> forall t, g t = 1).
Proof.
  intros e T ws HW WT. destruct HW as [Hp|ws ks Hw Ew HL Hp HF|ks Hw Ew HF].
  - exists (fun _ => 1). split; [induction T; cbn; [reflexivity|f_equal; apply IHT; inversion WT; auto]|]. split; [now apply weights_plain|].
    split; [intros C; rewrite fill_wc_is_wc in C; congruence|]. split; [intros C; congruence|]. split; [apply repeat_length|auto].
  - assert (weights_nn e) as Hn. { intros _ w E. rewrite Ew in E. injection E as <-. apply Forall_forall. intros x Hx. apply in_map_iff in Hx as (a & <- & Ha). cbn. auto. }
    exists (gw ws). split; [symmetry; now apply (gw_classes (s_outputs (e_net e)))|]. split; [|split; [|split; [exact Hn|split; [|congruence]]]].
    + apply weights_given; auto. intros t Ht. destruct (classes_in _ _ _ _ HF Ht) as (k & _ & Hk). eauto.
    + unfold fill_wc. rewrite Hw, Ew. exact Hn.
    + rewrite map_length. symmetry. eapply F2_length; eauto.
  - destruct (weights_auto e T ks) as (g & G1 & G2); auto.
    exists g. split; [now symmetry|]. split; [exact G2|]. split; [|split; [intros _ w C; congruence|split; [|congruence]]].
    + intros _ w E. unfold fill_wc in E. rewrite Hw, Ew in E. cbn in E. injection E as <-. eapply auto_nn; eauto.
    + rewrite map_length. symmetry. eapply F2_length; eauto.
Qed.

(** [e'] keeps the neurons [ix] of [e] and has the ridge solution with unit weights *)
Definition fitted (e e' : elm) (ix : list nat) (H T : list (list R)) : Prop :=
  exists cols B, Permutation cols ix /\
    (forall c X0 H0, elm_project e (Arr2 c X0) = Ok H0 -> elm_project e' (Arr2 c X0) = Ok (map (keep cols) H0)) /\
    s_B (e_net e') = Some B /\
    ridge_solution (length cols) (s_outputs (e_net e)) (s_norm (e_net e)) (Spec.plain (map (keep cols) H) T) B.

(** [e'] treats targets like [e] *)
Definition same_task (e e' : elm) : Prop := e_class e' = e_class e /\ e_wc e' = e_wc e /\ s_outputs (e_net e') = s_outputs (e_net e).
Lemma task_trans : forall a b c, same_task a b -> same_task b c -> same_task a c.
Proof. intros a b c (A1 & A2 & A3) (B1 & B2 & B3). split; [congruence|]. split; congruence. Qed.
Lemma task_error : forall e e' T Y, same_task e e' -> elm_error e' T Y = elm_error e T Y.
Proof. intros e e' T Y (A & B & C). unfold elm_error, error_. now rewrite A, B, C. Qed.
Lemma task_submodel : forall e e' norm ss Hv Tv ix w, same_task e e' ->
  submodel_error e norm ss Hv Tv ix w -> submodel_error e' norm ss Hv Tv ix w.
Proof.
  intros e e' norm ss Hv Tv ix w HT (B & RS & E). exists B. assert (s_outputs (e_net e') = s_outputs (e_net e)) as Eo by apply HT.
  rewrite Eo. split; [exact RS|]. now rewrite (task_error e e').
Qed.
Lemma selects_ext : forall lo L (err err' : nat -> R -> Prop) full k, (forall i w, err i w -> err' i w) -> selects lo L err full k -> selects lo L err' full k.
Proof.
  intros lo L err err' full k HE (tried & v & A & B & C & N & F & D & G).
  assert (forall i w, charged L err full i w -> charged L err' full i w) as HC.
  { intros i w (w0 & E1 & E2). exists w0. split; [|exact E2]. destruct (i =? L)%nat; auto. }
  exists tried, v. split; [auto|]. split; [auto|]. split; [auto|]. split; [auto|]. split; [auto|]. split.
  - intros i Hi. destruct (D i Hi) as (D1 & D2 & D3). auto.
  - intros g o H1 H2 H3. apply (G g o H1 H2). auto.
Qed.

(** the state after add_data inside train *)
Lemma trained_data : forall e args kw e1 X T H ws, wf_net (e_net e) -> parse_args e args kw = (e1, Ok tt) ->
  (0 < e_batch e1)%Z -> X <> [] -> length X = length T -> wide (s_outputs (e_net e)) T -> weighting e1 T ws ->
  elm_project e (Arr2 (s_inputs (e_net e)) X) = Ok H ->
  exists e2, add_data e1 X T = (e2, Ok tt) /\ Acc (e_net e2) (samples ws H T) /\ s_HH (e_net e2) <> None /\
    wf_net (e_net e2) /\ s_norm (e_net e2) = s_norm (e_net e) /\ s_outputs (e_net e2) = s_outputs (e_net e) /\
    s_inputs (e_net e2) = s_inputs (e_net e) /\ s_neurons (e_net e2) = s_neurons (e_net e) /\ getL (e_net e2) = getL (e_net e) /\
    good (getL (e_net e)) (samples ws H T) /\ weights_nn e2 /\ (forall N, ranked_size e2 N = ranked_size e1 N) /\ e_op e2 = e_op e1 /\
    same_task (fill_wc e1 T) e2.
Proof.
  intros e args kw e1 X T H ws HW HP Hb HX HL WT Hws HPr.
  destruct (elm_project_inv _ _ _ HPr) as (HU & WX & ->).
  pose proof (parse_args_ok _ _ _ _ HP) as EN.
  assert (s_outputs (e_net e1) = s_outputs (e_net e) /\ s_inputs (e_net e1) = s_inputs (e_net e) /\ s_neurons (e_net e1) = s_neurons (e_net e) /\ s_norm (e_net e1) = s_norm (e_net e) /\ getL (e_net e1) = getL (e_net e)) as (Eo & Ei & En & Em & El) by (rewrite EN, (wf_getL _ HW); repeat split; reflexivity).
  destruct (weighting_ok e1 T ws Hws ltac:(rewrite Eo; exact WT)) as (g & -> & G1 & G2 & _).
  assert (Acc (e_net e1) []) as HA by (rewrite EN; reflexivity).
  assert (usable (e_net e1)) as HU1 by (rewrite EN; exact HU).
  destruct (add_data_acc e1 g X T [] HA HU1 Hb HX HL) as (s' & E & A & Es & N); auto; try (rewrite EN; assumption).
  exists (with_net (fill_wc e1 T) s'). split; [exact E|]. cbn [e_net with_net app] in *. rewrite En in A.
  split; [exact A|]. split; [exact N|].
  assert (wf_net s') as HW'. { pose proof (wf_add_data e1 X T) as Q. rewrite E in Q. apply Q. unfold wf_elm. rewrite EN. now apply wf_reset. }
  split; [exact HW'|]. rewrite Es. cbn [s_norm s_outputs s_inputs s_neurons with_corr].
  split; [exact Em|]. split; [exact Eo|]. split; [exact Ei|]. split; [exact En|]. split; [exact El|]. split.
  { apply good_samples.
    - intros w Hin. apply in_map_iff in Hin. destruct Hin as (t & <- & Hin). apply G1; auto.
    - intros h Hin. apply in_map_iff in Hin. destruct Hin as (x & <- & Hin). rewrite (wf_getL _ HW).
      exact (hrow_length (s_inputs (e_net e)) (s_neurons (e_net e)) x (wf_groups _ HW)). }
  split. { intros C w Ew. apply (G2 C w Ew). }
  split. { intros M. unfold ranked_size, fill_wc. destruct (is_wc e1), (e_wc e1); reflexivity. }
  split. { unfold fill_wc. destruct (is_wc e1), (e_wc e1); reflexivity. }
  split; [reflexivity|]. split; [reflexivity|]. rewrite fill_wc_net. reflexivity.
Qed.

Lemma project_with : forall s s' X, s_neurons s' = s_neurons s -> s_inputs s' = s_inputs s -> project s' X = project s X.
Proof. intros s s' X E1 E2. unfold project. now rewrite E1, E2. Qed.
Lemma elm_project_with : forall e e' a, s_neurons (e_net e') = s_neurons (e_net e) -> s_inputs (e_net e') = s_inputs (e_net e) -> elm_project e' a = elm_project e a.
Proof. intros e e' a E1 E2. unfold elm_project. rewrite E2. destruct (check_arr _ _); cbn [rbind]; auto. now apply project_with. Qed.
Lemma elm_project_arr : forall e X H, elm_project e (Arr2 (s_inputs (e_net e)) X) = Ok H <-> project (e_net e) X = Ok H.
Proof. intros. unfold elm_project, check_arr. rewrite Nat.eqb_refl. cbn [rbind]. tauto. Qed.

Lemma checkdata_ok : forall e X T, length X = length T -> checkdata e (Arr2 (s_inputs (e_net e)) X) (Arr2 (s_outputs (e_net e)) T) = Ok (X, T).
Proof. intros e X T HL. unfold checkdata, check_arr. rewrite !Nat.eqb_refl. cbn [rbind]. cbn [num NumR] in *. now rewrite HL, Nat.eqb_refl. Qed.

Lemma refit_fitted : forall e e2 X T best H er, wf_net (e_net e2) -> 0 < s_norm (e_net e2) ->
  s_norm (e_net e2) = s_norm (e_net e) -> s_outputs (e_net e2) = s_outputs (e_net e) -> s_inputs (e_net e2) = s_inputs (e_net e) -> s_neurons (e_net e2) = s_neurons (e_net e) ->
  (forall i, In i best -> (i < getL (e_net e2))%nat) -> length X = length T -> wide (s_outputs (e_net e)) T ->
  elm_project e (Arr2 (s_inputs (e_net e)) X) = Ok H -> refit e2 X T best = er ->
  snd er = Ok tt /\ fitted e (fst er) best H T /\ same_task e2 (fst er).
Proof.
  intros e e2 X T best H er HW Hn En Eo Ei Es Hb HL WT HPr <-.
  assert (project (e_net e2) X = Ok H) as Ep. { rewrite (project_with (e_net e)); auto. now apply elm_project_arr. }
  destruct (refit_spec e2 X T best H HW Hn Hb HL) as (e' & cols & B & E & Pc & Ew & _ & _ & Eo' & _ & _ & Hp & EB & RS); auto.
  { now rewrite Eo. }
  rewrite E. cbn [fst snd]. split; [reflexivity|]. split.
  - exists cols, B. split; [auto|]. split; [|split; [auto|]].
    + intros c X0 H0 E0. apply Hp. now rewrite (elm_project_with e).
    + now rewrite <- En, <- Eo.
  - rewrite Ew. split; [reflexivity|]. split; [reflexivity|]. exact Eo'.
Qed.

Lemma ranked_ext : forall e e' N n rank L, (forall N, ranked_size e' N = ranked_size e N) -> e_op e' = e_op e -> s_outputs (e_net e') = s_outputs (e_net e) ->
  ranked e' N n rank L -> ranked e N n rank L.
Proof. intros e e' N n rank L H1 H2 H3 (A & B & C & D). rewrite H1 in C. rewrite H2, H3 in D. split; [auto|]. split; [auto|]. split; auto. Qed.

Theorem train_v_selects : forall e X T Xv Tv args kw e1 H ws e' v, shuffles ->
  wf_net (e_net e) -> 0 < s_norm (e_net e) ->
  parse_args e args kw = (e1, Ok tt) -> smem "V" args = true ->
  kw_Xv kw = Some (Arr2 (s_inputs (e_net e)) Xv) -> kw_Tv kw = Some (Arr2 (s_outputs (e_net e)) Tv) ->
  (0 < e_batch e1)%Z -> X <> [] -> length X = length T -> wide (s_outputs (e_net e)) T -> weighting e1 T ws ->
  elm_project e (Arr2 (s_inputs (e_net e)) X) = Ok H ->
  train e (Arr2 (s_inputs (e_net e)) X) (Arr2 (s_outputs (e_net e)) T) args kw = (e', Ok v) ->
  v = None /\ exists Hv rank L full k, let N := nneurons (s_neurons (e_net e)) in let norm := s_norm (e_net e) in
    elm_project e (Arr2 (s_inputs (e_net e)) Xv) = Ok Hv /\ ranked e1 N (length Hv) rank L /\
    submodel_error e' norm (samples ws H T) Hv Tv (seq 0 N) full /\
    selects 1 L (fun i => submodel_error e' norm (samples ws H T) Hv Tv (firstn i rank)) full k /\
    fitted e e' (firstn k rank) H T /\ same_task (fill_wc e1 T) e'.
Proof.
  intros e X T Xv Tv args kw e1 H ws e' v shuf HW Hn HP HV EXv ETv Hb HX HL WT Hws HPr E.
  pose proof (parse_args_ok _ _ _ _ HP) as EN.
  destruct (trained_data e args kw e1 X T H ws HW HP Hb HX HL WT Hws HPr) as (e2 & Ea & A & N & HW2 & En & Eo & Ei & Es & El & Hg & Hwn & Hrs & Hop & Htk).
  unfold train in E. rewrite checkdata_ok, HP, HV, EXv, ETv in E by auto.
  destruct (checkdata e1 _ _) as [[xv tv]|] eqn:Ec; cbn [lift_err fst snd] in E; [|discriminate].
  assert (xv = Xv /\ tv = Tv) as [-> ->].
  { unfold checkdata, check_arr in Ec. rewrite EN in Ec. cbn [s_inputs s_outputs reset] in Ec. rewrite !Nat.eqb_refl in Ec. cbn [rbind] in Ec.
    destruct (_ =? _)%nat; [|discriminate]. injection Ec as <- <-. auto. }
  unfold train_v in E. rewrite Ea in E.
  destruct (select_v e2 Xv Tv) as [[[k rank] mt]|] eqn:Esel; cbn [lift_err] in E; [|discriminate].
  destruct (select_v_spec shuf e2 (samples ws H T) Xv Tv k rank mt) as (Hv & L & full & Pv & HR & Hk & Hf & Hs); auto.
  { now rewrite En. } { now rewrite El. }
  rewrite slice_firstn in E by lia.
  destruct (refit_fitted e e2 X T (firstn (Z.to_nat k) rank) H (refit e2 X T (firstn (Z.to_nat k) rank)) HW2 ltac:(now rewrite En) En Eo Ei Es) as (F1 & F2 & F3); auto.
  { intros i Hi. destruct HR as ((_ & HR) & _). apply HR. rewrite <- (firstn_skipn (Z.to_nat k) rank). apply in_or_app; auto. }
  unfold done in E. rewrite F1 in E. injection E as <- <-. split; [reflexivity|].
  exists Hv, rank, L, full, (Z.to_nat k). cbv zeta. rewrite <- (wf_getL _ HW), <- El, <- En.
  split. { apply elm_project_arr. rewrite (project_with (e_net e2)) by auto. exact Pv. }
  split. { apply (ranked_ext e1 e2); auto. rewrite Eo, EN. reflexivity. }
  split; [eapply task_submodel; eauto|]. split; [|split; [exact F2|eapply task_trans; eauto]].
  eapply selects_ext; [|exact Hs]. intros i w. now apply task_submodel.
Qed.

(** ** LOO *)
(** the quantity that 'LOO' computes for the neurons [ix] *)
Definition loo_value (e : elm) (norm : R) (ss : list sample) (H T : list (list R)) (ix : list nat) (w : R) : Prop :=
  loo_error e (length ix) (map (keep ix) H) (spec_HH (length ix) norm (map (keep_sample ix) ss))
            (spec_HT (length ix) (s_outputs (e_net e)) (map (keep_sample ix) ss)) T = Ok w.
Lemma task_loo : forall e e' norm ss H T ix w, same_task e e' -> loo_value e norm ss H T ix w -> loo_value e' norm ss H T ix w.
Proof. intros e e' norm ss H T ix w (A & B & C) E. unfold loo_value, loo_error, press_ in *. now rewrite A, B, C. Qed.

Lemma select_loo_spec : shuffles -> forall e ss H T k rank t, Acc (e_net e) ss -> s_HH (e_net e) <> None ->
  good (getL (e_net e)) ss -> weights_nn e -> Forall (fun h => length h = getL (e_net e)) H ->
  select_loo e H T = Ok (k, rank, t) ->
  exists L full, let N := getL (e_net e) in
    ranked e N (length H) rank L /\ (1 <= k <= Z.of_nat L)%Z /\
    loo_value e (s_norm (e_net e)) ss H T (seq 0 N) full /\
    selects 1 L (fun i => loo_value e (s_norm (e_net e)) ss H T (firstn i rank)) full (Z.to_nat k).
Proof.
  intros shuf e ss H T k rank t0 HA HH Hg Hwt WH E. unfold select_loo in E. rewrite (get_corr_acc _ _ HA HH) in E. cbn [need_corr rbind] in E.
  destruct (ranking _ _ _ _ _) as [[rk L]|] eqn:Er; cbn [rbind] in E; [|discriminate].
  destruct (loo_error _ _ _ _ _ _) as [full|] eqn:Ef; cbn [rbind] in E; [|discriminate].
  destruct (Nat.eqb_spec L 0) as [|HL]; [discriminate|].
  pose proof (ranking_ranked shuf _ _ _ _ _ _ _ Er HL) as HR. pose proof (loo_error_nn _ _ _ _ _ _ _ Hwt Ef) as Hf.
  set (ev0 := fun i => loo_error e (length (slice rk 0 i)) (@csel NumR H (slice rk 0 i)) (@sub_HH NumR (spec_HH (getL (e_net e)) (s_norm (e_net e)) ss) (slice rk 0 i)) (@rsel NumR (spec_HT (getL (e_net e)) (s_outputs (e_net e)) ss) (slice rk 0 i)) T).
  destruct (search_chosen ev0 full (@penalty_of NumR full L) 1 (Z.of_nat L) (getL (e_net e))) as [(m & k' & t & Es & Hc)|(x & i & _ & _ & Es)].
  - destruct HR as (_ & HR & _). lia.
  - destruct HR as (_ & HR & _). lia.
  - exact Hf.
  - apply penalty_nn; auto. lia.
  - intros i v Hi. eapply loo_error_nn; [exact Hwt|exact Hi].
  - rewrite Nat2Z.id in Es. unfold ev0 in Es. cbn [num NumR] in *. rewrite Es in E. cbn [rbind] in E. injection E as <- <- <-.
    exists L, full. cbv zeta. split; [exact HR|]. pose proof (ch_range _ _ _ _ _ _ _ _ _ Hc). split; [auto|]. split.
    + unfold loo_value. rewrite seq_length, keep_sample_all by auto.
      assert (map (keep (seq 0 (getL (e_net e)))) H = H) as ->; [|exact Ef].
      transitivity (map (fun h : list R => h) H); [|apply map_id]. apply map_ext_in. intros h Hh. apply keep_all. rewrite Forall_forall in WH. auto.
    + destruct HR as (HR1 & HR2 & _). eapply (chosen_selects ev0 _ full 1 L); try exact Hc; auto; try lia.
      intros i w Hi Ew. unfold ev0 in Ew. rewrite slice_firstn, Nat2Z.id in Ew by lia.
      pose proof (columns_firstn _ i _ HR1) as HC. unfold loo_value. rewrite (sub_HH_spec _ _ _ _ HC), (rsel_HT_spec _ _ _ _ HC) in Ew. exact Ew.
  - rewrite Nat2Z.id in Es. unfold ev0 in Es. cbn [num NumR] in *. rewrite Es in E. discriminate.
Qed.

Theorem train_loo_selects : forall e X T args kw e1 H ws e' v, shuffles ->
  wf_net (e_net e) -> 0 < s_norm (e_net e) ->
  parse_args e args kw = (e1, Ok tt) -> smem "V" args = false -> smem "CV" args = false -> smem "LOO" args = true ->
  (0 < e_batch e1)%Z -> X <> [] -> length X = length T -> wide (s_outputs (e_net e)) T -> weighting e1 T ws ->
  elm_project e (Arr2 (s_inputs (e_net e)) X) = Ok H ->
  train e (Arr2 (s_inputs (e_net e)) X) (Arr2 (s_outputs (e_net e)) T) args kw = (e', Ok v) ->
  v = None /\ exists rank L full k, let N := nneurons (s_neurons (e_net e)) in let norm := s_norm (e_net e) in
    ranked e1 N (length H) rank L /\
    loo_value e' norm (samples ws H T) H T (seq 0 N) full /\
    selects 1 L (fun i => loo_value e' norm (samples ws H T) H T (firstn i rank)) full k /\
    fitted e e' (firstn k rank) H T /\ same_task (fill_wc e1 T) e'.
Proof.
  intros e X T args kw e1 H ws e' v shuf HW Hn HP HV HCV HLOO Hb HX HL WT Hws HPr E.
  pose proof (parse_args_ok _ _ _ _ HP) as EN.
  destruct (trained_data e args kw e1 X T H ws HW HP Hb HX HL WT Hws HPr) as (e2 & Ea & A & N & HW2 & En & Eo & Ei & Es & El & Hg & Hwn & Hrs & Hop & Htk).
  unfold train in E. rewrite checkdata_ok, HP, HV, HCV, HLOO in E by auto.
  unfold train_loo in E.
  assert (project (e_net e1) X = Ok H) as Ep1. { rewrite (project_with (e_net e)); [now apply elm_project_arr|rewrite EN; reflexivity|rewrite EN; reflexivity]. }
  assert (project (e_net e2) X = Ok H) as Ep2. { rewrite (project_with (e_net e)); [now apply elm_project_arr|auto|auto]. }
  rewrite Ep1 in E. cbn [lift_err] in E. rewrite Ea in E.
  destruct (select_loo e2 H T) as [[[k rank] t]|] eqn:Esel; cbn [lift_err] in E; [|discriminate].
  destruct (select_loo_spec shuf e2 (samples ws H T) H T k rank t) as (L & full & HR & Hk & Hf & Hs); auto.
  { now rewrite El. } { exact (proj1 (wide_project _ _ _ HW2 Ep2)). }
  rewrite slice_firstn in E by lia.
  destruct (refit_fitted e e2 X T (firstn (Z.to_nat k) rank) H (refit e2 X T (firstn (Z.to_nat k) rank)) HW2 ltac:(now rewrite En) En Eo Ei Es) as (F1 & F2 & F3); auto.
  { intros i Hi. destruct HR as ((_ & HR) & _). apply HR. rewrite <- (firstn_skipn (Z.to_nat k) rank). apply in_or_app; auto. }
  unfold done in E. rewrite F1 in E. injection E as <- <-. split; [reflexivity|].
  exists rank, L, full, (Z.to_nat k). cbv zeta. rewrite <- (wf_getL _ HW), <- El, <- En.
  split. { apply (ranked_ext e1 e2); auto. rewrite Eo, EN. reflexivity. }
  split; [eapply task_loo; eauto|]. split; [|split; [exact F2|eapply task_trans; eauto]].
  eapply selects_ext; [|exact Hs]. intros i w. now apply task_loo.
Qed.

(** in regression it is the leave-one-out error *)
Lemma plain_keep : forall ix (H T : list (list R)), map (keep_sample ix) (Spec.plain H T) = Spec.plain (map (keep ix) H) T.
Proof. intros ix. unfold Spec.plain. induction H as [|h H IH]; intros [|t T]; cbn; auto. f_equal. apply IH. Qed.

Lemma loo_value_true : forall e norm (H T : list (list R)) ix w, e_class e = None -> (0 < s_outputs (e_net e))%nat -> 0 < norm ->
  wide (s_outputs (e_net e)) T -> length H = length T -> H <> [] ->
  loo_value e norm (Spec.plain H T) H T ix w -> loo_mse (length ix) (s_outputs (e_net e)) norm (map (keep ix) H) T w.
Proof.
  intros e norm H T ix w Hc Ho Hn WT HL HN E. unfold loo_value in E. rewrite plain_keep in E.
  destruct (loo_error_true e (length ix) (s_outputs (e_net e)) norm (map (keep ix) H) T) as (w' & Ew & Hw); auto.
  - apply keep_wide.
  - now rewrite map_length.
  - destruct H; [congruence|discriminate].
  - cbn [num NumR] in *. rewrite Ew in E. injection E as <-. exact Hw.
Qed.

Theorem train_loo_regression : forall e X T args kw e1 H e' v, shuffles ->
  wf_net (e_net e) -> 0 < s_norm (e_net e) -> (0 < s_outputs (e_net e))%nat ->
  parse_args e args kw = (e1, Ok tt) -> e_class e1 = None -> smem "V" args = false -> smem "CV" args = false -> smem "LOO" args = true ->
  (0 < e_batch e1)%Z -> X <> [] -> length X = length T -> wide (s_outputs (e_net e)) T ->
  elm_project e (Arr2 (s_inputs (e_net e)) X) = Ok H ->
  train e (Arr2 (s_inputs (e_net e)) X) (Arr2 (s_outputs (e_net e)) T) args kw = (e', Ok v) ->
  v = None /\ exists rank L full k, let N := nneurons (s_neurons (e_net e)) in
    let loo ix w := loo_mse (length ix) (s_outputs (e_net e)) (s_norm (e_net e)) (map (keep ix) H) T w in
    ranked e1 N (length H) rank L /\ loo (seq 0 N) full /\
    selects 1 L (fun i => loo (firstn i rank)) full k /\
    fitted e e' (firstn k rank) H T /\ same_task (fill_wc e1 T) e'.
Proof.
  intros e X T args kw e1 H e' v shuf HW Hn Ho HP Hcl HV HCV HLOO Hb HX HL WT HPr E.
  assert (is_wc e1 = false) as Hw by (unfold is_wc; now rewrite Hcl).
  destruct (train_loo_selects e X T args kw e1 H (repeat 1 (length T)) e' v) as (Ev & rank & L & full & k & HR & Hf & Hs & HF & Htk); auto.
  { now constructor. }
  split; [exact Ev|]. exists rank, L, full, k. cbv zeta in *.
  pose proof (elm_project_inv _ _ _ HPr) as (_ & _ & EH).
  assert (length H = length T) as HLH by (rewrite EH, map_length; auto).
  rewrite <- HLH in Hf, Hs. rewrite samples_repeat1 in Hf, Hs by auto.
  pose proof (parse_args_ok _ _ _ _ HP) as EN.
  assert (e_class e' = None /\ s_outputs (e_net e') = s_outputs (e_net e)) as [C1 C2].
  { destruct Htk as (T1 & _ & T3). rewrite T1, T3, fill_wc_net, EN. unfold fill_wc. rewrite Hw. auto. }
  assert (forall ix w, loo_value e' (s_norm (e_net e)) (Spec.plain H T) H T ix w -> loo_mse (length ix) (s_outputs (e_net e)) (s_norm (e_net e)) (map (keep ix) H) T w) as Tr.
  { intros ix w Hlv. rewrite <- C2. eapply loo_value_true; eauto; try now rewrite C2. rewrite EH. destruct X; [congruence|discriminate]. }
  split; [exact HR|]. split; [|split; [|split; [exact HF|exact Htk]]].
  - apply Tr in Hf. exact Hf.
  - eapply selects_ext; [|exact Hs]. intros i w Hi. apply Tr in Hi. exact Hi.
Qed.
End Sel.
