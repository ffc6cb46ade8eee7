(** The training theorems at API level (reals). *)
From Coq Require Import Reals Lra Permutation.
From Verif Require Import Base Num Mat LinAlg Slfn Strs Elm Mrsr Search Mss Hpelm MatFacts SplitProofs Spec ElmFacts RLin
  AccProofs TrainProofs RidgeProofs WfProofs.
Local Open Scope R_scope.
#[local] Existing Instance NumR.

Definition no_data {K : Num} (s : slfn) : Prop := s_HH s = None /\ s_HT s = None.

Lemma no_data_acc : forall s, no_data s -> Acc s [].
Proof. intros s [H1 H2]. unfold Acc. rewrite H1, H2. reflexivity. Qed.

Section Thms.
Context {SG : Sing}.

Lemma elm_project_inv : forall e X H, elm_project e (Arr2 (s_inputs (e_net e)) X) = Ok H ->
  usable (e_net e) /\ wide (s_inputs (e_net e)) X /\ H = map (hrow (s_neurons (e_net e))) X.
Proof.
  intros e X H E. unfold elm_project, check_arr in E. rewrite Nat.eqb_refl in E. cbn [rbind] in E.
  now apply project_inv.
Qed.

Lemma corr_of : forall e s' ss, Acc s' ss -> s' = with_corr (e_net e) (s_HH s') (s_HT s') -> s_HH s' <> None ->
  get_corr s' = Ok (Some (spec_HH (getL (e_net e)) (s_norm (e_net e)) ss, spec_HT (getL (e_net e)) (s_outputs (e_net e)) ss)).
Proof. intros e s' ss A E N. rewrite (get_corr_acc s' ss A N). rewrite E. reflexivity. Qed.

(** C02 *)
Theorem add_data_corr : forall e X T H,
  no_data (e_net e) -> is_wc e = false -> (0 < e_batch e)%Z -> X <> [] -> length X = length T ->
  wide (s_outputs (e_net e)) T -> elm_project e (Arr2 (s_inputs (e_net e)) X) = Ok H ->
  exists e', add_data e X T = (e', Ok tt) /\
    get_corr (e_net e') = Ok (Some (spec_HH (getL (e_net e)) (s_norm (e_net e)) (plain H T),
                                    spec_HT (getL (e_net e)) (s_outputs (e_net e)) (plain H T))).
Proof.
  intros e X T H Hf Hw Hb HX HL HT HP. destruct (elm_project_inv _ _ _ HP) as (HU & WX & ->).
  destruct (add_data_acc e (fun _ => 1) X T [] (no_data_acc _ Hf) HU Hb HX HL WX HT (weights_plain e T Hw))
    as (s' & E & A & Es & N).
  eexists. split; [exact E|]. cbn [e_net with_net app] in *. rewrite samples_plain in A by (rewrite map_length; auto).
  now apply corr_of.
Qed.

(** ** class weights *)
(** the weight picked for a target row *)
Definition gw (ws : list R) (t : list R) : R :=
  match where1_row 0 t with [k] => nth k ws 0 | _ => 0 end.

Lemma where1_row_onehot : forall t j0 k, (k < length t)%nat ->
  (forall j, (j < length t)%nat -> nth j t 0 = if Nat.eqb j k then 1 else 0) ->
  where1_row j0 t = [(j0 + k)%nat].
Proof.
  induction t as [|x t IH]; intros j0 k Hk Hj; [cbn in Hk; lia|].
  cbn [where1_row]. pose proof (Hj O ltac:(cbn; lia)) as Hx. cbn [nth] in Hx.
  destruct k as [|k].
  - cbn in Hx. subst x. replace (@neqb NumR 1 n1) with true by (symmetry; apply Reqb_spec; reflexivity).
    f_equal; [lia|].
    assert (forall j, (j < length t)%nat -> nth j t 0 = 0) as Hz.
    { intros j Hlt. specialize (Hj (S j) ltac:(cbn; lia)). exact Hj. }
    clear -Hz. generalize (S j0). induction t as [|y t IH]; intros j0'; cbn [where1_row]; auto.
    pose proof (Hz O ltac:(cbn; lia)) as Hy. cbn in Hy. subst y.
    replace (@neqb NumR 0 n1) with false by (symmetry; apply Reqb_false; cbn; lra).
    apply IH. intros j Hlt. apply (Hz (S j)). cbn; lia.
  - cbn in Hx. subst x. replace (@neqb NumR 0 n1) with false by (symmetry; apply Reqb_false; cbn; lra).
    rewrite (IH (S j0) k); [f_equal; lia|cbn in Hk; lia|].
    intros j Hlt. specialize (Hj (S j) ltac:(cbn; lia)). exact Hj.
Qed.
Lemma where1_row_class : forall c t k, has_class c t k -> where1_row 0 t = [k].
Proof.
  intros c t k (H1 & H2 & H3). apply (where1_row_onehot t 0 k); [lia|]. intros; apply H3; lia.
Qed.
Lemma gw_class : forall c ws t k, has_class c t k -> gw ws t = nth k ws 0.
Proof. intros c ws t k H. unfold gw. now rewrite (where1_row_class c t k H). Qed.
Lemma gw_classes : forall c ws T ks, Forall2 (has_class c) T ks -> map (gw ws) T = map (fun k => nth k ws 0) ks.
Proof. induction 1; cbn; auto. rewrite (gw_class c ws _ _ H). now f_equal. Qed.
Lemma classes_wide : forall c T ks, Forall2 (has_class c) T ks -> wide c T.
Proof. induction 1; constructor; auto. apply H. Qed.
Lemma classes_in : forall c T ks t, Forall2 (has_class c) T ks -> In t T -> exists k, In k ks /\ has_class c t k.
Proof.
  induction 1; intros Hin; [destruct Hin|]. destruct Hin as [->|Hin]; [exists y; split; [left|]; auto|].
  destruct (IHForall2 Hin) as (k & A & B). exists k; split; [right|]; auto.
Qed.

Lemma nth_error_nth_R : forall (l : list R) k, (k < length l)%nat -> nth_error l k = Some (nth k l 0).
Proof. intros. now apply nth_error_nth'. Qed.

Lemma weights_given : forall e ws T, is_wc e = true -> e_wc e = Some (map Fin ws) -> length ws = s_outputs (e_net e) ->
  (forall w, In w ws -> 0 <= w) -> (forall t, In t T -> exists k, has_class (s_outputs (e_net e)) t k) ->
  weights_ok e (gw ws) T.
Proof.
  intros e ws T Hw E HL Hp HT. split.
  - intros t Hin. destruct (HT t Hin) as [k Hk]. rewrite (gw_class _ _ _ _ Hk).
    destruct Hk as (_ & Hk & _). apply Hp, nth_In. cbn [num NumR] in *; lia.
  - rewrite Hw. unfold fill_wc. rewrite Hw, E. exists (map Fin ws). split; [exact E|].
    intros t Hin. destruct (HT t Hin) as [k Hk]. rewrite (where1_row_class _ _ _ Hk), (gw_class _ _ _ _ Hk).
    destruct Hk as (_ & Hk & _). unfold wc_index. cbn [mapM].
    assert (nth_error (map (@Fin NumR) ws) k = Some (Fin (nth k ws 0))) as ->; [|reflexivity].
    apply map_nth_error. apply nth_error_nth_R. cbn [num NumR] in *; lia.
Qed.

(** C04, weights given *)
Theorem add_data_weights : forall e X T H ws ks,
  no_data (e_net e) -> is_wc e = true -> e_wc e = Some (map Fin ws) ->
  length ws = s_outputs (e_net e) -> (forall w, In w ws -> 0 <= w) ->
  (0 < e_batch e)%Z -> X <> [] -> length X = length T ->
  Forall2 (has_class (s_outputs (e_net e))) T ks -> elm_project e (Arr2 (s_inputs (e_net e)) X) = Ok H ->
  exists e', add_data e X T = (e', Ok tt) /\
    get_corr (e_net e') =
      Ok (Some (spec_HH (getL (e_net e)) (s_norm (e_net e)) (samples (map (fun k => nth k ws 0) ks) H T),
                spec_HT (getL (e_net e)) (s_outputs (e_net e)) (samples (map (fun k => nth k ws 0) ks) H T))).
Proof.
  intros e X T H ws ks Hf Hw Ew Lw Pw Hb HX HL HT HP. destruct (elm_project_inv _ _ _ HP) as (HU & WX & ->).
  assert (weights_ok e (gw ws) T) as HW.
  { apply weights_given; auto. intros t Hin. destruct (classes_in _ _ _ _ HT Hin) as (k & _ & Hk). eauto. }
  destruct (add_data_acc e (gw ws) X T [] (no_data_acc _ Hf) HU Hb HX HL WX (classes_wide _ _ _ HT) HW)
    as (s' & E & A & Es & N).
  eexists. split; [exact E|]. cbn [e_net with_net app] in *. rewrite (gw_classes _ _ _ _ HT) in A.
  now apply corr_of.
Qed.

Lemma nof_nat_INR : forall n, @nof_nat NumR n = INR n.
Proof.
  induction n; [reflexivity|]. unfold nof_nat in *. rewrite S_INR. change (Nat.iter (S n) (nadd n1) n0) with (1 + Nat.iter n (@nadd NumR n1) n0).
  rewrite IHn. lra.
Qed.

Lemma col_count : forall c T ks k, Forall2 (has_class c) T ks -> (k < c)%nat ->
  @nsum NumR (mcol T k) = INR (count_occ Nat.eq_dec ks k).
Proof.
  induction 1 as [|t k' T ks Hc HF IH]; intros Hk; [reflexivity|].
  cbn [mcol map nsum fold_right count_occ]. unfold mcol, nsum in IH. rn. rewrite IH by auto.
  destruct Hc as (_ & _ & Hc). unfold vget. rn. rewrite (Hc k Hk).
  destruct (Nat.eq_dec k' k) as [->|Hne].
  - rewrite Nat.eqb_refl, S_INR. lra.
  - destruct (Nat.eqb_spec k k'); [congruence|]. lra.
Qed.

Lemma count_total : forall c ks, (forall k, In k ks -> (k < c)%nat) ->
  S_ c (fun k => INR (count_occ Nat.eq_dec ks k)) = INR (length ks).
Proof.
  induction ks as [|k ks IH]; intros H.
  - cbn. apply sum_zero. reflexivity.
  - cbn [length]. rewrite S_INR, <- IH by (intros; apply H; right; auto).
    rewrite (sum_ext c _ (fun j => INR (count_occ Nat.eq_dec ks j) + (if (j =? k)%nat then 1 else 0))).
    + etransitivity; [apply sum_add|]. apply f_equal2; [reflexivity|].
      apply (sum_delta c k (fun _ => 1)). apply H; left; auto.
    + intros j Hj. cbn [count_occ]. destruct (Nat.eq_dec k j) as [->|Hne].
      * rewrite Nat.eqb_refl, S_INR. reflexivity.
      * destruct (Nat.eqb_spec j k); [congruence|]. rn; lra.
Qed.

Lemma auto_wc_class : forall c T ks k, Forall2 (has_class c) T ks -> In k ks ->
  nth_error (auto_wc c T) k = Some (Fin (auto_weight ks k)).
Proof.
  intros c T ks k HF Hin.
  assert (forall k, In k ks -> (k < c)%nat) as Hlt.
  { clear Hin. induction HF as [|? ? ? ? (_ & Hc & _) HF IH]; intros j []; subst; auto. }
  unfold auto_wc. cbv zeta.
  assert (@nsum NumR (col_sums c T) = INR (length ks)) as ES.
  { rewrite <- (count_total c ks Hlt). unfold col_sums. etransitivity; [|apply sum_ext; intros j Hj; eapply (col_count c T ks j HF Hj)].
    reflexivity. }
  assert (nth_error (col_sums c T) k = Some (INR (count_occ Nat.eq_dec ks k))) as EN.
  { unfold col_sums, mkv.
    rewrite (map_nth_error _ k (seq 0 c) (d := k)).
    - f_equal. eapply col_count; eauto.
    - rewrite (nth_error_nth' _ 0%nat) by (rewrite seq_length; auto). now rewrite seq_nth by auto. }
  rewrite (map_nth_error _ _ _ EN). f_equal. unfold np_div.
  assert (0 < INR (count_occ Nat.eq_dec ks k)) as Hp.
  { apply lt_0_INR. apply count_occ_In. exact Hin. }
  rn. rewrite (proj2 (Reqb_false _ _)) by lra. unfold auto_weight. f_equal. rewrite ES. reflexivity.
Qed.

(** C04, weights computed from the data *)
Theorem add_data_auto_weights : forall e X T H ks,
  no_data (e_net e) -> is_wc e = true -> e_wc e = None ->
  (0 < e_batch e)%Z -> X <> [] -> length X = length T ->
  Forall2 (has_class (s_outputs (e_net e))) T ks -> elm_project e (Arr2 (s_inputs (e_net e)) X) = Ok H ->
  exists e', add_data e X T = (e', Ok tt) /\
    get_corr (e_net e') =
      Ok (Some (spec_HH (getL (e_net e)) (s_norm (e_net e)) (samples (map (auto_weight ks) ks) H T),
                spec_HT (getL (e_net e)) (s_outputs (e_net e)) (samples (map (auto_weight ks) ks) H T))).
Proof.
  intros e X T H ks Hf Hw Ew Hb HX HL HT HP. destruct (elm_project_inv _ _ _ HP) as (HU & WX & ->).
  set (g := fun t : list R => match @where1_row NumR 0 t with [k] => auto_weight ks k | _ => 0 end).
  assert (forall t k, has_class (s_outputs (e_net e)) t k -> g t = auto_weight ks k) as Hg.
  { intros t k Hk. unfold g. now rewrite (where1_row_class _ _ _ Hk). }
  assert (weights_ok e g T) as HW.
  { split.
    - intros t Hin. destruct (classes_in _ _ _ _ HT Hin) as (k & Hk & Hc). rewrite (Hg t k Hc).
      unfold auto_weight. apply Rmult_le_pos; [apply pos_INR|]. left. apply Rinv_0_lt_compat, lt_0_INR.
      now apply count_occ_In.
    - rewrite Hw. unfold fill_wc. rewrite Hw, Ew. eexists. split; [reflexivity|].
      intros t Hin. destruct (classes_in _ _ _ _ HT Hin) as (k & Hk & Hc).
      rewrite (Hg t k Hc), (where1_row_class _ _ _ Hc). unfold wc_index. cbn [mapM].
      rewrite (auto_wc_class _ _ _ _ HT Hk). reflexivity. }
  destruct (add_data_acc e g X T [] (no_data_acc _ Hf) HU Hb HX HL WX (classes_wide _ _ _ HT) HW)
    as (s' & E & A & Es & N).
  eexists. split; [exact E|]. cbn [e_net with_net app] in *.
  assert (map g T = map (auto_weight ks) ks) as Em.
  { clear -HT Hg. clearbody g. revert Hg. generalize (auto_weight ks) as aw. intros aw Hg.
    induction HT as [|t k T' ks' Hc HF IH]; [reflexivity|]. cbn [map]. rewrite IH, (Hg t k Hc). reflexivity. }
  rewrite Em in A. now apply corr_of.
Qed.
End Thms.
