(** HPELM.add_data / train / solve_corr on ranges and with files (C17, C29, C30; reals). *)
From Coq Require Import Reals Lra Permutation.
From Verif Require Import Base Num Mat LinAlg Slfn Strs Elm Mrsr Search Mss Hpelm MatFacts SplitProofs Spec ElmFacts RLin
  AccProofs TrainProofs RidgeProofs WfProofs TrainThms IncrThms SolveThms RangeThms.
Local Open Scope R_scope.
#[local] Existing Instance NumR.

(** consecutive ranges: (batch size, number of samples), starting at sample i *)
Fixpoint consecutive (i : nat) (cs : list (Z * nat)) : list (Z * nat * nat) :=
  match cs with
  | [] => []
  | (b, c) :: r => (b, i, c) :: consecutive (i + c) r
  end.

Lemma consecutive_concat : forall {A} (l : list A) cs i,
  concat (map (fun p => range_of l (snd (fst p)) (Some (snd p))) (consecutive i cs)) =
  firstn (list_sum (map snd cs)) (skipn i l).
Proof.
  intros A l. induction cs as [|[b c] cs IH]; intros i; cbn [consecutive map concat fst snd]; auto.
  rewrite IH. cbn [range_of]. change (list_sum (c :: map snd cs)) with (c + list_sum (map snd cs))%nat.
  rewrite firstn_skipn_app. reflexivity.
Qed.

Section Train.
Context {SG : Sing}.

(** class weights over batches *)
Lemma col_sums_app : forall c (A B : mat), col_sums c (A ++ B) = vadd (col_sums c A) (col_sums c B).
Proof.
  intros c A B. apply vec_ext.
  - rewrite vadd_length; unfold col_sums; rewrite !mkv_length; auto.
  - intros j Hj. unfold col_sums in *. rewrite mkv_length in Hj.
    rewrite vget_vadd by (rewrite !mkv_length; auto). rewrite !vget_mkv by auto. unfold mcol. rewrite map_app, nsum_app. reflexivity.
Qed.
Lemma col_sums_len : forall c (T : mat), @length R (col_sums c T) = c.
Proof. intros. apply (@mkv_length NumR). Qed.
Lemma vadd_assoc : forall a b c : list R, length a = length b -> length b = length c -> vadd (vadd a b) c = vadd a (vadd b c).
Proof.
  induction a as [|x a IH]; intros [|y b] [|z c] H1 H2; cbn in *; try discriminate; auto. f_equal; [ring|].
  apply IH; lia.
Qed.
Lemma vadd_zero : forall c (v : list R), length v = c -> vadd (mkv c (fun _ => 0)) v = v.
Proof.
  intros c v H. apply vec_ext.
  - rewrite vadd_length; rewrite mkv_length; auto.
  - intros j Hj. rewrite vadd_length in Hj by (rewrite mkv_length; auto). rewrite mkv_length in Hj.
    rewrite vget_vadd by (rewrite mkv_length; auto). rewrite vget_mkv by auto. cbn. ring.
Qed.

Lemma fold_col_sums : forall c (T : mat) batch rs a b acc, tiles batch a b rs -> (0 <= a)%Z -> (b <= Z.of_nat (length T))%Z ->
  length acc = c ->
  fold_left (fun acc ab => vadd acc (col_sums c (slice T (fst ab) (snd ab)))) rs acc =
  vadd acc (col_sums c (slice T a b)).
Proof.
  intros c T batch. induction rs as [|[x y] r IH]; intros a b acc HT Ha Hb HL.
  - cbn [tiles] in HT. subst b. cbn [fold_left]. rewrite slice_empty.
    symmetry. apply vec_ext.
    + apply vadd_length. unfold col_sums. now rewrite mkv_length.
    + intros j Hj. rewrite vadd_length in Hj by (unfold col_sums; now rewrite mkv_length).
      rewrite vget_vadd by (unfold col_sums; rewrite ?mkv_length; auto). unfold col_sums. rewrite vget_mkv by lia.
      cbn. ring.
  - cbn [tiles] in HT. destruct HT as (-> & H1 & H2 & H3). cbn [fold_left fst snd].
    pose proof (tiles_le _ _ _ _ H3).
    rewrite (IH y b _ H3); [|lia|lia|].
    2:{ rewrite vadd_length; auto. unfold col_sums. now rewrite mkv_length. }
    rewrite vadd_assoc by (rewrite ?col_sums_len; auto).
    rewrite <- col_sums_app, slice_app by lia. reflexivity.
Qed.

Lemma hp_fill_wc_range : forall e (T : mat) batch rs a b, tiles batch a b rs -> (0 <= a)%Z -> (b <= Z.of_nat (length T))%Z ->
  hp_fill_wc e T rs = fill_wc e (slice T a b).
Proof.
  intros e T batch rs a b HT Ha Hb. unfold hp_fill_wc, fill_wc. destruct (is_wc e); auto. destruct (e_wc e); auto.
  unfold auto_wc. cbv zeta. rewrite (fold_col_sums _ T batch rs a b) by (auto; apply mkv_length).
  rewrite vadd_zero by apply col_sums_len. reflexivity.
Qed.

(** the accumulation loop of add_data on a range *)
Lemma hp_loop : forall e g X T i c ss,
  Acc (e_net e) ss -> usable (e_net e) -> (0 < e_batch e)%Z -> length X = length T -> (i <= length X)%nat ->
  wide (s_inputs (e_net e)) X -> wide (s_outputs (e_net e)) T -> weights_ok e g (range_of T i c) ->
  let rs := ranges (e_batch e) (Z.of_nat i) (clip_count (zcount c) (length X) (Z.of_nat i))
                   (ceil_div (clip_count (zcount c) (length X) (Z.of_nat i)) (e_batch e)) in
  exists s', hp_fill_wc e T rs = fill_wc e (range_of T i c) /\
    add_batches (fill_wc e (range_of T i c)) (e_net e) (hp_batches X T rs) = (s', Ok tt) /\
    Acc s' (ss ++ samples (map g (range_of T i c)) (map (hrow (s_neurons (e_net e))) (range_of X i c)) (range_of T i c)) /\
    s' = with_corr (e_net e) (s_HH s') (s_HT s') /\
    (range_of X i c <> [] \/ s_HH (e_net e) <> None -> s_HH s' <> None).
Proof.
  intros e g X T i c ss HA HU Hb HL Hi WX WT HW rs.
  pose proof (clip_bounds (length X) i c Hi) as HC.
  pose proof (ranges_tiles (e_batch e) (Z.of_nat i) (clip_count (zcount c) (length X) (Z.of_nat i)) Hb ltac:(lia)) as HT.
  fold rs in HT.
  pose proof (slice_range X i c Hi) as EX. pose proof (slice_range T i c ltac:(cbn [num NumR] in *; lia)) as ET.
  cbn [num NumR] in *. rewrite <- HL in ET.
  destruct (hp_batches_tiles (e_batch e) X T rs _ _ HT ltac:(lia) ltac:(cbn [num NumR] in *; lia) HL) as (B1 & B2 & B3).
  cbn [num NumR] in *. rewrite EX in B1. rewrite ET in B2.
  destruct (add_batches_acc (fill_wc e (range_of T i c)) g (@hp_batches NumR X T rs) (e_net e) ss HA HU) as (s' & E & A & Es & N).
  { apply parts_ok; auto.
    - cbn [num NumR]. rewrite B1, <- EX. now apply (@Forall_wide_slice NumR).
    - cbn [num NumR]. rewrite B2, <- ET. now apply (@Forall_wide_slice NumR).
    - cbn [num NumR]. rewrite B2. auto. }
  cbn [num NumR] in *.
  exists s'. split; [|split; [exact E|split; [|split; [exact Es|]]]].
  - rewrite <- ET. eapply hp_fill_wc_range; eauto; cbn [num NumR] in *; lia.
  - rewrite B1, B2 in A. exact A.
  - intros [Hne|Hne]; apply N; auto. left. intros C. apply Hne. rewrite <- B1, C. reflexivity.
Qed.

(** a pair of data arguments (array or file each) holding X and T *)
Definition data_ok (e : elm) (dX dT : src) (X T : mat) : Prop :=
  holds_data dX (s_inputs (e_net e)) X /\ holds_data dT (s_outputs (e_net e)) T /\ length X = length T /\
  wide (s_inputs (e_net e)) X /\ wide (s_outputs (e_net e)) T.

Lemma hp_check_ok : forall e dX dT X T, data_ok e dX dT X T -> hp_check e dX dT = Ok (X, T).
Proof.
  intros e dX dT X T (H1 & H2 & H3 & _). unfold hp_check.
  rewrite (check_holds _ _ _ _ H1), (check_holds _ _ _ _ H2), !Nat.eqb_refl. cbn [rbind]. cbn [num NumR] in *.
  now rewrite H3, Nat.eqb_refl.
Qed.

Theorem hp_add_data_acc : forall e g dX dT X T i c ss,
  Acc (e_net e) ss -> usable (e_net e) -> (0 < e_batch e)%Z -> data_ok e dX dT X T -> (i <= length X)%nat ->
  weights_ok e g (range_of T i c) ->
  exists s', hp_add_data e dX dT (Z.of_nat i) (zcount c) None = (with_net (fill_wc e (range_of T i c)) s', None, Ok tt) /\
    Acc s' (ss ++ samples (map g (range_of T i c)) (map (hrow (s_neurons (e_net e))) (range_of X i c)) (range_of T i c)) /\
    s' = with_corr (e_net e) (s_HH s') (s_HT s') /\
    (range_of X i c <> [] \/ s_HH (e_net e) <> None -> s_HH s' <> None).
Proof.
  intros e g dX dT X T i c ss HA HU Hb HD Hi HW. pose proof HD as (_ & _ & HL & WX & WT).
  destruct (hp_loop e g X T i c ss HA HU Hb HL Hi WX WT HW) as (s' & E1 & E2 & A & Es & N).
  exists s'. split; auto. unfold hp_add_data. destruct HU as [HU _].
  destruct (s_neurons (e_net e)) eqn:En; [congruence|].
  rewrite (hp_check_ok _ _ _ _ _ HD). rewrite nbatches_eq by auto. cbn [num NumR] in *. rewrite E1.
  rewrite fill_wc_net, E2. reflexivity.
Qed.

Definition plain_range (e : elm) (X T : mat) (i : nat) (c : option nat) : list sample :=
  plain (map (hrow (s_neurons (e_net e))) (range_of X i c)) (range_of T i c).

Lemma range_len : forall {A B} (X : list A) (T : list B) i c, length X = length T ->
  length (range_of X i c) = length (range_of T i c).
Proof. intros A B X T i [c|] H; cbn; rewrite ?firstn_length, !skipn_length, H; auto. Qed.

(** C17: one range *)
Theorem range_corr : forall e dX dT X T H i c,
  no_data (e_net e) -> is_wc e = false -> (0 < e_batch e)%Z -> data_ok e dX dT X T -> (i < length X)%nat -> c <> Some 0%nat ->
  elm_project e (Arr2 (s_inputs (e_net e)) X) = Ok H ->
  exists e', hp_add_data e dX dT (Z.of_nat i) (zcount c) None = (e', None, Ok tt) /\
    get_corr (e_net e') =
      Ok (Some (spec_HH (getL (e_net e)) (s_norm (e_net e)) (plain (range_of H i c) (range_of T i c)),
                spec_HT (getL (e_net e)) (s_outputs (e_net e)) (plain (range_of H i c) (range_of T i c)))).
Proof.
  intros e dX dT X T H i c Hf Hw Hb HD Hi Hc HP. destruct (elm_project_inv _ _ _ HP) as (HU & WX & ->).
  pose proof HD as (_ & _ & HL & _ & _).
  destruct (hp_add_data_acc e (fun _ => 1) dX dT X T i c [] (no_data_acc _ Hf) HU Hb HD ltac:(lia) (weights_plain e _ Hw))
    as (s' & E & A & Es & N).
  eexists. split; [exact E|]. cbn [e_net with_net app] in *.
  rewrite samples_plain in A by (rewrite map_length; now apply range_len).
  rewrite <- range_of_map in A. apply corr_of; auto. apply N. left.
  assert (length (range_of X i c) <> 0)%nat as Hl.
  { destruct c as [c|]; cbn; rewrite ?firstn_length, skipn_length; cbn [num NumR] in *; [|lia].
    assert (c <> 0)%nat by congruence. lia. }
  destruct (range_of X i c); [cbn in Hl; lia|discriminate].
Qed.

(** C17 with class weights: given, or computed from the range *)
Lemma Forall2_range : forall {A B} (P : A -> B -> Prop) l m i c, Forall2 P l m -> Forall2 P (range_of l i c) (range_of m i c).
Proof.
  intros A B P l m i c H. assert (Forall2 P (skipn i l) (skipn i m)) as HS.
  { revert i. induction H; intros [|i]; cbn; auto. }
  destruct c as [c|]; cbn; auto. revert c. induction HS; intros [|c]; cbn; auto.
Qed.
Lemma range_ne : forall {A} (X : list A) i c, (i < length X)%nat -> c <> Some 0%nat -> range_of X i c <> [].
Proof.
  intros A X i c Hi Hc C. apply (f_equal (@length _)) in C.
  destruct c as [c|]; cbn in C; rewrite ?firstn_length, skipn_length in C; [|lia].
  assert (c <> 0)%nat by congruence. lia.
Qed.

Lemma map_classes : forall c (g : list R -> R) (aw : nat -> R) T ks, Forall2 (has_class c) T ks ->
  (forall t k, has_class c t k -> g t = aw k) -> map g T = map aw ks.
Proof.
  intros c g aw T ks HF Hg. induction HF as [|t k T' ks' Hcl HF IH]; [reflexivity|]. cbn [map]. rewrite IH, (Hg t k Hcl). reflexivity.
Qed.

Theorem range_corr_weights : forall e dX dT X T H i c ws ks,
  no_data (e_net e) -> is_wc e = true -> e_wc e = Some (map Fin ws) ->
  length ws = s_outputs (e_net e) -> (forall w, In w ws -> 0 <= w) ->
  (0 < e_batch e)%Z -> data_ok e dX dT X T -> (i < length X)%nat -> c <> Some 0%nat ->
  Forall2 (has_class (s_outputs (e_net e))) T ks -> elm_project e (Arr2 (s_inputs (e_net e)) X) = Ok H ->
  let ss := samples (map (fun k => nth k ws 0) (range_of ks i c)) (range_of H i c) (range_of T i c) in
  exists e', hp_add_data e dX dT (Z.of_nat i) (zcount c) None = (e', None, Ok tt) /\
    get_corr (e_net e') = Ok (Some (spec_HH (getL (e_net e)) (s_norm (e_net e)) ss,
                                    spec_HT (getL (e_net e)) (s_outputs (e_net e)) ss)).
Proof.
  intros e dX dT X T H i c ws ks Hf Hw Ew Lw Pw Hb HD Hi Hc HT HP ss. subst ss. destruct (elm_project_inv _ _ _ HP) as (HU & WX & ->).
  pose proof (Forall2_range _ _ _ i c HT) as HTr.
  assert (weights_ok e (gw ws) (range_of T i c)) as HW.
  { apply weights_given; auto. intros t Hin. destruct (classes_in _ _ _ _ HTr Hin) as (k & _ & Hk). eauto. }
  destruct (hp_add_data_acc e (gw ws) dX dT X T i c [] (no_data_acc _ Hf) HU Hb HD ltac:(lia) HW) as (s' & E & A & Es & N).
  eexists. split; [exact E|]. cbn [e_net with_net app] in *. rewrite (gw_classes _ _ _ _ HTr) in A. rewrite range_of_map.
  apply corr_of; auto. apply N. left. now apply range_ne.
Qed.

Theorem range_corr_auto : forall e dX dT X T H i c ks,
  no_data (e_net e) -> is_wc e = true -> e_wc e = None ->
  (0 < e_batch e)%Z -> data_ok e dX dT X T -> (i < length X)%nat -> c <> Some 0%nat ->
  Forall2 (has_class (s_outputs (e_net e))) T ks -> elm_project e (Arr2 (s_inputs (e_net e)) X) = Ok H ->
  let ss := samples (map (auto_weight (range_of ks i c)) (range_of ks i c)) (range_of H i c) (range_of T i c) in
  exists e', hp_add_data e dX dT (Z.of_nat i) (zcount c) None = (e', None, Ok tt) /\
    get_corr (e_net e') = Ok (Some (spec_HH (getL (e_net e)) (s_norm (e_net e)) ss,
                                    spec_HT (getL (e_net e)) (s_outputs (e_net e)) ss)).
Proof.
  intros e dX dT X T H i c ks0 Hf Hw Ew Hb HD Hi Hc HT0 HP. destruct (elm_project_inv _ _ _ HP) as (HU & WX & ->).
  pose proof (Forall2_range _ _ _ i c HT0) as HT.
  set (ks := range_of ks0 i c) in *.
  set (g := fun t : list R => match @where1_row NumR 0 t with [k] => auto_weight ks k | _ => 0 end).
  assert (forall t k, has_class (s_outputs (e_net e)) t k -> g t = auto_weight ks k) as Hg.
  { intros t k Hk. unfold g. now rewrite (where1_row_class _ _ _ Hk). }
  assert (weights_ok e g (range_of T i c)) as HW.
  { split.
    - intros t Hin. destruct (classes_in _ _ _ _ HT Hin) as (k & Hk & Hcl). rewrite (Hg t k Hcl).
      unfold auto_weight. apply Rmult_le_pos; [apply pos_INR|]. left. apply Rinv_0_lt_compat, lt_0_INR.
      now apply count_occ_In.
    - rewrite Hw. unfold fill_wc. rewrite Hw, Ew. eexists. split; [reflexivity|].
      intros t Hin. destruct (classes_in _ _ _ _ HT Hin) as (k & Hk & Hcl).
      rewrite (Hg t k Hcl), (where1_row_class _ _ _ Hcl). unfold wc_index. cbn [mapM].
      pose proof (auto_wc_class _ _ _ _ HT Hk) as EA. cbn [num NumR] in EA |- *. rewrite EA. reflexivity. }
  destruct (hp_add_data_acc e g dX dT X T i c [] (no_data_acc _ Hf) HU Hb HD ltac:(lia) HW) as (s' & E & A & Es & N).
  eexists. split; [exact E|]. cbn [e_net with_net app] in *.
  assert (map g (range_of T i c) = map (auto_weight ks) ks) as Em.
  { exact (map_classes _ g (auto_weight ks) _ _ HT Hg). }
  rewrite Em in A. rewrite range_of_map. apply corr_of; auto. apply N. left. now apply range_ne.
Qed.

(** an empty range adds nothing *)
Theorem range_empty : forall e dX dT X T i c,
  is_wc e = false -> usable (e_net e) -> (0 < e_batch e)%Z -> data_ok e dX dT X T ->
  (i = length X \/ (i <= length X)%nat /\ c = Some 0%nat) ->
  hp_add_data e dX dT (Z.of_nat i) (zcount c) None = (e, None, Ok tt).
Proof.
  intros e dX dT X T i c Hw [HU _] Hb HD Hi. unfold hp_add_data.
  destruct (s_neurons (e_net e)) eqn:En; [congruence|].
  rewrite (hp_check_ok _ _ _ _ _ HD). rewrite nbatches_eq by auto.
  assert (clip_count (zcount c) (length X) (Z.of_nat i) = 0%Z) as ->.
  { destruct Hi as [->|[Hi ->]]; [destruct c|]; cbn; unfold clip_count; cbn; rewrite ?Z.sub_diag; cbn [num NumR] in *; lia. }
  rewrite ranges_nonpos by (auto; lia). unfold hp_fill_wc. rewrite Hw. cbn.
  destruct e; reflexivity.
Qed.

(** several calls, each with its own batch size *)
Definition range_call (dX dT : src) (e : elm) (p : Z * nat * nat) : elm * res unit :=
  let '(e', _, r) := hp_add_data (with_batch e (fst (fst p))) dX dT (Z.of_nat (snd (fst p))) (zcount (Some (snd p))) None in (e', r).

Definition in_range (n : nat) (p : Z * nat * nat) : Prop := (0 < fst (fst p))%Z /\ (snd (fst p) <= n)%nat.

Definition all_of {A} (l : list A) (ps : list (Z * nat * nat)) : list A :=
  concat (map (fun p => range_of l (snd (fst p)) (Some (snd p))) ps).

Lemma calls_acc : forall g dX dT X T ps e ss,
  Acc (e_net e) ss -> usable (e_net e) -> data_ok e dX dT X T -> (is_wc e = true -> e_wc e <> None) ->
  Forall (in_range (length X)) ps -> (forall p, In p ps -> weights_ok e g (range_of T (snd (fst p)) (Some (snd p)))) ->
  exists e', run_all (range_call dX dT) e ps = (e', Ok tt) /\
    Acc (e_net e') (ss ++ samples (map g (all_of T ps)) (map (hrow (s_neurons (e_net e))) (all_of X ps)) (all_of T ps)) /\
    e_net e' = with_corr (e_net e) (s_HH (e_net e')) (s_HT (e_net e')) /\
    (all_of X ps <> [] \/ s_HH (e_net e) <> None -> s_HH (e_net e') <> None).
Proof.
  intros g dX dT X T. induction ps as [|[[b i] c] ps IH]; intros e ss HA HU HD Hw HR HG.
  - exists e. cbn. rewrite app_nil_r. split; auto. split; auto. split; [destruct (e_net e); reflexivity|].
    intros [?|?]; congruence.
  - inversion HR as [|? ? [R1 R2] HR']; subst. cbn [fst snd] in *.
    assert (weights_ok (with_batch e b) g (range_of T i (Some c))) as HW
      by exact (weights_ok_same e (with_batch e b) g _ eq_refl eq_refl eq_refl (HG _ (or_introl eq_refl))).
    destruct (hp_add_data_acc (with_batch e b) g dX dT X T i (Some c) ss HA HU R1 HD R2 HW) as (s' & E & A & Es & N).
    cbn [e_net with_batch] in *.
    assert (fill_wc (with_batch e b) (range_of T i (Some c)) = with_batch e b) as EF.
    { unfold fill_wc. destruct (is_wc (with_batch e b)) eqn:Ew; auto. cbn [e_wc with_batch].
      destruct (e_wc e) eqn:Ee; auto. exfalso. apply Hw; auto. }
    rewrite EF in E. set (e1 := with_net (with_batch e b) s') in *.
    destruct (IH e1 _ A) as (e' & E2 & A2 & Es2 & N2).
    { unfold e1. cbn. rewrite Es. exact HU. }
    { unfold e1, data_ok. cbn. rewrite Es. exact HD. }
    { exact Hw. }
    { exact HR'. }
    { intros p Hp. apply weights_ok_same with e; auto. { unfold e1. cbn. now rewrite Es. } apply HG; right; auto. }
    exists e'. cbn [run_all]. unfold range_call at 1. cbn [fst snd]. rewrite E. split; [exact E2|].
    unfold all_of in *. cbn [map concat fst snd].
    assert (s_neurons (e_net e1) = s_neurons (e_net e)) as En by (unfold e1; cbn; rewrite Es; reflexivity).
    rewrite En in A2. split; [|split].
    + rewrite <- app_assoc in A2. rewrite !map_app. cbn [num NumR] in *. destruct HD as (_ & _ & HL & _ & _).
      cbn [num NumR] in *.
      rewrite (samples_app (map g (range_of T i (Some c)))); [exact A2| |rewrite map_length; auto].
      rewrite !map_length. symmetry. now apply range_len.
    + rewrite Es2. unfold e1. cbn. rewrite Es. reflexivity.
    + intros Hne. apply N2. destruct Hne as [Hne|Hne].
      * destruct (range_of X i (Some c)) eqn:Er; [left; exact Hne|right]. apply N. left. discriminate.
      * right. apply N. right. exact Hne.
Qed.

Lemma consecutive_in : forall n cs i, (forall p, In p cs -> (0 < fst p)%Z) -> (i + list_sum (map snd cs) <= n)%nat ->
  Forall (in_range n) (consecutive i cs).
Proof.
  intros n. induction cs as [|[q c] cs IH]; intros i Hc Hn; cbn [consecutive]; constructor.
  - split; cbn [fst snd]; [apply (Hc (q, c)); left; auto|].
    cbn [map snd] in Hn. change (list_sum (c :: map snd cs)) with (c + list_sum (map snd cs))%nat in Hn. lia.
  - apply IH; [intros; apply Hc; right; auto|].
    cbn [map snd] in Hn. change (list_sum (c :: map snd cs)) with (c + list_sum (map snd cs))%nat in Hn. lia.
Qed.

(** consecutive ranges that cover the data accumulate the same matrices as ELM.add_data *)
Theorem ranges_corr : forall e dX dT X T cs b,
  no_data (e_net e) -> usable (e_net e) -> is_wc e = false -> data_ok e dX dT X T -> X <> [] ->
  (forall p, In p cs -> (0 < fst p)%Z) -> list_sum (map snd cs) = length X -> (0 < b)%Z ->
  exists e1 e2 C, run_all (range_call dX dT) e (consecutive 0 cs) = (e1, Ok tt) /\ get_corr (e_net e1) = Ok (Some C) /\
    add_data (with_batch e b) X T = (e2, Ok tt) /\ get_corr (e_net e2) = Ok (Some C).
Proof.
  intros e dX dT X T cs b Hf HU Hw HD HX Hc HS Hb.
  assert (Forall (in_range (length X)) (consecutive 0 cs)) as HR by (apply consecutive_in; auto; lia).
  pose proof HD as (_ & _ & HL & WX & WT).
  destruct (calls_acc (fun _ => 1) dX dT X T (consecutive 0 cs) e [] (no_data_acc _ Hf) HU HD ltac:(congruence) HR)
    as (e1 & E1 & A1 & Es1 & N1).
  { intros p _. now apply weights_plain. }
  destruct (add_data_acc (with_batch e b) (fun _ => 1) X T [] (no_data_acc _ Hf) HU Hb HX HL WX WT (weights_plain (with_batch e b) _ Hw))
    as (s2 & E2 & A2 & Es2 & N2).
  cbn [e_net with_batch app] in *. eexists e1, _, _. split; [exact E1|]. cbn [e_net with_net].
  assert (all_of X (consecutive 0 cs) = X) as EX.
  { unfold all_of. rewrite consecutive_concat, HS. apply firstn_all. }
  assert (all_of T (consecutive 0 cs) = T) as ET.
  { unfold all_of. rewrite consecutive_concat, HS. cbn [skipn]. cbn [num NumR] in *. rewrite HL. apply firstn_all. }
  cbn [num NumR] in *. rewrite EX, ET in A1.
  assert (s_HH (e_net e1) <> None) as N1' by (apply N1; left; rewrite EX; exact HX).
  rewrite (corr_of e (e_net e1) _ A1 Es1 N1'). split; [reflexivity|]. split; [exact E2|].
  cbn [e_net with_net]. rewrite (corr_of e s2 _ A2 Es2 N2). reflexivity.
Qed.

(** HPELM.train on a range *)
Context {BR : Brent} {SH : Shuffle}.

Lemma hp_train_core : forall e dX dT X T i c args kw e1 g,
  wf_net (e_net e) -> usable (e_net e) -> 0 < s_norm (e_net e) -> parse_args e args kw = (e1, Ok tt) ->
  (0 < e_batch e1)%Z -> data_ok e dX dT X T -> (i <= length X)%nat -> range_of X i c <> [] -> weights_ok e1 g (range_of T i c) ->
  exists e' B, hp_train e dX dT args kw (Some (Z.of_nat i)) (zcount c) = (e', Ok tt) /\
    s_B (e_net e') = Some B /\ s_neurons (e_net e') = s_neurons (e_net e) /\
    ridge_solution (nneurons (s_neurons (e_net e))) (s_outputs (e_net e)) (s_norm (e_net e))
      (samples (map g (range_of T i c)) (map (hrow (s_neurons (e_net e))) (range_of X i c)) (range_of T i c)) B.
Proof.
  intros e dX dT X T i c args kw e1 g HW HU Hn HP Hb HD Hi Hne Hg.
  pose proof (parse_args_ok _ _ _ _ HP) as EN. pose proof HD as (_ & _ & HL & WX & WT).
  unfold hp_train. rewrite (hp_check_ok _ _ _ _ _ HD), HP.
  rewrite Z.max_r by lia.
  assert (Acc (e_net e1) []) as HA. { rewrite EN. reflexivity. }
  assert (usable (e_net e1)) as HU1 by (rewrite EN; exact HU).
  destruct (hp_add_data_acc e1 g dX dT X T i c [] HA HU1 Hb) as (s' & E & A & Es & N); auto.
  { unfold data_ok. rewrite EN. exact HD. }
  rewrite E. cbn [app] in A. rewrite EN in A, Es. cbn [s_neurons reset] in A.
  destruct (solve_acc s' _ A (N (or_introl Hne))) as (B & EB & RS).
  { rewrite Es. exact Hn. }
  { apply good_samples.
    - intros w Hin. apply in_map_iff in Hin. destruct Hin as (t & <- & Hin). apply Hg; auto.
    - intros h Hin. apply in_map_iff in Hin. destruct Hin as (x & <- & Hin).
      rewrite Es. exact (hrow_length (s_inputs (e_net e)) (s_neurons (e_net e)) x (wf_groups _ HW)). }
  cbn [e_net with_net]. rewrite EB.
  eexists _, B. split; [reflexivity|]. cbn. split; [reflexivity|]. rewrite Es in RS |- *. split; [reflexivity|]. exact RS.
Qed.

Theorem hp_train_ridge : forall e dX dT X T H i c args kw e1,
  wf_net (e_net e) -> 0 < s_norm (e_net e) -> parse_args e args kw = (e1, Ok tt) -> is_wc e1 = false ->
  (0 < e_batch e1)%Z -> data_ok e dX dT X T -> (i < length X)%nat -> c <> Some 0%nat ->
  elm_project e (Arr2 (s_inputs (e_net e)) X) = Ok H ->
  exists e' B, hp_train e dX dT args kw (Some (Z.of_nat i)) (zcount c) = (e', Ok tt) /\
    s_B (e_net e') = Some B /\ s_neurons (e_net e') = s_neurons (e_net e) /\
    ridge_solution (nneurons (s_neurons (e_net e))) (s_outputs (e_net e)) (s_norm (e_net e))
      (plain (range_of H i c) (range_of T i c)) B.
Proof.
  intros e dX dT X T H i c args kw e1 HW Hn HP Hw Hb HD Hi Hc HPr.
  destruct (elm_project_inv _ _ _ HPr) as (HU & WX & ->). pose proof HD as (_ & _ & HL & _ & _).
  rewrite range_of_map. rewrite <- samples_plain by (rewrite map_length; now apply range_len).
  eapply hp_train_core; eauto; [lia| |now apply weights_plain].
  intros C. apply (f_equal (@length _)) in C.
  destruct c as [c|]; cbn in C; rewrite ?firstn_length, skipn_length in C; cbn [num NumR] in *; [|lia].
  assert (c <> 0)%nat by congruence. lia.
Qed.

(** ** Files *)
Lemma solve_corr_full : forall s n HT M,
  is_mat n n M -> (forall i j, (i < n)%nat -> (j < n)%nat -> mR M i j = mR M j i) ->
  PD n (mR M) -> is_mat n (s_outputs s) HT ->
  is_mat n (s_outputs s) (solve_corr s n M HT) /\ msolves n (s_outputs s) M (solve_corr s n M HT) HT.
Proof.
  intros s n HT M Hm Hs HP HT'.
  assert (forall k, full_kind k = true -> holds k n M M) as Hf.
  { intros k Hk. split; auto. intros i j _ _. rewrite Hk, orb_true_r. reflexivity. }
  set (s4 := mkSlfn Gpu64 (s_inputs s) (s_outputs s) (s_norm s) (s_neurons s) (s_L s) (s_B s) (s_HH s) (s_HT s)).
  destruct (s_kind s) eqn:Ek.
  1,3: apply solve_corr_PD; auto; rewrite Ek; apply Hf; reflexivity.
  1,2: pose proof (solve_corr_PD s4 n M HT M (Hf Gpu64 eq_refl) Hs HP HT') as P4;
       destruct (proj2 (posv_PD n (s_outputs s) M HT)) as [Y EY];
       [eapply PD_ext; [|exact HP]; intros; symmetry; eapply U_holds; [exact (Hf Gpu64 eq_refl)|auto|auto|auto]|];
       unfold solve_corr in *; rewrite Ek; cbn [s4 s_kind s_outputs] in P4; rewrite EY in *; exact P4.
Qed.

Definition FsAcc (L c : nat) (norm : R) (fs : corrfs) (ss : list sample) : Prop :=
  (f_HH fs = None /\ f_HT fs = None /\ ss = []) \/
  (f_HH fs = Some (L, spec_HH L norm ss) /\ f_HT fs = Some (c, spec_HT L c ss)).

Lemma spec_HH_len : forall L norm ss, length (spec_HH L norm ss) = L.
Proof. intros. unfold spec_HH. now rewrite map_length, seq_length. Qed.
Lemma spec_HT_len : forall L c ss, length (spec_HT L c ss) = L.
Proof. intros. unfold spec_HT. now rewrite map_length, seq_length. Qed.

Lemma scaled_eye_spec : forall L norm, scaled_eye L norm = spec_HH L norm [].
Proof. intros. rewrite spec_HH_mk. unfold scaled_eye. apply mk_ext. intros i j _ _. cbn. destruct (i =? j)%nat; lra. Qed.

Lemma prepare_acc : forall s fs ss, FsAcc (getL (reset s)) (s_outputs s) (s_norm s) fs ss ->
  exists fs', prepare_fs s fs = (reset s, fs', Ok tt) /\
    f_HH fs' = Some (getL (reset s), spec_HH (getL (reset s)) (s_norm s) ss) /\
    f_HT fs' = Some (s_outputs s, spec_HT (getL (reset s)) (s_outputs s) ss).
Proof.
  intros s fs ss [(E1 & E2 & ->)|(E1 & E2)]; unfold prepare_fs; rewrite E1.
  - cbn [f_HT]. rewrite E2. eexists. split; [reflexivity|]. cbn [f_HH f_HT]. rewrite scaled_eye_spec, zero_HT. auto.
  - rewrite (spec_HH_len (getL (reset s))), Nat.eqb_refl. cbn [andb].
    change (s_outputs (reset s)) with (s_outputs s). rewrite E2, spec_HT_len, !Nat.eqb_refl. cbn [andb].
    exists fs. auto.
Qed.

Lemma add_spec_HH : forall L norm ss ss', madd (spec_HH L norm ss) (sub_norm L norm (spec_HH L norm ss')) = spec_HH L norm (ss ++ ss').
Proof.
  intros. assert (forall x, is_mat L L (spec_HH L norm x)) as Hm by (intros; rewrite spec_HH_mk; apply is_mat_mk).
  assert (is_mat L L (sub_norm L norm (spec_HH L norm ss'))) as Hm' by apply is_mat_mk.
  apply mat_ext with (r := L) (c := L); auto using is_mat_madd.
  intros i j Hi Hj. rewrite mget_madd with (r := L) (c := L); auto. unfold sub_norm. rewrite mget_mk by auto.
  rewrite !spec_HH_mk, !mget_mk by auto. rn. rewrite map_app, nsum_app. destruct (i =? j)%nat; rlra.
Qed.
Lemma add_spec_HT : forall L c ss ss', madd (spec_HT L c ss) (spec_HT L c ss') = spec_HT L c (ss ++ ss').
Proof.
  intros. assert (forall x, is_mat L c (spec_HT L c x)) as Hm by (intros; rewrite spec_HT_mk; apply is_mat_mk).
  apply mat_ext with (r := L) (c := c); auto using is_mat_madd.
  intros i j Hi Hj. rewrite mget_madd with (r := L) (c := c); auto.
  rewrite !spec_HT_mk, !mget_mk by auto. rn. rewrite map_app, nsum_app. rlra.
Qed.

Theorem hp_add_data_files : forall e g dX dT X T i c fs ss,
  FsAcc (getL (reset (e_net e))) (s_outputs (e_net e)) (s_norm (e_net e)) fs ss ->
  usable (e_net e) -> (0 < e_batch e)%Z -> data_ok e dX dT X T -> (i <= length X)%nat -> range_of X i c <> [] ->
  weights_ok e g (range_of T i c) ->
  let e0 := with_net e (reset (e_net e)) in
  exists s1 s' fs', hp_add_data e dX dT (Z.of_nat i) (zcount c) (Some fs) = (with_net (fill_wc e0 (range_of T i c)) s', Some fs', Ok tt) /\
    hp_add_data e0 dX dT (Z.of_nat i) (zcount c) None = (with_net (fill_wc e0 (range_of T i c)) s1, None, Ok tt) /\
    FsAcc (getL (reset (e_net e))) (s_outputs (e_net e)) (s_norm (e_net e)) fs'
      (ss ++ samples (map g (range_of T i c)) (map (hrow (s_neurons (e_net e))) (range_of X i c)) (range_of T i c)) /\
    s' = with_corr (reset (e_net e)) (s_HH s') (s_HT s') /\ (s_kind (e_net e) <> Basic -> s' = s1).
Proof.
  intros e g dX dT X T i c fs ss HF HU Hb HD Hi Hne HW e0. pose proof HD as (_ & _ & HL & WX & WT).
  assert (Acc (e_net e0) []) as HA by reflexivity.
  assert (weights_ok e0 g (range_of T i c)) as HW0 by exact (weights_ok_same e e0 g _ eq_refl eq_refl eq_refl HW).
  destruct (hp_loop e0 g X T i c [] HA HU Hb HL Hi WX WT HW0) as (s1 & E1 & E2 & A & Es & N).
  destruct (hp_add_data_acc e0 g dX dT X T i c [] HA HU Hb HD Hi HW0) as (s1' & E3 & _).
  destruct (prepare_acc _ _ _ HF) as (fs0 & EP & F1 & F2).
  pose proof E3 as E3'. unfold hp_add_data in E3. unfold hp_add_data at 1.
  assert (s_neurons (e_net e0) <> []) as Hns by apply HU.
  assert (s_neurons (e_net e0) = s_neurons (e_net e)) as Ens by reflexivity. rewrite Ens in E3, Hns.
  destruct (s_neurons (e_net e)) as [|q qs] eqn:En; [congruence|].
  assert (hp_check e0 dX dT = Ok (X, T)) as EC by exact (hp_check_ok _ _ _ _ _ HD).
  rewrite EC in E3. rewrite (hp_check_ok _ _ _ _ _ HD), EP. fold e0.
  rewrite nbatches_eq in E3 |- * by auto. cbn [num NumR] in *. rewrite E1 in E3 |- *.
  rewrite fill_wc_net in E3 |- *. rewrite E2 in E3 |- *.
  assert (s1' = s1) as -> by (apply (f_equal (fun r => e_net (fst (fst r)))) in E3; exact (eq_sym E3)).
  cbn [app] in A. unfold write_fs.
  assert (get_corr s1 = Ok (Some (spec_HH (getL (e_net e0)) (s_norm (e_net e0)) (samples (map g (range_of T i c)) (map (hrow (s_neurons (e_net e0))) (range_of X i c)) (range_of T i c)),
            spec_HT (getL (e_net e0)) (s_outputs (e_net e0)) (samples (map g (range_of T i c)) (map (hrow (s_neurons (e_net e0))) (range_of X i c)) (range_of T i c))))) as EG.
  { apply corr_of; auto. }
  cbn [num NumR] in *. rewrite EG, F1, F2.
  eexists s1, _, _. split; [reflexivity|]. split; [exact E3'|]. split; [|split].
  - right. cbn [f_HH f_HT].
    assert (getL s1 = getL (reset (e_net e))) as EL by (rewrite Es; reflexivity).
    assert (s_norm s1 = s_norm (e_net e)) as ENo by (rewrite Es; reflexivity).
    rewrite EL, ENo, <- En.
    change (getL (e_net e0)) with (getL (reset (e_net e))). change (s_norm (e_net e0)) with (s_norm (e_net e)).
    change (s_outputs (e_net e0)) with (s_outputs (e_net e)). change (s_neurons (e_net e0)) with (s_neurons (e_net e)).
    change (@num NumR) with R.
    split; do 2 f_equal; [apply add_spec_HH|apply add_spec_HT].
  - rewrite Es. destruct (s_kind _); reflexivity.
  - intros Hk. assert (s_kind s1 = s_kind (e_net e)) as -> by (rewrite Es; reflexivity).
    destruct (s_kind (e_net e)); congruence.
Qed.

(** several calls storing to the same files *)
Definition file_call (dX dT : src) (st : elm * corrfs) (p : Z * nat * nat) : (elm * corrfs) * res unit :=
  let '(e', fs', r) := hp_add_data (with_batch (fst st) (fst (fst p))) dX dT (Z.of_nat (snd (fst p))) (zcount (Some (snd p))) (Some (snd st)) in
  ((e', match fs' with Some f => f | None => snd st end), r).

Lemma file_calls_acc : forall g dX dT X T ps e fs ss,
  FsAcc (getL (reset (e_net e))) (s_outputs (e_net e)) (s_norm (e_net e)) fs ss ->
  usable (e_net e) -> data_ok e dX dT X T -> (is_wc e = true -> e_wc e <> None) ->
  Forall (in_range (length X)) ps -> (forall p, In p ps -> range_of X (snd (fst p)) (Some (snd p)) <> []) ->
  (forall p, In p ps -> weights_ok e g (range_of T (snd (fst p)) (Some (snd p)))) ->
  exists e' fs', run_all (file_call dX dT) (e, fs) ps = ((e', fs'), Ok tt) /\
    FsAcc (getL (reset (e_net e))) (s_outputs (e_net e)) (s_norm (e_net e)) fs'
       (ss ++ samples (map g (all_of T ps)) (map (hrow (s_neurons (e_net e))) (all_of X ps)) (all_of T ps)) /\
    (ps <> [] -> e_net e' = with_corr (reset (e_net e)) (s_HH (e_net e')) (s_HT (e_net e'))).
Proof.
  intros g dX dT X T. induction ps as [|[[b i] c] ps IH]; intros e fs ss HF HU HD Hw HR HN HG.
  - exists e, fs. cbn. rewrite app_nil_r. split; auto. split; auto. congruence.
  - inversion HR as [|? ? [R1 R2] HR']; subst. cbn [fst snd] in *.
    assert (weights_ok (with_batch e b) g (range_of T i (Some c))) as HW
      by exact (weights_ok_same e (with_batch e b) g _ eq_refl eq_refl eq_refl (HG _ (or_introl eq_refl))).
    destruct (hp_add_data_files (with_batch e b) g dX dT X T i (Some c) fs ss HF HU R1 HD R2 (HN _ (or_introl eq_refl)) HW)
      as (s1 & s' & fs1 & E & _ & F & Es & _).
    cbn [e_net with_batch] in *. set (e0 := with_net (with_batch e b) (reset (e_net e))) in *.
    assert (fill_wc e0 (range_of T i (Some c)) = e0) as EF.
    { unfold fill_wc. destruct (is_wc e0) eqn:Ew; auto. change (e_wc e0) with (e_wc e).
      destruct (e_wc e) eqn:Ee; auto. exfalso. apply Hw; auto. }
    rewrite EF in E. set (e1 := with_net e0 s') in *.
    assert (e_net e1 = s') as E1 by reflexivity.
    assert (reset s' = reset (e_net e)) as Er by (rewrite Es; reflexivity).
    destruct (IH e1 fs1 (ss ++ samples (map g (range_of T i (Some c))) (map (hrow (s_neurons (e_net e))) (range_of X i (Some c))) (range_of T i (Some c))))
      as (e' & fs' & E2 & F2 & Es2); auto.
    { rewrite E1. rewrite Er. rewrite Es. exact F. }
    { rewrite E1, Es. exact HU. }
    { unfold data_ok. rewrite E1, Es. exact HD. }
    { intros p Hp. apply HN. right; auto. }
    { intros p Hp. apply weights_ok_same with e; auto. { rewrite E1, Es. reflexivity. } apply HG; right; auto. }
    exists e', fs'. cbn [run_all]. unfold file_call at 1. cbn [fst snd]. rewrite E.
    split; [exact E2|]. split.
    + unfold all_of in *. cbn [map concat fst snd]. rewrite E1, Er in F2.
      assert (s_outputs s' = s_outputs (e_net e) /\ s_norm s' = s_norm (e_net e) /\ s_neurons s' = s_neurons (e_net e)) as (Eo & Eno & Ens)
        by (rewrite Es; repeat split; reflexivity).
      rewrite Eo, Eno, Ens in F2.
      rewrite <- app_assoc in F2. rewrite !map_app. cbn [num NumR] in *. destruct HD as (_ & _ & HL & _ & _).
      cbn [num NumR] in *.
      rewrite (samples_app (map g (range_of T i (Some c)))); [exact F2| |rewrite map_length; auto].
      rewrite !map_length. symmetry. now apply range_len.
    + intros _. destruct ps as [|p ps].
      * cbn [run_all] in E2. apply (f_equal (fun r => fst (fst r))) in E2. cbn [fst] in E2. subst e'. rewrite E1. exact Es.
      * rewrite (Es2 ltac:(discriminate)) at 1. rewrite E1, Er. reflexivity.
Qed.

Lemma solve_files_any : forall e fs ss,
  FsAcc (getL (e_net e)) (s_outputs (e_net e)) (s_norm (e_net e)) fs ss -> f_HH fs <> None -> s_neurons (e_net e) <> [] ->
  s_L (e_net e) <> None -> 0 < s_norm (e_net e) -> good (getL (e_net e)) ss ->
  exists e' B, hp_solve_corr e fs = (e', Ok tt) /\ s_B (e_net e') = Some B /\
    ridge_solution (getL (e_net e)) (s_outputs (e_net e)) (s_norm (e_net e)) ss B.
Proof.
  intros e fs ss [(? & _ & _)|(F1 & F2)] Hne Hns HsL Hn Hg; [congruence|].
  set (L := getL (e_net e)) in *. set (c := s_outputs (e_net e)) in *. set (nm := s_norm (e_net e)) in *.
  unfold hp_solve_corr, checkcorr. rewrite F1, F2. destruct (s_neurons (e_net e)); [congruence|].
  fold L c. rewrite (spec_HH_len L), (spec_HT_len L), !Nat.eqb_refl. cbn [andb].
  assert (is_mat L L (spec_HH L nm ss)) as M1 by (rewrite spec_HH_mk; apply is_mat_mk).
  assert (is_mat L c (spec_HT L c ss)) as M2 by (rewrite spec_HT_mk; apply is_mat_mk).
  destruct (solve_corr_full (e_net e) L (spec_HT L c ss) (spec_HH L nm ss) M1) as [P1 P2]; auto.
  { intros. now apply spec_HH_sym. }
  { apply PD_spec; auto. intros x Hx. apply (Hg x Hx). }
  fold c in P1, P2.
  exists (with_net e (with_B (e_net e) (Some (solve_corr (e_net e) L (spec_HH L nm ss) (spec_HT L c ss))))).
  eexists. split; [|split; [reflexivity|now apply ridge_solution_of]].
  unfold set_B. destruct P1 as [P1 _]. cbn [num NumR] in *. rewrite P1.
  unfold L, getL at 1. destruct (s_L (e_net e)) eqn:EL; [|congruence].
  rewrite Nat.eqb_refl. fold c. rewrite Nat.eqb_refl. reflexivity.
Qed.

Lemma solve_files : forall e fs ss,
  FsAcc (getL (e_net e)) (s_outputs (e_net e)) (s_norm (e_net e)) fs ss -> ss <> [] -> s_neurons (e_net e) <> [] ->
  s_L (e_net e) <> None -> 0 < s_norm (e_net e) -> good (getL (e_net e)) ss ->
  exists e' B, hp_solve_corr e fs = (e', Ok tt) /\ s_B (e_net e') = Some B /\
    ridge_solution (getL (e_net e)) (s_outputs (e_net e)) (s_norm (e_net e)) ss B.
Proof.
  intros e fs ss HF Hne. apply solve_files_any; [exact HF|]. destruct HF as [(_ & _ & ?)|(F1 & _)]; congruence.
Qed.

Lemma consecutive_range : forall cs i n p, In p (consecutive i cs) -> (i + list_sum (map snd cs) <= n)%nat ->
  (forall q, In q cs -> (0 < snd q)%nat) -> (0 < snd p)%nat /\ (snd (fst p) + snd p <= n)%nat.
Proof.
  induction cs as [|[b c] cs IH]; intros i n p Hin Hn Hc; cbn [consecutive] in Hin; [contradiction|].
  cbn [map snd] in Hn. change (list_sum (c :: map snd cs)) with (c + list_sum (map snd cs))%nat in Hn.
  destruct Hin as [<-|Hin].
  - cbn. pose proof (Hc _ (or_introl eq_refl)) as H0. cbn in H0. lia.
  - apply (IH (i + c)%nat); auto; [lia|]. intros; apply Hc; right; auto.
Qed.

Lemma files_core : forall e dX dT X T cs args kw e1 g,
  wf_net (e_net e) -> usable (e_net e) -> 0 < s_norm (e_net e) -> (is_wc e = true -> e_wc e <> None) ->
  parse_args e args kw = (e1, Ok tt) ->
  smem "V" args = false -> smem "CV" args = false -> smem "LOO" args = false ->
  (0 < e_batch e1)%Z -> data_ok e dX dT X T -> X <> [] ->
  (forall p, In p cs -> (0 < fst p)%Z /\ (0 < snd p)%nat) -> list_sum (map snd cs) = length X ->
  weights_ok e1 g T -> (forall T', (forall t, In t T' -> In t T) -> weights_ok e g T') ->
  exists e2 fs e3 e4 e5 B,
    run_all (file_call dX dT) (e, mkFs None None) (consecutive 0 cs) = ((e2, fs), Ok tt) /\
    hp_solve_corr e2 fs = (e3, Ok tt) /\ s_B (e_net e3) = Some B /\
    train e (Arr2 (s_inputs (e_net e)) X) (Arr2 (s_outputs (e_net e)) T) args kw = (e4, Ok None) /\ s_B (e_net e4) = Some B /\
    hp_train e dX dT args kw (Some 0%Z) None = (e5, Ok tt) /\ s_B (e_net e5) = Some B.
Proof.
  intros e dX dT X T cs args kw e1 g HW HU Hn Hw HP HV HCV HLOO Hb HD HX Hc HS HG1 HG.
  pose proof HD as (_ & _ & HL & WX & WT).
  destruct (train_core e X T args kw e1 g HW HU Hn HP HV HCV HLOO Hb HX HL WX WT HG1) as (e4 & B & E4 & EB & _ & RS).
  destruct (hp_train_core e dX dT X T 0 None args kw e1 g HW HU Hn HP Hb HD ltac:(lia) HX HG1) as (e5 & B5 & E5 & EB5 & _ & RS5).
  cbn [range_of skipn] in RS5.
  assert (Forall (in_range (length X)) (consecutive 0 cs)) as HR.
  { apply consecutive_in; [intros p Hp; apply (Hc p Hp)|lia]. }
  assert (forall p, In p (consecutive 0 cs) -> range_of X (snd (fst p)) (Some (snd p)) <> []) as HN.
  { intros p Hp C. destruct (consecutive_range cs 0 (length X) p Hp) as [P1 P2]; [lia|intros; now apply Hc|].
    apply (f_equal (@length _)) in C. cbn [range_of] in C. rewrite firstn_length, skipn_length in C. cbn [length] in C.
    cbn [num NumR] in *. lia. }
  destruct (file_calls_acc g dX dT X T (consecutive 0 cs) e (mkFs None None) []) as (e2 & fs & E2 & F2 & Es2); auto.
  { left. auto. }
  { intros p Hp. apply HG. intros t Ht. cbn [range_of] in Ht.
    assert (In t (skipn (snd (fst p)) T)) as Ht2 by (rewrite <- (firstn_skipn (snd p)); apply in_or_app; left; exact Ht).
    rewrite <- (firstn_skipn (snd (fst p)) T). apply in_or_app; right; exact Ht2. }
  cbn [app] in F2.
  assert (all_of X (consecutive 0 cs) = X) as EX.
  { unfold all_of. rewrite consecutive_concat, HS. apply firstn_all. }
  assert (all_of T (consecutive 0 cs) = T) as ET.
  { unfold all_of. rewrite consecutive_concat, HS. cbn [skipn]. cbn [num NumR] in *. rewrite HL. apply firstn_all. }
  cbn [num NumR] in *. rewrite EX, ET in F2.
  assert (consecutive 0 cs <> []) as Hcs. { intros C. rewrite C in EX. cbn in EX. congruence. }
  specialize (Es2 Hcs).
  set (ss := samples (map g T) (map (hrow (s_neurons (e_net e))) X) T) in *.
  assert (ss <> []) as Hss.
  { unfold ss. destruct X as [|x X']; [congruence|]. destruct T as [|t T']; [discriminate|]. cbn. discriminate. }
  destruct (solve_files e2 fs ss) as (e3 & B3 & E3 & EB3 & RS3).
  { rewrite Es2. exact F2. }
  { exact Hss. }
  { rewrite Es2. apply HU. }
  { rewrite Es2. cbn. discriminate. }
  { rewrite Es2. exact Hn. }
  { unfold ss. apply good_samples.
    - intros w Hin. apply in_map_iff in Hin. destruct Hin as (t & <- & Hin). apply HG1; auto.
    - intros h Hin. apply in_map_iff in Hin. destruct Hin as (x & <- & Hin).
      rewrite Es2. exact (hrow_length (s_inputs (e_net e)) (s_neurons (e_net e)) x (wf_groups _ HW)). }
  assert (ridge_solution (nneurons (s_neurons (e_net e))) (s_outputs (e_net e)) (s_norm (e_net e)) ss B3) as RS3'.
  { rewrite Es2 in RS3. exact RS3. }
  assert (B3 = B) as E3B. { apply RS; [apply RS3'|apply RS3']. }
  assert (B5 = B) as E5B. { apply RS; [apply RS5|apply RS5]. }
  exists e2, fs, e3, e4, e5, B. rewrite E3B in EB3. rewrite E5B in EB5. repeat (split; [assumption|]). exact EB5.
Qed.

(** C29 *)
Theorem files_train : forall e dX dT X T cs args kw e1,
  wf_net (e_net e) -> usable (e_net e) -> 0 < s_norm (e_net e) -> is_wc e = false ->
  parse_args e args kw = (e1, Ok tt) -> is_wc e1 = false ->
  smem "V" args = false -> smem "CV" args = false -> smem "LOO" args = false ->
  (0 < e_batch e1)%Z -> data_ok e dX dT X T -> X <> [] ->
  (forall p, In p cs -> (0 < fst p)%Z /\ (0 < snd p)%nat) -> list_sum (map snd cs) = length X ->
  exists e2 fs e3 e4 e5 B,
    run_all (file_call dX dT) (e, mkFs None None) (consecutive 0 cs) = ((e2, fs), Ok tt) /\
    hp_solve_corr e2 fs = (e3, Ok tt) /\ s_B (e_net e3) = Some B /\
    train e (Arr2 (s_inputs (e_net e)) X) (Arr2 (s_outputs (e_net e)) T) args kw = (e4, Ok None) /\ s_B (e_net e4) = Some B /\
    hp_train e dX dT args kw (Some 0%Z) None = (e5, Ok tt) /\ s_B (e_net e5) = Some B.
Proof.
  intros. eapply files_core with (g := fun _ => 1); eauto using weights_plain. congruence.
Qed.

Theorem files_train_weighted : forall e ws ks dX dT X T cs args kw e1,
  wf_net (e_net e) -> usable (e_net e) -> 0 < s_norm (e_net e) ->
  is_wc e = true -> e_wc e = Some (map Fin ws) -> length ws = s_outputs (e_net e) -> (forall w, In w ws -> 0 <= w) ->
  parse_args e args kw = (e1, Ok tt) -> is_wc e1 = true -> e_wc e1 = Some (map Fin ws) ->
  smem "V" args = false -> smem "CV" args = false -> smem "LOO" args = false ->
  (0 < e_batch e1)%Z -> data_ok e dX dT X T -> X <> [] -> Forall2 (has_class (s_outputs (e_net e))) T ks ->
  (forall p, In p cs -> (0 < fst p)%Z /\ (0 < snd p)%nat) -> list_sum (map snd cs) = length X ->
  exists e2 fs e3 e4 e5 B,
    run_all (file_call dX dT) (e, mkFs None None) (consecutive 0 cs) = ((e2, fs), Ok tt) /\
    hp_solve_corr e2 fs = (e3, Ok tt) /\ s_B (e_net e3) = Some B /\
    train e (Arr2 (s_inputs (e_net e)) X) (Arr2 (s_outputs (e_net e)) T) args kw = (e4, Ok None) /\ s_B (e_net e4) = Some B /\
    hp_train e dX dT args kw (Some 0%Z) None = (e5, Ok tt) /\ s_B (e_net e5) = Some B.
Proof.
  intros e ws ks dX dT X T cs args kw e1 HW HU Hn Hw Ew Lw Pw HP Hw1 Ew1 HV HCV HLOO Hb HD HX HT Hc HS.
  pose proof (parse_args_ok _ _ _ _ HP) as EN.
  apply files_core with (e1 := e1) (g := gw ws); auto.
  - congruence.
  - apply weights_given; auto; rewrite EN; cbn; auto.
    intros t Hin. destruct (classes_in _ _ _ _ HT Hin) as (k & _ & Hk). eauto.
  - intros T' Hin'. apply weights_given; auto.
    intros t Hin. destruct (classes_in _ _ _ _ HT (Hin' t Hin)) as (k & _ & Hk). eauto.
Qed.

(** C30 on the solvers other than Basic *)
Theorem files_memory : forall e dX dT X T i c fs,
  s_kind (e_net e) <> Basic -> no_data (e_net e) -> s_L (e_net e) = Some (nneurons (s_neurons (e_net e))) ->
  usable (e_net e) -> is_wc e = false -> (0 < e_batch e)%Z -> data_ok e dX dT X T ->
  (i <= length X)%nat -> range_of X i c <> [] ->
  fs = mkFs None None ->
  fst (fst (hp_add_data e dX dT (Z.of_nat i) (zcount c) (Some fs))) = fst (fst (hp_add_data e dX dT (Z.of_nat i) (zcount c) None)) /\
  snd (hp_add_data e dX dT (Z.of_nat i) (zcount c) (Some fs)) = Ok tt.
Proof.
  intros e dX dT X T i c fs Hk Hf HL HU Hw Hb HD Hi Hne ->.
  assert (reset (e_net e) = e_net e) as Er.
  { destruct Hf as [F1 F2]. destruct e as [s ? ? ? ? ? ? ?]. cbn in *. destruct s. cbn in *. unfold reset. cbn. now subst. }
  destruct (hp_add_data_files e (fun _ => 1) dX dT X T i c (mkFs None None) []) as (s1 & s' & fs' & E1 & E2 & _ & _ & Ek); auto.
  { left; auto. }
  { now apply weights_plain. }
  rewrite Er in E1, E2. rewrite E1. 
  assert (with_net e (e_net e) = e) as Ew by (destruct e; reflexivity). rewrite Ew in *. rewrite E2. cbn [fst snd]. rewrite Ek by auto. auto.
Qed.
End Train.
