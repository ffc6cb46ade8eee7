(** Adding and pruning neurons, sample-wise prediction (C12, C13, C14; every scalar type). *)
From Coq Require Import Permutation.
From Verif Require Import Base Num Mat LinAlg Slfn Strs Elm MatFacts SplitProofs Spec ElmFacts WfProofs.

(** ** Specification vocabulary *)
(** the group that contains column [i] when the groups have the given sizes *)
Fixpoint group_of (sizes : list nat) (i : nat) : nat :=
  match sizes with
  | [] => O
  | k :: r => if i <? k then O else S (group_of r (i - k))
  end.
(** the columns [idx] sorted by group, keeping their order within a group *)
Definition regroup (sizes idx : list nat) : list nat :=
  concat (map (fun g => filter (fun i => group_of sizes i =? g) idx) (seq 0 (length sizes))).

Lemma filter_filter : forall {A} (f g : A -> bool) l, filter f (filter g l) = filter (fun x => g x && f x) l.
Proof. induction l; cbn; auto. destruct (g a); cbn; [destruct (f a)|]; rewrite IHl; auto. Qed.
Lemma filter_map : forall {A B} (f : B -> bool) (g : A -> B) l, filter f (map g l) = map g (filter (fun x => f (g x)) l).
Proof. induction l; cbn; auto. destruct (f (g a)); cbn; rewrite IHl; auto. Qed.

Lemma regroup_cons : forall k sizes idx, regroup (k :: sizes) idx =
  filter (fun i => i <? k) idx ++
  map (fun i => i + k) (regroup sizes (map (fun i => i - k) (filter (fun i => k <=? i) idx))).
Proof.
  intros. unfold regroup. cbn [length seq map concat]. f_equal.
  - apply filter_ext. intros i. cbn [group_of]. destruct (i <? k) eqn:E; cbn; auto.
  - rewrite <- seq_shift, map_map, concat_map, map_map. f_equal. apply map_ext. intros g.
    rewrite filter_map, filter_filter, map_map. cbn [group_of].
    transitivity (map (fun i => i) (filter (fun i => (if i <? k then 0 else S (group_of sizes (i - k))) =? S g) idx)); [now rewrite map_id|].
    rewrite (filter_ext (fun i => (k <=? i) && (group_of sizes (i - k) =? g))
                        (fun i => (if i <? k then 0 else S (group_of sizes (i - k))) =? S g)).
    + apply map_ext_in. intros i Hi. apply filter_In in Hi. destruct Hi as [_ Hi].
      destruct (Nat.ltb_spec i k); [discriminate|]. lia.
    + intros i. destruct (Nat.ltb_spec i k), (Nat.leb_spec k i); try lia; cbn; auto.
Qed.

Lemma regroup_perm : forall sizes idx, (forall i, In i idx -> i < list_sum sizes) -> Permutation (regroup sizes idx) idx.
Proof.
  induction sizes as [|k r IH]; intros idx H.
  - destruct idx as [|i idx]; [constructor|]. specialize (H i (or_introl eq_refl)). cbn in H. lia.
  - rewrite regroup_cons.
    assert (Permutation idx (filter (fun i => i <? k) idx ++ filter (fun i => k <=? i) idx)) as HP.
    { clear. induction idx as [|i idx IH]; cbn [filter]; auto.
      destruct (Nat.ltb_spec i k), (Nat.leb_spec k i); try lia; cbn [app].
      - now constructor.
      - now apply Permutation_cons_app. }
    apply Permutation_sym. etransitivity; [exact HP|]. apply Permutation_app_head, Permutation_sym.
    etransitivity; [apply Permutation_map, IH|].
    + intros i Hi. apply in_map_iff in Hi. destruct Hi as (j & <- & Hj). apply filter_In in Hj. destruct Hj as [Hj Hk].
      specialize (H j Hj). apply Nat.leb_le in Hk. change (list_sum (k :: r)) with (k + list_sum r) in H. lia.
    + rewrite map_map. rewrite (map_ext_in _ (fun i => i)); [now rewrite map_id|].
      intros i Hi. apply filter_In in Hi. destruct Hi as [_ Hi]. apply Nat.leb_le in Hi. lia.
Qed.

Section Neurons.
Context {K : Num} {SG : Sing}.

(** the features of new neurons (weights W, biases B) for the sample x *)
Definition new_features (f : ftype) (W : mat) (B : vec) (n : nat) (x : vec) : vec :=
  map (fun j => act f x (map (fun row => nth j row n0) W) (nth j B n0)) (seq 0 n).

Lemma nrow_features : forall n f W B x, length B = n -> nrow (mkNeuron n f W B) x = new_features f W B n x.
Proof. intros n f W B x <-. reflexivity. Qed.

Lemma mcol_hstack_l : forall A B c1 j, length A = length B -> Forall (fun r => length r = c1) A -> j < c1 ->
  mcol (map2 (@app num) A B) j = mcol A j.
Proof.
  induction A as [|a A IH]; intros [|b B] c1 j HL HF Hj; cbn in *; try discriminate; auto.
  inversion HF; subst. unfold mcol in *. f_equal.
  - unfold vget. now rewrite app_nth1.
  - eapply IH; eauto.
Qed.
Lemma mcol_hstack_r : forall A B c1 j, length A = length B -> Forall (fun r => length r = c1) A ->
  mcol (map2 (@app num) A B) (c1 + j) = mcol B j.
Proof.
  induction A as [|a A IH]; intros [|b B] c1 j HL HF; cbn in *; try discriminate; auto.
  inversion HF; subst. unfold mcol in *. f_equal.
  - unfold vget. rewrite app_nth2 by lia. f_equal. lia.
  - eapply IH; eauto.
Qed.

Lemma nrow_merge : forall i n1' n2' f W1 B1 W2 B2 x, is_mat i n1' W1 -> length B1 = n1' -> is_mat i n2' W2 -> length B2 = n2' ->
  nrow (mkNeuron (n1' + n2') f (map2 (@app num) W1 W2) (B1 ++ B2)) x = nrow (mkNeuron n1' f W1 B1) x ++ nrow (mkNeuron n2' f W2 B2) x.
Proof.
  intros i n1' n2' f W1 B1 W2 B2 x [L1 F1] E1 [L2 F2] E2. unfold nrow, mkv. cbn [n_B n_W n_func].
  rewrite app_length, seq_app, map_app. f_equal.
  - apply map_ext_in. intros j Hj. apply in_seq in Hj. cbn in Hj.
    rewrite mcol_hstack_l with (c1 := n1') by (auto; lia). unfold vget. now rewrite app_nth1 by lia.
  - assert (forall m k s, map (fun j => k + j) (seq s m) = seq (k + s) m) as HS.
    { induction m; intros k s; cbn; auto. f_equal. rewrite IHm. f_equal. lia. }
    replace (0 + length B1) with (length B1 + 0) by lia. rewrite <- HS.
    rewrite map_map. apply map_ext_in. intros j Hj. apply in_seq in Hj.
    rewrite E1. rewrite mcol_hstack_r by (auto; lia). unfold vget. rewrite app_nth2 by lia.
    replace (n1' + j - length B1) with j by lia. reflexivity.
Qed.

(** ** C12 *)
Lemma firstn_plus : forall {A} (l m : list A) k, firstn (length l + k) (l ++ m) = l ++ firstn k m.
Proof. induction l; intros; cbn; auto. f_equal; auto. Qed.
Lemma skipn_plus : forall {A} (l m : list A) k, skipn (length l + k) (l ++ m) = skipn k m.
Proof. induction l; intros; cbn; auto. Qed.

Lemma firstn_exact : forall {A} (l m : list A), firstn (length l) (l ++ m) = l.
Proof. induction l; intros; cbn; auto. f_equal; auto. Qed.
Lemma skipn_exact : forall {A} (l m : list A), skipn (length l) (l ++ m) = m.
Proof. induction l; intros; cbn; auto. Qed.

(** where the features of new neurons of type f go, given the types and sizes of the
    groups: after the first group of the same type, else after all others *)
Fixpoint insert_at (groups : list (ftype * nat)) (f : ftype) : nat :=
  match groups with
  | [] => 0
  | (g, n) :: r => if ftype_eqb g f then n else n + insert_at r f
  end.
Definition group_sizes (ns : list neuron) : list (ftype * nat) := map (fun g => (n_func g, n_num g)) ns.

Lemma merge_hrow_at : forall i ns n f W B, Forall (wf_neuron i) ns -> is_mat i n W -> length B = n ->
  let k := insert_at (group_sizes ns) f in k <= nneurons ns /\
  forall x, hrow (merge_neurons ns n f W B) x = firstn k (hrow ns x) ++ new_features f W B n x ++ skipn k (hrow ns x).
Proof.
  intros i ns n f W B HF HW HB. cbv zeta. induction HF as [|g r [G1 G2] Hr IH]; cbn [merge_neurons].
  - split; [cbn; lia|]. intros x. unfold hrow. cbn [map concat]. rewrite app_nil_r. cbn.
    rewrite app_nil_r. now apply nrow_features.
  - cbn [group_sizes map insert_at]. destruct (ftype_eqb (n_func g) f) eqn:Ef.
    + apply ftype_eqb_eq in Ef. subst f. split.
      { unfold nneurons. cbn [map]. change (list_sum (?a :: ?b)) with (a + list_sum b). lia. }
      intros x. unfold hrow. cbn [map concat].
      rewrite (nrow_merge i) with (1 := G1) (2 := G2) by auto.
      assert (nrow (mkNeuron (n_num g) (n_func g) (n_W g) (n_B g)) x = nrow g x) as -> by (destruct g; reflexivity).
      assert (length (nrow g x) = n_num g) as HL by (unfold nrow; rewrite mkv_length; auto).
      rewrite <- HL, firstn_exact, skipn_exact, <- app_assoc.
      now rewrite nrow_features.
    + destruct IH as (Hk & IH). fold (group_sizes r). set (k := insert_at (group_sizes r) f) in *. split.
      { unfold nneurons in *. cbn [map]. change (list_sum (?a :: ?b)) with (a + list_sum b). lia. }
      intros x. specialize (IH x). unfold hrow in *. cbn [map concat]. rewrite IH.
      assert (length (nrow g x) = n_num g) as HL by (unfold nrow; rewrite mkv_length; auto).
      rewrite <- HL, firstn_plus, skipn_plus, <- app_assoc. reflexivity.
Qed.
Lemma merge_hrow : forall i ns n f W B, Forall (wf_neuron i) ns -> is_mat i n W -> length B = n ->
  exists k, k <= nneurons ns /\
  forall x, hrow (merge_neurons ns n f W B) x = firstn k (hrow ns x) ++ new_features f W B n x ++ skipn k (hrow ns x).
Proof. intros i ns n f W B HF HW HB. exists (insert_at (group_sizes ns) f). exact (merge_hrow_at i ns n f W B HF HW HB). Qed.

(** number, weights and biases that add_neurons uses *)
Definition used_number (e : elm) (number : Z) (f : ftype) (W : option (nat * mat)) : nat :=
  match W with
  | None => if is_lin f then Nat.min (Z.to_nat number) (s_inputs (e_net e)) else Z.to_nat number
  | Some _ => Z.to_nat number
  end.

Lemma add_neurons_inv : forall e number func W B rW rB e', add_neurons e number func W B rW rB = (e', Ok tt) ->
  exists f n W' B', parse_func func = Some f /\ n = used_number e number f W /\
    W' = match W with None => default_W f (s_inputs (e_net e)) n rW | Some w => snd w end /\
    B' = match B with None => default_B f (s_inputs (e_net e)) n rB | Some b => b end /\
    length W' = s_inputs (e_net e) /\ match W with Some w => fst w = n | None => True end /\ length B' = n /\
    e' = with_net e (slfn_add_neurons (e_net e) n f W' B').
Proof.
  intros e number func W B rW rB e' E. unfold add_neurons in E.
  destruct (parse_func func) as [f|]; [|discriminate].
  destruct (number <? 0)%Z; [discriminate|]. cbv zeta in E.
  match type of E with (if ?b then _ else _) = _ => destruct b eqn:E1; [|discriminate] end.
  match type of E with (if ?b then _ else _) = _ => destruct b eqn:E2; [|discriminate] end.
  match type of E with (if ?b then _ else _) = _ => destruct b eqn:E3; [|discriminate] end.
  injection E as <-. apply andb_prop in E1. destruct E1 as [E1 E1']. apply Nat.eqb_eq in E1, E1', E2.
  exists f, (used_number e number f W).
  destruct W as [[c W]|]; cbn [used_number snd fst] in *; do 2 eexists; repeat split; eauto.
Qed.

Theorem add_neurons_features : forall e number func W B rW rB e',
  wf_net (e_net e) ->
  (forall c m, W = Some (c, m) -> Forall (fun r => length r = c) m) ->
  rand_shapes (s_inputs (e_net e)) rW rB ->
  add_neurons e number func W B rW rB = (e', Ok tt) ->
  exists f n W' B' k, parse_func func = Some f /\
    (* what was requested *)
    n = match W with
        | None => if is_lin f then Nat.min (Z.to_nat number) (s_inputs (e_net e)) else Z.to_nat number
        | Some _ => Z.to_nat number
        end /\
    (forall c m, W = Some (c, m) -> W' = m) /\ (forall b, B = Some b -> B' = b) /\
    length W' = s_inputs (e_net e) /\ Forall (fun row => length row = n) W' /\ length B' = n /\
    s_inputs (e_net e') = s_inputs (e_net e) /\ s_outputs (e_net e') = s_outputs (e_net e) /\
    (* the number of neurons grows by n *)
    s_L (e_net e') = Some (getL (e_net e) + n) /\ k <= getL (e_net e) /\ k = insert_at (group_sizes (s_neurons (e_net e))) f /\
    (* the features of every sample: the old ones, with the new ones inserted at k *)
    (is_ufunc f = false ->
     (forall c X H, elm_project e (Arr2 c X) = Ok H -> exists H', elm_project e' (Arr2 c X) = Ok H' /\
        H' = map2 (fun x h => firstn k h ++ new_features f W' B' n x ++ skipn k h) X H) /\
     (s_neurons (e_net e) = [] -> forall X, Forall (fun x => length x = s_inputs (e_net e)) X ->
        elm_project e' (Arr2 (s_inputs (e_net e)) X) = Ok (map (new_features f W' B' n) X))).
Proof.
  intros e number func W B rW rB e' HW HR HR1 E.
  apply add_neurons_inv in E. destruct E as (f & n & W' & B' & Ef & En & EW & EB & L1 & L2 & L3 & ->).
  assert (is_mat (s_inputs (e_net e)) n W') as SW.
  { destruct W as [[c W]|]; subst W'.
    - cbn [snd fst] in *. subst n. split; auto. specialize (HR _ _ eq_refl). now rewrite L2 in HR.
    - eapply WfProofs.default_W_shape; eauto. }
  destruct (merge_hrow_at (s_inputs (e_net e)) (s_neurons (e_net e)) n f W' B' (wf_groups _ HW) SW L3) as (Hk & HM).
  set (k := insert_at (group_sizes (s_neurons (e_net e))) f) in *. exists f, n, W', B', k. split; auto. split; [exact En|].
  split; [intros c m ->; exact EW|]. split; [intros b ->; exact EB|].
  split; [auto|]. split; [apply SW|]. split; [auto|]. split; [reflexivity|]. split; [reflexivity|].
  split; [rewrite (wf_getL _ HW), <- (merge_count _ n f W' B'); reflexivity|]. split; [now rewrite (wf_getL _ HW)|]. split; [reflexivity|].
  intros Hu. split.
  - intros c X H EH. unfold elm_project, check_arr in *. cbn [e_net with_net s_inputs slfn_add_neurons with_B reset with_neurons] in *.
    destruct (c =? s_inputs (e_net e))%nat; [|discriminate]. cbn [rbind] in *.
    apply project_inv in EH. destruct EH as (HU & HX & ->).
    eexists. split.
    + apply project_ok; [|exact HX]. apply usable_of.
      * cbn. destruct (s_neurons (e_net e)); [discriminate|]. cbn. destruct (ftype_eqb _ _); discriminate.
      * cbn [s_neurons s_inputs slfn_add_neurons with_B reset with_neurons]. destruct SW as [SW _].
        pose proof (fun n => usable_wide (e_net e) n HU) as HA. clear - HA Hu SW.
        induction (s_neurons (e_net e)) as [|g r IH]; cbn [merge_neurons]; intros q Hq.
        { destruct Hq as [<-|[]]. auto. }
        { destruct (ftype_eqb _ _) eqn:E; destruct Hq as [<-|Hq].
          - cbn [n_func n_W]. split; [exact Hu|]. rewrite map2_length, SW, (proj2 (HA g (or_introl eq_refl))). apply Nat.min_id.
          - apply HA. now right.
          - apply HA. now left.
          - apply IH; [intros; apply HA; now right|exact Hq]. }
    + cbn [s_neurons slfn_add_neurons with_B reset with_neurons]. clear -HM. induction X as [|x X IH]; cbn; auto.
      f_equal; auto.
  - intros Hn X HX. unfold elm_project, check_arr. cbn [e_net with_net s_inputs slfn_add_neurons with_B reset with_neurons].
    rewrite Nat.eqb_refl. cbn [rbind]. rewrite project_ok.
    + f_equal. cbn [s_neurons slfn_add_neurons with_B reset with_neurons]. rewrite Hn. apply map_ext. intros x.
      unfold hrow. cbn. rewrite app_nil_r. now apply nrow_features.
    + apply usable_of; cbn; rewrite Hn; cbn; [discriminate|]. intros q [<-|[]]. auto.
    + exact HX.
Qed.

(** ** C13 *)
Lemma mcol_csel : forall M ix j, j < length ix -> mcol (csel M ix) j = mcol M (nth j ix 0).
Proof.
  intros. unfold mcol, csel. rewrite map_map. apply map_ext. intros r. unfold vsel, vget.
  rewrite nth_map_lt with (da := 0); auto.
Qed.
Lemma vget_vsel : forall v ix j, j < length ix -> vget (vsel v ix) j = vget v (nth j ix 0).
Proof. intros. unfold vsel. unfold vget at 1. rewrite nth_map_lt with (da := 0); auto. Qed.

Lemma nrow_sel : forall i g ix x, wf_neuron i g -> (forall j, In j ix -> j < n_num g) ->
  nrow (mkNeuron (length ix) (n_func g) (csel (n_W g) ix) (vsel (n_B g) ix)) x = map (vget (nrow g x)) ix.
Proof.
  intros i g ix x [G1 G2] Hix. unfold nrow. cbn [n_B n_W n_func]. unfold vsel at 1. rewrite map_length.
  apply list_ext with (d := n0); [now rewrite mkv_length, map_length|]. rewrite mkv_length. intros j Hj.
  change (nth j (mkv (length ix) ?f) n0) with (vget (mkv (length ix) f) j). rewrite vget_mkv by auto.
  rewrite nth_map_lt with (da := 0) by auto.
  assert (nth j ix 0 < n_num g) by (apply Hix, nth_In; auto).
  rewrite vget_mkv by lia. now rewrite mcol_csel, vget_vsel by auto.
Qed.

Lemma prune_hrow : forall i ns idx x, Forall (wf_neuron i) ns ->
  hrow (prune_neurons ns idx) x = map (vget (hrow ns x)) (regroup (map n_num ns) idx).
Proof.
  intros i ns idx x H. revert idx. induction H as [|g r Hg Hr IH]; intros idx; cbn [prune_neurons map].
  - reflexivity.
  - rewrite regroup_cons, map_app, map_map. unfold hrow in *. cbn [map concat].
    assert (length (nrow g x) = n_num g) as HL by (unfold nrow; rewrite mkv_length; apply Hg).
    f_equal.
    + rewrite (nrow_sel i) by (auto; intros j Hj; apply filter_In in Hj; destruct Hj as [_ Hj]; now apply Nat.ltb_lt).
      apply map_ext_in. intros j Hj. apply filter_In in Hj. destruct Hj as [_ Hj]. apply Nat.ltb_lt in Hj.
      unfold vget. rewrite app_nth1; auto. lia.
    + rewrite IH. apply map_ext. intros j. unfold vget. rewrite app_nth2 by lia. f_equal. lia.
Qed.

Lemma prune_count : forall ns idx, (forall i, In i idx -> i < nneurons ns) -> nneurons (prune_neurons ns idx) = length idx.
Proof.
  intros ns idx H. unfold nneurons in *.
  assert (map n_num (prune_neurons ns idx) = map (fun g => length (filter (fun i => group_of (map n_num ns) i =? g) idx)) (seq 0 (length ns))) as E.
  { clear H. revert idx. induction ns as [|g r IH]; intros idx; cbn [prune_neurons map length seq]; auto. cbn [n_num].
    f_equal.
    - f_equal. apply filter_ext. intros i. cbn [group_of]. destruct (i <? n_num g); auto.
    - rewrite IH, <- seq_shift, map_map. apply map_ext. intros j. rewrite filter_map, map_length, filter_filter.
      f_equal. apply filter_ext. intros i. cbn [group_of].
      destruct (Nat.ltb_spec i (n_num g)), (Nat.leb_spec (n_num g) i); try lia; auto. }
  rewrite E. rewrite <- (Permutation_length (regroup_perm (map n_num ns) idx H)). unfold regroup.
  rewrite map_length. clear E. induction (seq 0 (length ns)) as [|g l IH]; cbn [map concat]; auto. rewrite app_length, <- IH. reflexivity.
Qed.

Theorem prune_features : forall e idx,
  wf_net (e_net e) -> (forall i, In i idx -> i < getL (e_net e)) ->
  let e' := with_net e (prune (e_net e) idx) in
  exists cols, cols = regroup (map n_num (s_neurons (e_net e))) idx /\ Permutation cols idx /\
    s_L (e_net e') = Some (length idx) /\
    map n_func (s_neurons (e_net e')) = map n_func (s_neurons (e_net e)) /\
    forall c X H, elm_project e (Arr2 c X) = Ok H ->
      elm_project e' (Arr2 c X) = Ok (map (fun h => map (fun i => nth i h n0) cols) H).
Proof.
  intros e idx HW Hi e'. rewrite (wf_getL _ HW) in Hi. eexists. split; [reflexivity|].
  split; [now apply regroup_perm|]. split; [rewrite <- (prune_count _ _ Hi); reflexivity|]. split; [apply prune_types|].
  intros c X H E. unfold elm_project, check_arr in *. cbn [e_net e' with_net s_inputs prune with_B reset with_neurons].
  destruct (c =? s_inputs (e_net e))%nat; [|discriminate]. cbn [rbind] in *.
  apply project_inv in E. destruct E as (HU & HX & ->). rewrite project_ok.
  - cbn [s_neurons prune with_B reset with_neurons]. f_equal. rewrite map_map. apply map_ext. intros x.
    rewrite (prune_hrow (s_inputs (e_net e))) by apply HW. reflexivity.
  - destruct HU as [U1 U2]. split; cbn.
    + destruct (s_neurons (e_net e)); [congruence|discriminate].
    + rewrite <- U2. clear. generalize (s_inputs (e_net e)). intros d. revert idx. induction (s_neurons (e_net e)) as [|g r IH]; intros idx; [reflexivity|].
      cbn [prune_neurons existsb]. rewrite IH. apply f_equal2; [|reflexivity]. unfold bad_group. cbn [n_func n_W]. unfold csel. now rewrite map_length.
  - exact HX.
Qed.

(** ** C14 *)
Theorem predict_samplewise : forall e, exists f, forall c X Y, elm_predict e (Arr2 c X) = Ok Y -> Y = map f X.
Proof.
  intros e. exists (fun x => mkv (s_outputs (e_net e)) (fun j => dotv (hrow (s_neurons (e_net e)) x)
              (mcol (match s_B (e_net e) with Some B => B | None => [] end) j))).
  intros c X Y E. unfold elm_predict, check_arr in E. destruct (c =? _); [|discriminate]. cbn [rbind] in E.
  unfold predict in E. destruct (s_B (e_net e)); [|discriminate].
  destruct (project (e_net e) X) as [H|] eqn:EP; [|discriminate]. cbn [rbind] in E. apply Ok_inj in E. subst Y.
  apply project_inv in EP. destruct EP as (_ & _ & ->). unfold mmul. now rewrite map_map.
Qed.

Theorem predict_concat : forall e c X X', elm_predict e (Arr2 c (X ++ X')) =
  let? Y := elm_predict e (Arr2 c X) in let? Y' := elm_predict e (Arr2 c X') in Ok (Y ++ Y').
Proof.
  intros. unfold elm_predict, check_arr. destruct (c =? _); cbn [rbind]; auto.
  unfold predict. destruct (s_B (e_net e)); cbn [rbind]; auto. unfold project.
  destruct (s_neurons (e_net e)); cbn [rbind]; auto.
  do 2 (destruct (existsb _ _); cbn [rbind]; auto). rewrite forallb_app.
  destruct (forallb _ X); cbn [rbind andb]; auto. destruct (forallb _ X'); cbn [rbind]; auto.
  unfold mmul. now rewrite !map_app.
Qed.
End Neurons.
