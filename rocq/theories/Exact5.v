(** Exact outcome of the task names (C44, C45), of neuron types in project (C53), of compressed
    text files (C56), of the order of samples (C78), of partly given weights (C94) and of
    standard deviations given as a list (C42). *)
From Coq Require Import Reals Lra Permutation Ascii.
From Verif Require Import Base Num Mat LinAlg Slfn Strs Elm Mrsr Search Mss Hpelm Hdf5 MatFacts SplitProofs ElmFacts AccProofs WfProofs
  RangeThms TrainThms LoadThms ArgThms NeuronThms History Accept ErrThms ErrMore Hdf5Thms VcWc Spec.
Local Open Scope string_scope.
Local Open Scope list_scope.

(** ** C44 *)
(** the task an argument of train asks for *)
Inductive asks_task : string -> option string -> Prop :=
| ask_r : asks_task "R" None
| ask_c : asks_task "C" (Some "c")
| ask_wc : asks_task "WC" (Some "wc")
| ask_ml : asks_task "ML" (Some "ml")
| ask_mc : asks_task "MC" (Some "ml").

Section Gen.
Context {K : Num}.
Let step (c : option string) (a : string) : option string := if (a =? "C")%string then Some "c" else if (a =? "WC")%string then Some "wc" else
                        if ((a =? "ML") || (a =? "MC"))%string then Some "ml" else if (a =? "R")%string then None else c.
Lemma step_asks : forall c a t, asks_task a t -> step c a = t.
Proof. intros c a t H. destruct H; reflexivity. Qed.
Lemma step_other : forall c a, (forall t, ~ asks_task a t) -> step c a = c.
Proof.
  intros c a H. unfold step. destruct (String.eqb_spec a "C"); [subst; destruct (H _ ask_c)|]. destruct (String.eqb_spec a "WC"); [subst; destruct (H _ ask_wc)|].
  destruct (String.eqb_spec a "ML"); [subst; destruct (H _ ask_ml)|]. destruct (String.eqb_spec a "MC"); [subst; destruct (H _ ask_mc)|].
  destruct (String.eqb_spec a "R"); [subst; destruct (H _ ask_r)|]. reflexivity.
Qed.
Lemma last_class_other : forall l c, (forall b t, In b l -> ~ asks_task b t) -> last_class l c = c.
Proof.
  intros l. unfold last_class. change (fun c a => _) with step. induction l as [|a l IH]; intros c H; [reflexivity|].
  cbn [fold_left]. rewrite step_other by (intros t; apply H; now left). apply IH. intros b t Hb. apply H. now right.
Qed.
Theorem task_exact : forall e args kw e1, parse_args e args kw = (e1, Ok tt) ->
  (forall l a r t, args = l ++ a :: r -> asks_task (upper a) t -> (forall b u, In b r -> ~ asks_task (upper b) u) -> e_class e1 = t) /\
  ((forall b u, In b args -> ~ asks_task (upper b) u) -> e_class e1 = None).
Proof.
  intros e args kw e1 E.
  assert (valid_args e args kw) as HV by (destruct (valid_dec e args kw) as [H|H]; auto; apply (proj2 (parse_result e args kw)) in H; rewrite E in H; discriminate).
  rewrite (proj1 (parse_result e args kw) HV) in E. injection E as <-. unfold parsed. cbn [e_class]. split.
  - intros l a r t -> Ha Hr. rewrite map_app. cbn [map]. unfold last_class. rewrite fold_left_app. cbn [fold_left].
    change (fold_left _ (map upper r) ?x) with (last_class (map upper r) x). rewrite last_class_other; [apply (step_asks _ _ _ Ha)|].
    intros b u Hb. apply in_map_iff in Hb as (b' & <- & Hb). now apply Hr.
  - intros H. apply last_class_other. intros b u Hb. apply in_map_iff in Hb as (b' & <- & Hb). now apply H.
Qed.

(** the model that train leaves has this task type, whatever the structure selection *)
Section Kept.
Context {SG : Sing} {BR : Brent} {SH : Shuffle}.
Lemma fill_class : forall e T, e_class (fill_wc e T) = e_class e.
Proof. intros e T. unfold fill_wc. destruct (is_wc e); [|reflexivity]. destruct (e_wc e); reflexivity. Qed.
Lemma add_data_class : forall e X T, e_class (fst (add_data e X T)) = e_class e.
Proof.
  intros e X T. unfold add_data. repeat match goal with
  | |- context [match ?x with _ => _ end] => destruct x eqn:?
  end; cbn [fst e_class with_net]; try reflexivity; try apply fill_class.
Qed.
Lemma refit_class : forall e X T ix, e_class (fst (refit e X T ix)) = e_class e.
Proof.
  intros e X T ix. unfold refit. cbv zeta. destruct (add_batch _ X T None) as [s1 [u|x]]; [|reflexivity]. destruct (solve s1). reflexivity.
Qed.
Lemma folds_class : forall e X T N k is_ L, e_class (fst (build_folds e X T N k is_ L)) = e_class e.
Proof.
  intros e X T N k is_. revert e. induction is_ as [|i r IH]; intros e L; cbn [build_folds]; [reflexivity|].
  destruct (fold_parts N k i) as [[tr vl] ts]. destruct (add_batch _ _ _ _) as [s1 [u|x]]; [|reflexivity].
  match goal with |- context [match ?o with Ok _ => _ | Err _ => _ end] => destruct o as [[fd L1]|x] end; [|reflexivity].
  pose proof (IH (with_net e s1) L1) as A. destruct (build_folds _ _ _ _ _ _ _) as [e2 [[fds L2]|x]]; exact A.
Qed.
Theorem train_class : forall e X T args kw x t e1, checkdata e X T = Ok (x, t) -> parse_args e args kw = (e1, Ok tt) ->
  e_class (fst (train e X T args kw)) = e_class e1.
Proof.
  intros e X T args kw x t e1 EC EP. unfold train. rewrite EC, EP. cbv iota beta.
  destruct (smem "V" args); [|destruct (smem "CV" args); [|destruct (smem "LOO" args)]].
  - destruct (kw_Xv kw) as [Xv|]; [|reflexivity]. destruct (kw_Tv kw) as [Tv|]; [|reflexivity].
    destruct (checkdata e1 Xv Tv) as [[xv tv]|]; cbn [lift_err]; [|reflexivity]. unfold train_v.
    pose proof (add_data_class e1 x t) as A. destruct (add_data e1 x t) as [e2 [u|err]]; [|exact A]. cbn [fst] in A.
    destruct (select_v e2 _ _) as [[[k rank] o]|]; cbn [lift_err fst done]; [|exact A]. rewrite refit_class. exact A.
  - destruct (kw_k kw) as [k|]; [|reflexivity]. destruct (3 <=? k)%nat; [|reflexivity]. unfold train_cv.
    pose proof (folds_class e1 x t (length x) k (seq 0 k) (getL (e_net e1))) as A. destruct (build_folds _ _ _ _ _ _ _) as [e2 [[fds L]|err]]; [|exact A]. cbn [fst] in A.
    destruct (select_cv e2 _ _ _) as [[[[ko rank] et] o]|]; cbn [lift_err fst done]; [|exact A]. rewrite refit_class. exact A.
  - unfold train_loo. destruct (project (e_net e1) x) as [H|]; cbn [lift_err]; [|reflexivity].
    pose proof (add_data_class e1 x t) as A. destruct (add_data e1 x t) as [e2 [u|err]]; [|exact A]. cbn [fst] in A.
    destruct (select_loo e2 _ _) as [[[k rank] o]|]; cbn [lift_err fst done]; [|exact A]. rewrite refit_class. exact A.
  - unfold train_basic. pose proof (add_data_class e1 x t) as A. destruct (add_data e1 x t) as [e2 [u|err]]; [|exact A]. cbn [fst] in A.
    destruct (solve (e_net e2)) as [s2 r2]. exact A.
Qed.
(** both together, for a call of train that returns *)
Theorem train_task : forall e X T args kw e' r, train e X T args kw = (e', Ok r) ->
  (forall l a q t, args = l ++ a :: q -> asks_task (upper a) t -> (forall b u, In b q -> ~ asks_task (upper b) u) -> e_class e' = t) /\
  ((forall b u, In b args -> ~ asks_task (upper b) u) -> e_class e' = None).
Proof.
  intros e X T args kw e' r E. pose proof E as E0. unfold train in E0.
  destruct (checkdata e X T) as [[x t]|] eqn:EC; [|discriminate]. destruct (parse_args e args kw) as [e1 [u|err]] eqn:EP; [|discriminate]. destruct u. clear E0.
  pose proof (train_class e X T args kw x t e1 EC EP) as A. rewrite E in A. cbn [fst] in A. rewrite A. exact (task_exact e args kw e1 EP).
Qed.
End Kept.

(** ** C45 *)
Lemma lower_cases : forall cls, In (lower cls) ["c"; "wc"; "ml"; "mc"] ->
  In cls ["c"; "C"; "wc"; "wC"; "Wc"; "WC"; "ml"; "mL"; "Ml"; "ML"; "mc"; "mC"; "Mc"; "MC"].
Proof.
  intros c Hx. destruct Hx as [Hx|[Hx|[Hx|[Hx|[]]]]]; destruct c as [|a c]; try discriminate Hx; cbn in Hx; injection Hx as Ha Hc; symmetry in Ha.
  - destruct c; [|discriminate]. apply (proj1 (lower_inv a)) in Ha. destruct Ha as [->| ->]; cbn; tauto.
  - destruct c as [|b c]; [discriminate|]. cbn in Hc. injection Hc as Hb Hc. destruct c; [|discriminate]. symmetry in Hb.
    apply (proj2 (lower_inv a)) in Ha. apply (proj1 (lower_inv b)) in Hb. destruct Ha as [->| ->], Hb as [->| ->]; cbn; tauto.
  - destruct c as [|b c]; [discriminate|]. cbn in Hc. injection Hc as Hb Hc. destruct c; [|discriminate]. symmetry in Hb.
    apply (proj2 (lower_inv a)) in Ha. apply (proj2 (lower_inv b)) in Hb. destruct Ha as [->| ->], Hb as [->| ->]; cbn; tauto.
  - destruct c as [|b c]; [discriminate|]. cbn in Hc. injection Hc as Hb Hc. destruct c; [|discriminate]. symmetry in Hb.
    apply (proj2 (lower_inv a)) in Ha. apply (proj1 (lower_inv b)) in Hb. destruct Ha as [->| ->], Hb as [->| ->]; cbn; tauto.
Qed.
Lemma as_regression : forall e cls, e_class e = Some cls -> In cls ["C"; "wC"; "Wc"; "WC"; "mL"; "Ml"; "ML"; "mC"; "Mc"; "MC"] ->
  (forall T Y, elm_error e T Y = elm_error (with_class e None) T Y) /\
  (forall fT fY i n, hp_error e fT fY i n = hp_error (with_class e None) fT fY i n) /\
  (forall T Y, confusion e T Y = Err AssertionError).
Proof.
  intros e cls E H. unfold elm_error, error_, hp_error, confusion, hp_error_. cbn [e_class e_wc e_net e_batch with_class]. rewrite !E.
  cbn [In] in H. repeat (destruct H as [<-|H]; [repeat split; reflexivity|]). destruct H.
Qed.
Theorem ctor_exact : forall inputs outputs cls w batch accel prec norm e,
  elm_init inputs outputs cls w batch accel prec norm = Ok e ->
  (In (lower cls) ["c"; "wc"; "ml"; "mc"] -> e_class e = Some (if (cls =? "mc")%string then "ml" else cls)) /\
  (~ In (lower cls) ["c"; "wc"; "ml"; "mc"] -> e_class e = None) /\
  (~ In cls ["c"; "wc"; "ml"; "mc"] ->
   (forall T Y, elm_error e T Y = elm_error (with_class e None) T Y) /\
   (forall fT fY i n, hp_error e fT fY i n = hp_error (with_class e None) fT fY i n) /\
   (forall T Y, confusion e T Y = Err AssertionError)).
Proof.
  intros inputs outputs cls w batch accel prec norm e E. pose proof (init_class _ _ _ _ _ _ _ _ _ E) as EC.
  assert (In (lower cls) ["c"; "wc"; "ml"; "mc"] -> e_class e = Some (if (cls =? "mc")%string then "ml" else cls)) as H1.
  { intros H. rewrite EC. apply lower_cases in H. cbn [In] in H. repeat (destruct H as [<-|H]; [vm_compute; reflexivity|]). destruct H. }
  assert (~ In (lower cls) ["c"; "wc"; "ml"; "mc"] -> e_class e = None) as H2 by (intros H; rewrite EC; now apply ctor_class_none).
  split; [exact H1|]. split; [exact H2|]. intros Hn.
  destruct (in_dec string_dec (lower cls) ["c"; "wc"; "ml"; "mc"]) as [Hi|Hi].
  - specialize (H1 Hi). apply (as_regression e cls).
    + destruct (String.eqb_spec cls "mc"); [|exact H1]. exfalso. apply Hn. subst. cbn. tauto.
    + apply lower_cases in Hi. cbn [In] in *. tauto.
  - specialize (H2 Hi). repeat split.
    + intros T Y. unfold elm_error, error_. cbn [e_class e_wc e_net with_class]. now rewrite H2.
    + intros fT fY i n. unfold hp_error. cbn [e_class e_wc e_net e_batch with_class]. now rewrite H2.
    + intros T Y. unfold confusion. now rewrite H2.
Qed.

(** ** C53 *)
Context {SG : Sing}.
Theorem project_exact : forall s X, wf_net s -> wide (s_inputs s) X ->
  (s_neurons s = [] -> project s X = Err ValueError) /\
  ((exists g i, In g (s_neurons s) /\ n_func g = Ufunc i) -> project s X = Err KeyError) /\
  (s_neurons s <> [] -> (forall g i, In g (s_neurons s) -> n_func g <> Ufunc i) -> project s X = Ok (map (hrow (s_neurons s)) X)).
Proof.
  intros s X HW HX. unfold project. split; [intros ->; reflexivity|]. split.
  - intros (g & i & Hg & Ei). destruct (s_neurons s) as [|n ns] eqn:En; [destruct Hg|].
    assert (existsb (fun n => is_ufunc (n_func n)) (n :: ns) = true) as ->; [|reflexivity]. apply existsb_exists. exists g. split; auto. now rewrite Ei.
  - intros Hne Hu. assert (usable s) as HU.
    { split; [exact Hne|]. apply not_true_is_false. intros C. apply existsb_exists in C as (g & Hg & C). unfold bad_group in C.
      pose proof (wf_groups _ HW) as G. rewrite Forall_forall in G. destruct (G g Hg) as [[G1 _] _]. rewrite G1, Nat.eqb_refl in C. cbn [negb] in C. rewrite orb_false_r in C.
      destruct (n_func g) eqn:Ef; try discriminate. exact (Hu g id Hg Ef). }
    change (project s X = Ok (map (hrow (s_neurons s)) X)). now apply project_ok.
Qed.
(** a ufunc, once accepted, makes every later projection of this model fail *)
Theorem ufunc_project : forall e number i W B rW rB e',
  add_neurons e number (FUfunc i) W B rW rB = (e', Ok tt) -> forall X, elm_project e' (Arr2 (s_inputs (e_net e)) X) = Err KeyError.
Proof.
  intros e number i W B rW rB e' E X. unfold add_neurons in E. cbn [parse_func] in E. destruct (number <? 0)%Z; [discriminate|].
  destruct ((_ =? _)%nat && (_ =? _)%nat); [|discriminate]. destruct (_ =? _)%nat; [|discriminate]. destruct (can_merge _ _ _); [|discriminate].
  injection E as <-. unfold elm_project. cbn [e_net with_net slfn_add_neurons s_inputs with_B reset with_neurons check_arr]. rewrite Nat.eqb_refl. cbn [rbind].
  match goal with |- project ?s _ = _ => set (s1 := s) end.
  assert (exists g, In g (s_neurons s1) /\ is_ufunc (n_func g) = true) as (g & Hg & Eg).
  { unfold s1. unfold slfn_add_neurons. cbn [s_neurons with_B reset with_neurons with_corr]. match goal with |- context [merge_neurons ?a ?b ?c ?d ?f] => generalize b d f; generalize a end.
    intros ns. induction ns as [|g ns IH]; intros b d f; cbn [merge_neurons].
    - eexists. split; [now left|reflexivity].
    - destruct (ftype_eqb (n_func g) (Ufunc i)) eqn:Ef.
      + eexists. split; [now left|]. cbn [n_func]. destruct (n_func g); try discriminate. reflexivity.
      + destruct (IH b d f) as (g' & H1 & H2). exists g'. split; [now right|exact H2]. }
  unfold project. destruct (s_neurons s1) as [|n ns] eqn:En; [destruct Hg|].
  assert (existsb (fun n => is_ufunc (n_func n)) (n :: ns) = true) as ->; [|reflexivity]. apply existsb_exists. eauto.
Qed.

(** ** C56 *)
Theorem gz_one_line : forall (r : list num) lev ch, (lev < 10)%Z ->
  (length r = 1%nat -> make_hdf5 (InGz [r]) lev ch = (Err AssertionError, None)) /\
  (length r <> 1%nat -> make_hdf5 (InGz [r]) lev ch = (Ok tt, Some (mkNode 1 (map (fun x => [x]) r) ch ANone ANone))).
Proof.
  intros r lev ch Hl. unfold make_hdf5. destruct (Z.leb_spec 10 lev); [lia|]. unfold loadtxt. cbn [forallb].
  split; intros H1.
  - destruct r as [|x [|y r]]; try discriminate. reflexivity.
  - destruct r as [|x [|y r]]; try (cbn in H1; lia); reflexivity.
Qed.
Theorem gz_ragged : forall (r : list num) rows lev ch, (lev < 10)%Z -> ~ Forall (fun x => length x = length r) rows ->
  make_hdf5 (InGz (r :: rows)) lev ch = (Err ValueError, None).
Proof.
  intros r rows lev ch Hl H. unfold make_hdf5. destruct (Z.leb_spec 10 lev); [lia|]. unfold loadtxt.
  destruct (forallb _ rows) eqn:E; [|reflexivity]. exfalso. apply H. rewrite forallb_forall in E. apply Forall_forall. intros x Hx. now apply Nat.eqb_eq, E.
Qed.

(** ** C94 *)
Theorem add_neurons_W : forall e n func c W rW rB, wf_net (e_net e) -> rand_shapes (s_inputs (e_net e)) rW rB ->
  snd (add_neurons e n func (Some (c, W)) None rW rB) = Ok tt <->
  (exists f, parse_func func = Some f) /\ (0 <= n)%Z /\ length W = s_inputs (e_net e) /\ c = Z.to_nat n.
Proof.
  intros e n func c W rW rB HW HR. unfold add_neurons. destruct (parse_func func) as [f|].
  2: { split; [discriminate|intros ((f & E) & _); discriminate]. }
  destruct (Z.ltb_spec n 0) as [L|L]; cbn [fst snd]; [split; [discriminate|lia]|].
  destruct (Nat.eqb_spec (length W) (s_inputs (e_net e))) as [E1|E1]; cbn [andb]; [|split; [discriminate|intros (_ & _ & C & _); congruence]].
  destruct (Nat.eqb_spec c (Z.to_nat n)) as [E2|E2]; [|split; [discriminate|intros (_ & _ & _ & C); congruence]].
  assert (length (default_B f (s_inputs (e_net e)) (Z.to_nat n) rB) = Z.to_nat n) as ->.
  { destruct (HR (Z.to_nat n)) as [_ HB]. unfold default_B. destruct (is_lin f); [apply mkv_length|]. destruct (is_rbf f); rewrite ?map_length; exact HB. }
  rewrite Nat.eqb_refl.
  assert (can_merge (s_neurons (e_net e)) f W = true) as EM.
  { apply can_merge_iff; [apply wf_types; auto|]. intros g Hg _. pose proof (wf_groups _ HW) as G. rewrite Forall_forall in G. destruct (G g Hg) as [[G1 _] _]. lia. }
  rewrite EM. cbn [snd]. split; [|reflexivity]. intros _. split; [eauto|]. auto.
Qed.
Theorem add_neurons_B : forall e n func B rW rB, wf_net (e_net e) -> rand_shapes (s_inputs (e_net e)) rW rB ->
  snd (add_neurons e n func None (Some B) rW rB) = Ok tt <->
  exists f, parse_func func = Some f /\ (0 <= n)%Z /\
    length B = (match f with Lin => Nat.min (Z.to_nat n) (s_inputs (e_net e)) | _ => Z.to_nat n end).
Proof.
  intros e n func B rW rB HW HR. unfold add_neurons. destruct (parse_func func) as [f|].
  2: { split; [discriminate|intros (f & E & _); discriminate]. }
  destruct (Z.ltb_spec n 0) as [L|L]; cbn [fst snd]; [split; [discriminate|intros (? & _ & ? & _); lia]|].
  set (num := if is_lin f then Nat.min (Z.to_nat n) (s_inputs (e_net e)) else Z.to_nat n).
  assert (match f with Lin => Nat.min (Z.to_nat n) (s_inputs (e_net e)) | _ => Z.to_nat n end = num) as EN by (unfold num; destruct f; reflexivity).
  destruct (default_W_shape f (s_inputs (e_net e)) num rW rB HR) as [E1 _]. rewrite E1, !Nat.eqb_refl. cbn [andb].
  destruct (Nat.eqb_spec (length B) num) as [E2|E2].
  - assert (can_merge (s_neurons (e_net e)) f (default_W f (s_inputs (e_net e)) num rW) = true) as EM.
    { apply can_merge_iff; [apply wf_types; auto|]. intros g Hg _. pose proof (wf_groups _ HW) as G. rewrite Forall_forall in G. destruct (G g Hg) as [[G1 _] _]. lia. }
    rewrite EM. cbn [snd]. split; [|reflexivity]. intros _. exists f. rewrite EN. auto.
  - split; [discriminate|]. intros (f' & Ef & _ & E). injection Ef as <-. congruence.
Qed.
End Gen.

(** ** C42 *)
Section Std.
Local Open Scope R_scope.
#[local] Existing Instance NumR.
Theorem normalize_list : forall ac (f : @h5node NumR) (m : pvec) (x : R) (v : list R) b,
  (0 < match b with Some b => b | None => h_chunk f end)%Z -> length (pv m) = h_cols f -> length (x :: v) = h_cols f -> (forall s, In s v -> s <> 0) ->
  Forall (fun r => length r = h_cols f) (h_rows f) ->
  exists f', normalize_hdf5 ac f (Some m) (Some (PList (x :: v))) b = (Ok (pv m, 1 :: v), f', Some (1 :: v)) /\
    h_cols f' = h_cols f /\ length (h_rows f') = length (h_rows f) /\
    forall i j, (i < length (h_rows f))%nat -> (j < h_cols f)%nat ->
      nth j (nth i (h_rows f') []) 0 = (nth j (nth i (h_rows f) []) 0 - nth j (pv m) 0) / (if (j =? 0)%nat then 1 else nth j (x :: v) 0).
Proof.
  intros ac f m x v b Hb Hm Hs _ HF. unfold normalize_hdf5. cbn [pv fix_std].
  set (bb := match b with Some b => b | None => h_chunk f end) in *.
  destruct (Z.eqb_spec bb 0); [lia|].
  assert (@length (@num NumR) (x :: v) = h_cols f) as Hs' by exact Hs. rewrite Hm, Hs', !Nat.eqb_refl. cbn [negb].
  rewrite norm_loop_all by exact Hb. eexists. split; [reflexivity|]. cbn [h_cols h_rows]. split; [reflexivity|]. split; [apply map_length|].
  intros i j Hi Hj. cbn [num NumR] in *. change (@n1 NumR) with 1.
  rewrite (nth_indep _ [] (@scale_row NumR (pv m) (1 :: v) [])) by (rewrite map_length; exact Hi). rewrite map_nth.
  assert (length (nth i (h_rows f) []) = h_cols f) as Hr by (rewrite Forall_forall in HF; apply HF; now apply nth_In).
  etransitivity; [apply scale_row_nth; cbn [num NumR length] in *; rewrite Hr; auto|]. destruct j; reflexivity.
Qed.

(** ** C78 *)
Lemma wide_perm : forall c (T Y T' Y' : list (list R)), length T = length Y -> length T' = length Y' -> Permutation (combine T Y) (combine T' Y') ->
  wide c T -> wide c Y -> wide c T' /\ wide c Y'.
Proof.
  intros c T Y T' Y' Hl Hl' P HT HY.
  assert (Forall (fun p => length (fst p) = c /\ length (snd p) = c) (combine T' Y')) as F by (apply (Permutation_Forall P); now apply combine_pairs).
  clear - F Hl'. revert Y' Hl' F. unfold wide. induction T' as [|a T' IH]; intros [|b Y'] Hl F; try discriminate; [auto|].
  cbn in F. inversion F; subst. cbn in *. destruct (IH Y' ltac:(lia) H2). split; constructor; tauto.
Qed.
Theorem error_order_weighted : forall e ws c (T Y T' Y' : list (list R)),
  e_class e = Some "wc" -> e_wc e = Some (fin_all ws) -> s_outputs (e_net e) = c -> length ws = c -> Rsum ws <> 0 ->
  wide c T -> wide c Y -> length T = length Y -> length T' = length Y' -> Permutation (combine T Y) (combine T' Y') ->
  @elm_error NumR e (Arr2 c T) (Arr2 c Y) = @elm_error NumR e (Arr2 c T') (Arr2 c Y').
Proof.
  intros e ws c T Y T' Y' He Hw Ho Hlw Hs HT HY Hl Hl' P. destruct (wide_perm c T Y T' Y' Hl Hl' P HT HY) as [HT' HY'].
  rewrite !(elm_error_wc e ws c) by auto. now rewrite (weighted_perm ws _ _ _ _ P).
Qed.

Lemma range_length_eq : forall (T Y : list (list R)) i n, length T = length Y -> length (range_of T i n) = length (range_of Y i n).
Proof. intros T Y i n H. unfold range_of. destruct n; rewrite ?firstn_length, ?skipn_length, H; reflexivity. Qed.
Lemma members_perm : forall (T Y T' Y' : list (list R)) k, Permutation (combine T Y) (combine T' Y') -> Permutation (members T Y k) (members T' Y' k).
Proof.
  intros T Y T' Y' k. unfold members. generalize (combine T Y), (combine T' Y'). intros l m P. induction P; cbn [filter].
  - apply perm_nil.
  - destruct (in_class k (fst x)); auto.
  - destruct (in_class k (fst x)), (in_class k (fst y)); auto. apply perm_swap.
  - eapply perm_trans; eauto.
Qed.
(** the selected parts of the data are the same samples in another order *)
Theorem hp_error_order : forall e dT dY dT' dY' c (T Y T' Y' : list (list R)) i n i' n',
  (ErrThms.plain (e_class e) /\ range_of T i n <> [] \/
   exists ws, e_class e = Some "wc" /\ e_wc e = Some (fin_all ws) /\ length ws = c /\ Rsum ws <> 0) ->
  s_outputs (e_net e) = c -> (0 < c)%nat -> (0 < e_batch e)%Z ->
  holds_data dT c T -> holds_data dY c Y -> wide c T -> wide c Y -> length T = length Y -> (i <= length T)%nat ->
  holds_data dT' c T' -> holds_data dY' c Y' -> wide c T' -> wide c Y' -> length T' = length Y' -> (i' <= length T')%nat ->
  Permutation (combine (range_of T i n) (range_of Y i n)) (combine (range_of T' i' n') (range_of Y' i' n')) ->
  @hp_error NumR e dT dY (Z.of_nat i) (zcount n) = @hp_error NumR e dT' dY' (Z.of_nat i') (zcount n').
Proof.
  intros e dT dY dT' dY' c T Y T' Y' i n i' n' Hc Ho Hc0 Hb A1 A2 A3 A4 A5 A6 B1 B2 B3 B4 B5 B6 P.
  pose proof (Permutation_length P) as EL. rewrite !combine_length in EL.
  pose proof (range_length_eq T Y i n A5) as L1. pose proof (range_length_eq T' Y' i' n' B5) as L2.
  destruct Hc as [[Hp Hne]|(ws & He & Hw & Hlw & Hs)].
  - assert (range_of T' i' n' <> []) as Hne'.
    { intros C. apply Hne. destruct (range_of T i n); [reflexivity|]. rewrite C in *. cbn [num NumR length] in *. lia. }
    rewrite (hp_error_mean e dT dY c T Y), (hp_error_mean e dT' dY' c T' Y') by auto. now rewrite (mean_errs_perm _ _ _ _ _ _ P).
  - destruct (present c (range_of T i n)) eqn:EP.
    + assert (forall k, (k < c)%nat -> members (range_of T i n) (range_of Y i n) k <> []) as M.
      { intros k Hk C. apply members_nil in C; auto. apply present_true with (k := k) in EP; auto. apply occurs_existsb in EP. congruence. }
      rewrite (hp_error_wc e ws dT dY c T Y) by auto. rewrite (hp_error_wc e ws dT' dY' c T' Y'); auto.
      * now rewrite (weighted_perm ws _ _ _ _ P).
      * intros k Hk C. apply (M k Hk). pose proof (members_perm _ _ _ _ k P) as Q. rewrite C in Q. now apply Permutation_nil, Permutation_sym.
    + destruct (present_false _ _ EP) as (k & Hk & EK). apply (proj2 (members_nil k _ _ L1)) in EK.
      rewrite (hp_error_wc_absent e ws dT dY c T Y i n k) by auto. rewrite (hp_error_wc_absent e ws dT' dY' c T' Y' i' n' k); auto.
      pose proof (members_perm _ _ _ _ k P) as Q. rewrite EK in Q. now apply Permutation_nil.
Qed.
End Std.
