(** The validation data of train (C55), what is selected (C44), the requested length of a
    ranking (C41) and the widths drawn by rbf_param (C52). *)
From Coq Require Import Reals Lra Permutation.
From Verif Require Import Base Num Mat LinAlg Slfn Strs Elm Mrsr Search Mss Rbf MatFacts SplitProofs ElmFacts TrainThms ArgThms History RLin Hdf5Thms RbfThms Spec.
Local Open Scope string_scope.
Local Open Scope list_scope.

Section Gen.
Context {K : Num} {SG : Sing} {BR : Brent} {SH : Shuffle}.

(** ** C55 *)
Lemma parse_shape : forall e args kw e1, parse_args e args kw = (e1, Ok tt) ->
  s_inputs (e_net e1) = s_inputs (e_net e) /\ s_outputs (e_net e1) = s_outputs (e_net e) /\ s_neurons (e_net e1) = s_neurons (e_net e).
Proof.
  intros e args kw e1 E. assert (valid_args e args kw) as HV by (apply parse_iff; eauto).
  rewrite (proj1 (parse_result e args kw) HV) in E. injection E as <-. cbn. auto.
Qed.
Definition with_val (kw : kwargs) (Xv Tv : arr) : kwargs := mkKw (kw_w kw) (kw_kmax kw) (kw_batch kw) (kw_k kw) (Some Xv) (Some Tv).
Lemma parse_val : forall e args kw Xv Tv, parse_args e args (with_val kw Xv Tv) = parse_args e args kw.
Proof.
  intros. unfold parse_args. destruct (s_neurons (e_net e)); [reflexivity|]. cbv zeta. destruct (negb _); [reflexivity|]. destruct (negb _); [reflexivity|].
  assert (forall l e0, parse_loop e0 (with_val kw Xv Tv) l = parse_loop e0 kw l) as G.
  { clear. fix IH 1. intros [|a l] e0; [reflexivity|]. cbn [parse_loop]. change (kw_kmax (with_val kw Xv Tv)) with (kw_kmax kw). change (kw_w (with_val kw Xv Tv)) with (kw_w kw).
    cbv zeta. rewrite !IH. destruct (kw_w kw); [rewrite !IH|]; reflexivity. }
  rewrite G. reflexivity.
Qed.
Theorem validation_checks : forall e X T args kw e1 x t, parse_args e args kw = (e1, Ok tt) -> In "V" args ->
  accepted (s_inputs (e_net e)) X x -> accepted (s_outputs (e_net e)) T t -> length x = length t ->
  (forall Xv Tv xv tv, kw_Xv kw = Some Xv -> kw_Tv kw = Some Tv ->
     accepted (s_inputs (e_net e)) Xv xv -> accepted (s_outputs (e_net e)) Tv tv -> length xv = length tv ->
     train e X T args kw = train e X T args (with_val kw (Arr2 (s_inputs (e_net e)) xv) (Arr2 (s_outputs (e_net e)) tv))) /\
  ((forall Xv Tv xv tv, kw_Xv kw = Some Xv -> kw_Tv kw = Some Tv ->
     accepted (s_inputs (e_net e)) Xv xv -> accepted (s_outputs (e_net e)) Tv tv -> length xv <> length tv) ->
     train e X T args kw = (e1, Err AssertionError)).
Proof.
  intros e X T args kw e1 x t EP HV Hx Ht HL. destruct (parse_shape _ _ _ _ EP) as (Ei & Eo & _). apply smem_in in HV.
  unfold train. unfold checkdata at 1 3 5. rewrite (proj1 (check_spec _ _) x Hx), (proj1 (check_spec _ _) t Ht). cbn [rbind]. rewrite HL, Nat.eqb_refl.
  split.
  - intros Xv Tv xv tv EX ET Hxv Htv HLv. rewrite parse_val, EP, HV, EX, ET. cbn [with_val kw_Xv kw_Tv]. f_equal. unfold checkdata.
    rewrite Ei, Eo. rewrite (proj1 (check_spec _ _) xv Hxv), (proj1 (check_spec _ _) tv Htv). cbn [check_arr]. rewrite !Nat.eqb_refl. reflexivity.
  - intros H. rewrite EP, HV. destruct (kw_Xv kw) as [Xv|]; [|reflexivity]. destruct (kw_Tv kw) as [Tv|]; [|reflexivity].
    unfold checkdata. rewrite Ei, Eo. destruct (accepted_dec (s_inputs (e_net e)) Xv) as [[xv Hxv]|Hxv]; [|rewrite (proj2 (check_spec _ _) Hxv); reflexivity].
    rewrite (proj1 (check_spec _ _) xv Hxv). destruct (accepted_dec (s_outputs (e_net e)) Tv) as [[tv Htv]|Htv]; [|rewrite (proj2 (check_spec _ _) Htv); reflexivity].
    rewrite (proj1 (check_spec _ _) tv Htv). cbn [rbind]. specialize (H _ _ xv tv eq_refl eq_refl Hxv Htv). apply Nat.eqb_neq in H. rewrite H. reflexivity.
Qed.

(** ** C44: what the result of train says about the selection made *)
Lemma add_batch_neurons : forall s X T wv, s_neurons (fst (add_batch s X T wv)) = s_neurons s.
Proof.
  intros. unfold add_batch.
  match goal with |- context [match ?p with Ok _ => _ | Err _ => _ end] => destruct p as [[H' T']|x] end; auto.
  match goal with |- context [match ?p with Ok _ => _ | Err _ => _ end] => destruct p end; auto.
Qed.
Lemma add_batches_neurons : forall e parts s, s_neurons (fst (add_batches e s parts)) = s_neurons s.
Proof.
  intros e. induction parts as [|[X T] r IH]; intros s; cbn [add_batches]; auto.
  match goal with |- context [match ?p with Ok _ => _ | Err _ => _ end] => destruct p as [wv|x] end; auto.
  pose proof (add_batch_neurons s X T wv) as H1. destruct (add_batch s X T wv) as [s1 [u|x]]; cbn [fst] in *; auto.
  now rewrite IH.
Qed.
Lemma add_data_neurons : forall e X T, s_neurons (e_net (fst (add_data e X T))) = s_neurons (e_net e).
Proof.
  intros. unfold add_data. destruct (nbatches _ _) as [nb|]; auto. cbv zeta.
  destruct (nb <=? 0)%Z; [cbn; now rewrite fill_wc_net|]. destruct (array_split X _); [|cbn; now rewrite fill_wc_net].
  destruct (array_split T _); [|cbn; now rewrite fill_wc_net].
  pose proof (add_batches_neurons (fill_wc e T) (combine a a0) (e_net (fill_wc e T))) as H.
  destruct (add_batches _ _ _) as [s r]. cbn [fst e_net with_net] in *. rewrite H. now rewrite fill_wc_net.
Qed.
Lemma solve_neurons : forall s, s_neurons (fst (solve s)) = s_neurons s.
Proof.
  intros s. unfold solve. repeat match goal with |- context [match ?p with _ => _ end] => destruct p; try reflexivity end.
Qed.
Lemma train_v_none : forall e X T Xv Tv e' v, train_v e X T Xv Tv = (e', Ok v) -> v = None.
Proof.
  intros e X T Xv Tv e' v E. unfold train_v, lift_err, done in E.
  repeat match type of E with context [match ?p with _ => _ end] => destruct p; try discriminate end; now inversion E.
Qed.
Lemma train_loo_none : forall e X T e' v, train_loo e X T = (e', Ok v) -> v = None.
Proof.
  intros e X T e' v E. unfold train_loo, lift_err, done in E.
  repeat match type of E with context [match ?p with _ => _ end] => destruct p; try discriminate end; now inversion E.
Qed.
Lemma train_cv_some : forall e X T k e' v, train_cv e X T k = (e', Ok v) -> v <> None.
Proof.
  intros e X T k e' v E. unfold train_cv, lift_err, done in E.
  repeat match type of E with context [match ?p with _ => _ end] => destruct p; try discriminate end; now inversion E.
Qed.
Lemma train_basic_none : forall e X T e' v, train_basic e X T = (e', Ok v) -> v = None /\ s_neurons (e_net e') = s_neurons (e_net e).
Proof.
  intros e X T e' v E. unfold train_basic in E. pose proof (add_data_neurons e X T) as H. destruct (add_data e X T) as [e1 [u|x]]; [|discriminate]. cbn [fst] in H.
  pose proof (solve_neurons (e_net e1)) as H2. destruct (solve (e_net e1)) as [s r]. unfold done in E. cbn [fst snd] in *. destruct r; [|discriminate].
  injection E as <- <-. split; [reflexivity|]. cbn [e_net with_net]. congruence.
Qed.
Lemma upper_asked : forall k args, In k selections -> In k args -> asked k args.
Proof. intros k args Hk Hin. exists k. split; [exact Hin|]. cbn in Hk. decompose [or] Hk; try contradiction; subst; reflexivity. Qed.

Theorem selection_made : forall e X T args kw e' v, train e X T args kw = (e', Ok v) ->
  (v <> None <-> In "CV" args) /\
  (In "V" args -> exists Xv Tv, kw_Xv kw = Some Xv /\ kw_Tv kw = Some Tv) /\
  (In "CV" args -> exists k, kw_k kw = Some k /\ (3 <= k)%nat) /\
  ((forall k, In k selections -> ~ In k args) -> s_neurons (e_net e') = s_neurons (e_net e)).
Proof.
  intros e X T args kw e' v E. unfold train in E. destruct (checkdata e X T) as [[x t]|]; [|discriminate].
  destruct (parse_args e args kw) as [e1 [[]|]] eqn:EP; [|discriminate]. destruct (parse_shape _ _ _ _ EP) as (_ & _ & En).
  assert (valid_args e args kw) as (_ & HS & _) by (apply parse_iff; eauto).
  assert (In "V" selections /\ In "CV" selections /\ In "LOO" selections) as (S1 & S2 & S3) by (cbn; tauto).
  destruct (smem "V" args) eqn:EV.
  { apply smem_in in EV. destruct (kw_Xv kw) as [Xv|]; [|discriminate]. destruct (kw_Tv kw) as [Tv|]; [|discriminate].
    unfold lift_err in E. destruct (checkdata e1 Xv Tv); [|discriminate]. apply train_v_none in E. subst v.
    assert (~ In "CV" args) as NC. { intros C. discriminate (HS "V" "CV" S1 S2 (upper_asked _ _ S1 EV) (upper_asked _ _ S2 C)). }
    split; [split; [congruence|contradiction]|]. split; [eauto|]. split; [contradiction|]. intros H. destruct (H "V" S1 EV). }
  assert (~ In "V" args) as NV by (intros C; apply smem_in in C; congruence).
  destruct (smem "CV" args) eqn:EC.
  { apply smem_in in EC. destruct (kw_k kw) as [k|]; [|discriminate]. destruct (Nat.leb_spec 3 k); [|discriminate]. apply train_cv_some in E.
    split; [split; auto|]. split; [contradiction|]. split; [eauto|]. intros HH. destruct (HH "CV" S2 EC). }
  assert (~ In "CV" args) as NC by (intros C; apply smem_in in C; congruence).
  destruct (smem "LOO" args) eqn:EL.
  { apply smem_in in EL. apply train_loo_none in E. subst v. split; [split; [congruence|contradiction]|]. split; [contradiction|]. split; [contradiction|].
    intros H. destruct (H "LOO" S3 EL). }
  apply train_basic_none in E as [-> E]. split; [split; [congruence|contradiction]|]. split; [contradiction|]. split; [contradiction|]. intros _. congruence.
Qed.

(** ** C41 *)
Theorem mrsr_clamp : forall X T m p kmax, mrsr X T m p kmax = mrsr X T m p (Nat.min kmax m).
Proof. intros. unfold mrsr. replace (Nat.min (Nat.min kmax m) m) with (Nat.min kmax m) by lia. reflexivity. Qed.
Theorem mrsr2_clamp : forall X T m p kmax, mrsr2 X T m p kmax = mrsr2 X T m p (Nat.min kmax (length X)).
Proof. intros. unfold mrsr2. replace (Nat.min (Nat.min kmax (length X)) (length X)) with (Nat.min kmax (length X)) by lia. reflexivity. Qed.

(** ** C52 *)
Definition part_of (a s : string) : Prop := exists i, substring i (String.length a) s = a.
Lemma index_part : forall a s, a <> "" -> (exists n, index 0 a s = Some n) <-> part_of a s.
Proof.
  intros a s Ha. split.
  - intros [n E]. exists n. now apply index_correct1 in E.
  - intros [i E]. destruct (index 0 a s) as [n|] eqn:EI; [eauto|]. exfalso. apply (index_correct3 0 i a s EI Ha); [lia|exact E].
Qed.
Lemma widths_filter : forall fuel q u i k B R, widths fuel (Some q) u i k B = Some R ->
  exists n, R = B ++ filter (fun b => nltb n0 b) (map (fun j => width q (u j)) (seq i n)).
Proof.
  induction fuel as [|fuel IH]; intros q u i k B R E; [discriminate|]. cbn [widths] in E.
  destruct (nltb n0 (width q (u i))) eqn:Ew.
  - destruct (length (B ++ [width q (u i)]) =? k)%nat.
    + injection E as <-. exists 1%nat. cbn [seq map filter]. now rewrite Ew.
    + apply IH in E as [n ->]. exists (S n). cbn [seq map filter]. rewrite Ew, <- app_assoc. reflexivity.
  - apply IH in E as [n ->]. exists (S n). cbn [seq map filter]. now rewrite Ew.
Qed.
End Gen.

Section Reals.
#[local] Existing Instance NumR.
Local Open Scope R_scope.

(** the distance named by [kind] *)
Inductive distance_named (kind : string) (x y : list R) : R -> Prop :=
| dist_l1 : part_of "l1" kind -> distance_named kind x y (Rsum (map2 (fun a b => Rabs (a - b)) x y))
| dist_inf r : ~ part_of "l1" kind -> part_of "inf" kind ->
    (forall d, In d (0 :: map2 (fun a b => Rabs (a - b)) x y) -> d <= r) -> In r (0 :: map2 (fun a b => Rabs (a - b)) x y) -> distance_named kind x y r
| dist_l2 : ~ part_of "l1" kind -> ~ part_of "inf" kind -> distance_named kind x y (Rsum (map2 (fun a b => (a - b) ^ 2) x y)).

Lemma fold_max : forall l : list R, let r := fold_right (fun a m => if Rltb m a then a else m) 0 l in (forall d, In d (0 :: l) -> d <= r) /\ In r (0 :: l).
Proof.
  induction l as [|a l IH]; [split; [intros d [<-|[]]; cbn; lra|now left]|]. cbn zeta in *. cbn [fold_right]. destruct IH as [I1 I2].
  set (m := fold_right _ 0 l) in *. unfold Rltb. destruct (Rlt_dec m a).
  - split; [|right; now left]. intros d [<-|[<-|H]]; [|lra|]; [specialize (I1 0 (or_introl eq_refl)); lra|specialize (I1 d (or_intror H)); lra].
  - split; [|destruct I2; [now left|right; now right]]. intros d [<-|[<-|H]]; [apply I1; now left|lra|apply I1; now right].
Qed.
Lemma rdist_named : forall kind x y, distance_named kind x y (@rdist NumR (rkind_of kind) x y).
Proof.
  intros kind x y. unfold rkind_of. destruct (index 0 "l1" kind) as [n|] eqn:E1.
  - apply dist_l1. apply index_part; [discriminate|eauto].
  - assert (~ part_of "l1" kind) as N1. { intros C. apply index_part in C as [n C]; [congruence|discriminate]. }
    destruct (index 0 "inf" kind) as [n|] eqn:E2.
    + apply dist_inf; [exact N1|apply index_part; [discriminate|eauto]| |].
      * exact (proj1 (fold_max (map2 (fun a b => Rabs (a - b)) x y))).
      * exact (proj2 (fold_max (map2 (fun a b => Rabs (a - b)) x y))).
    + assert (~ part_of "inf" kind) as N2. { intros C. apply index_part in C as [n C]; [congruence|discriminate]. }
      cbn [rdist]. match goal with |- distance_named _ _ _ ?r => assert (r = Rsum (map2 (fun a b => (a - b) ^ 2) x y)) as -> end; [|now apply dist_l2].
      revert y. induction x as [|a x IH]; intros [|b y]; [reflexivity..|]. cbn [map2]. change (@nsum NumR (?h :: ?t)) with (h + @nsum NumR t).
      transitivity ((a - b) ^ 2 + Rsum (map2 (fun a b => (a - b) ^ 2) x y)); [|reflexivity]. rewrite <- IH. 
      match goal with |- _ = _ + ?s => change ((a - b) * (a - b) + s = (a - b) ^ 2 + s) end. ring.
Qed.
Lemma named_fun : forall kind x y r r', distance_named kind x y r -> distance_named kind x y r' -> r = r'.
Proof.
  intros kind x y r r' H H'. destruct H as [A|r A B C D|A B], H' as [A'|r' A' B' C' D'|A' B']; try contradiction; auto.
  apply Rle_antisym; auto.
Qed.

(** the pairs of samples measured: sample i with the sample drawn for it, or the one after if that is i itself *)
Definition pair_of (ix : list nat) (i : nat) : nat := let j := nth i ix 0%nat in if Nat.eqb j i then S j else j.
Lemma pairs_are : forall ix, Rbf.pairs ix = map (fun i => (i, pair_of ix i)) (seq 0 (length ix)).
Proof.
  intros ix. unfold Rbf.pairs. apply nth_ext with (d := (0, 0)%nat) (d' := (0, 0)%nat).
  - rewrite !map_length, combine_length, seq_length. lia.
  - rewrite map_length, combine_length, seq_length, Nat.min_id. intros n Hn.
    rewrite (nth_indep _ _ ((fun p => (fst p, if (fst p =? snd p)%nat then S (snd p) else snd p)) (0, 0)%nat)) by (rewrite map_length, combine_length, seq_length; lia).
    rewrite (map_nth (fun p => (fst p, if (fst p =? snd p)%nat then S (snd p) else snd p))), combine_nth by apply seq_length. rewrite seq_nth by exact Hn.
    rewrite (nth_indep (map _ (seq 0 (length ix))) _ ((fun i => (i, pair_of ix i)) 0%nat)) by (rewrite map_length, seq_length; lia).
    rewrite (map_nth (fun i => (i, pair_of ix i))), seq_nth by exact Hn. cbn [fst snd Nat.add]. unfold pair_of. now rewrite Nat.eqb_sym.
Qed.

Lemma sqdev : forall (m : R) l, @nsum NumR (map (fun x => @nmul NumR (@nsub NumR x m) (@nsub NumR x m)) l) = Rsum (map (fun x => (x - m) ^ 2) l).
Proof.
  intros m. induction l as [|a l IH]; [reflexivity|]. cbn [map]. change (@nsum NumR (?h :: ?t)) with (h + @nsum NumR t). change (Rsum (?h :: ?t)) with (h + Rsum t). rewrite IH.
  match goal with |- _ + ?s = _ => change ((a - m) * (a - m) + s = (a - m) ^ 2 + s) end. ring.
Qed.
Definition pick (s m : R) (u : nat -> R) (n : nat) : list R :=
  filter (fun b => if Rlt_dec 0 b then true else false) (map (fun j => (u j - 1 / 2) * 2 * s + m) (seq 0 n)).
Theorem rbf_values : forall fuel d X k kind ix1 ix2 (u : nat -> R) W B,
  a_choice (length X) (rbf_Nk (length X) k) ix1 -> a_choice (length X) k ix2 ->
  @rbf_param NumR fuel d X k kind ix1 ix2 u = Some (Ok (W, B)) ->
  exists ds n, length ds = length ix1 /\
    (forall i, (i < length ix1)%nat -> distance_named kind (nth i X []) (nth (pair_of ix1 i) X []) (nth i ds 0)) /\
    B = pick (pop_std ds) (pop_mean ds) u n /\ length B = k.
Proof.
  intros fuel d X k kind ix1 ix2 u W B H1 H2 E. destruct X as [|x0 X0] eqn:EX; [discriminate|]. rewrite <- EX in *.
  pose proof (rbf_sound _ _ _ _ _ _ _ _ _ _ H1 H2 E) as (_ & HB & _).
  rewrite rbf_steps in E by (auto; subst; discriminate). clear EX.
  set (ds := map (@pair_dist NumR (rkind_of kind) X) (Rbf.pairs ix1)) in *.
  destruct (dist_stats ds) as [q|] eqn:EQ; [|rewrite widths_nan in E; discriminate].
  destruct (widths _ _ _ _ _ _) as [B0|] eqn:Ew; [|discriminate]. cbn [option_map] in E. injection E as _ ->.
  exists ds. apply widths_filter in Ew as [n Ew]. exists n.
  split; [unfold ds; rewrite pairs_are, !map_length, seq_length; reflexivity|]. split.
  { intros i Hi. unfold ds. rewrite pairs_are, map_map. rewrite (nth_indep _ 0 ((fun i => @pair_dist NumR (rkind_of kind) X (i, pair_of ix1 i)) 0%nat)) by (rewrite map_length, seq_length; exact Hi).
    rewrite (map_nth (fun i => @pair_dist NumR (rkind_of kind) X (i, pair_of ix1 i))), seq_nth by exact Hi. apply rdist_named. }
  split; [|exact HB]. rewrite Ew. cbn [app]. unfold pick.
  assert (q = (pop_mean ds, pop_std ds)) as ->.
  { unfold dist_stats in EQ. destruct ds as [|a l] eqn:Ed; [discriminate|]. rewrite <- Ed in *. apply Some_inj in EQ. rewrite <- EQ. rewrite nof_nat_INR. unfold pop_std.
    assert (forall a a' b b' : R, a = a' -> b = b' -> (a, b) = (a', b')) as GP by (now intros; subst).
    apply GP; [reflexivity|]. apply (f_equal (fun z => sqrt (z / INR (length ds)))). exact (sqdev (pop_mean ds) ds). }
  assert (forall l : list nat, filter (fun b => @nltb NumR n0 b) (map (fun j => @width NumR (pop_mean ds, pop_std ds) (u j)) l) =
     filter (fun b => if Rlt_dec 0 b then true else false) (map (fun j => (u j - 1 / 2) * 2 * pop_std ds + pop_mean ds) l)) as G; [|apply G].
  assert (forall j, @width NumR (pop_mean ds, pop_std ds) (u j) = (u j - 1 / 2) * 2 * pop_std ds + pop_mean ds) as GW.
  { intros j. unfold width. rewrite half_R. cbn [fst snd nadd nmul nsub n1 NumR]. reflexivity. }
  induction l as [|j l IH]; [reflexivity|]. cbn [map filter]. rewrite GW. rewrite IH. reflexivity.
Qed.
End Reals.
