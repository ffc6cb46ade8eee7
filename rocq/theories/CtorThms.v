(** The constructor, the precision argument and default neurons (C53, C69-C71). *)
From Coq Require Import Reals Lra.
From Verif Require Import Base Num Mat LinAlg Slfn Strs Elm MatFacts ElmFacts RLin AccProofs WfProofs NeuronThms FeatureThms TrainThms ErrThms Hdf5Thms Spec.
Local Open Scope string_scope.
Local Open Scope list_scope.

(** ** [sub in s] *)
Definition occurs (sub s : string) : Prop := exists a b, s = (a ++ sub ++ b)%string.

Lemma sapp_nil_r : forall s, (s ++ "")%string = s.
Proof. induction s; cbn; congruence. Qed.
Lemma substring_all : forall s n, (String.length s <= n)%nat -> substring 0 n s = s.
Proof. induction s as [|c s IH]; intros [|n] H; cbn in *; try reflexivity; try lia. rewrite IH by lia. reflexivity. Qed.
Lemma substring_prefix : forall t b, substring 0 (String.length t) (t ++ b)%string = t.
Proof. induction t; intros b; cbn; [now destruct b|]. now rewrite IHt. Qed.
Lemma substring_mid : forall a t b, substring (String.length a) (String.length t) (a ++ t ++ b)%string = t.
Proof. induction a; intros t b; cbn; [apply substring_prefix|]. apply IHa. Qed.
Lemma prefix_occurs : forall s l, exists b, s = (substring 0 l s ++ b)%string.
Proof.
  induction s as [|c s IH]; intros [|l]; cbn.
  - exists "". reflexivity.
  - exists "". reflexivity.
  - exists (String c s). reflexivity.
  - destruct (IH l) as [b Hb]. exists b. now rewrite <- Hb.
Qed.
Lemma substring_occurs : forall s m l, (m <= String.length s)%nat -> occurs (substring m l s) s.
Proof.
  induction s as [|c s IH]; intros m l H.
  - cbn in H. replace m with 0%nat by lia. destruct (prefix_occurs "" l) as [b Hb]. exists "", b. exact Hb.
  - destruct m as [|m].
    + destruct (prefix_occurs (String c s) l) as [b Hb]. exists "", b. exact Hb.
    + cbn in H. destruct (IH m l ltac:(lia)) as (a & b & Hab). exists (String c a), b. cbn. now rewrite <- Hab.
Qed.
Lemma substring_far : forall s m l, (String.length s < m)%nat -> substring m l s = "".
Proof. induction s as [|c s IH]; intros [|m] l H; cbn in *; try lia; auto. - apply IH. lia. Qed.

Lemma contains_occurs : forall sub s, sub <> "" -> contains sub s = true <-> occurs sub s.
Proof.
  intros sub s Hn. unfold contains. destruct (index 0 sub s) as [m|] eqn:E; split; auto; try discriminate.
  - intros _. apply index_correct1 in E. destruct (Nat.le_gt_cases m (String.length s)) as [H|H].
    + rewrite <- E. now apply substring_occurs.
    + rewrite substring_far in E by auto. congruence.
  - intros (a & b & ->). exfalso. apply (index_correct3 _ (String.length a) _ _ E Hn (Nat.le_0_l _)). apply substring_mid.
Qed.

(** ** the constructor *)
Section Any.
Context {K : Num} {SG : Sing}.

Lemma init_accepts : forall inputs outputs cls w batch accel prec norm,
  is_ok (elm_init inputs outputs cls w batch accel prec norm) = true <->
  (0 < batch)%Z /\ (forall ws, w = Some ws -> length ws = outputs).
Proof.
  intros inputs outputs cls w batch accel prec norm. unfold elm_init. destruct (Z.ltb_spec 0 batch); cbn [negb]; [|split; [discriminate|intros []; lia]].
  destruct w as [ws|]; [|split; [intros _; split; [auto|discriminate]|reflexivity]].
  destruct (Nat.eqb_spec (length ws) outputs); split; try discriminate; auto.
  - intros _. split; auto. intros ? E. now injection E as <-.
  - intros [_ H1]. specialize (H1 _ eq_refl). contradiction.
Qed.

Definition want_single (p : prec_arg) : Prop :=
  match p with
  | PF64 => False
  | PF32 => True
  | PStr s => (occurs "single" s \/ occurs "32" s) /\ ~ occurs "double" (lower s) /\ ~ occurs "64" s
  end.
Lemma parse_prec_spec : forall p, parse_prec p = false <-> want_single p.
Proof.
  intros [| |s]; cbn [parse_prec want_single]; try (split; [discriminate|tauto]); [tauto|].
  rewrite <- (contains_occurs "double" (lower s)), <- (contains_occurs "64" s), <- (contains_occurs "single" s), <- (contains_occurs "32" s) by discriminate.
  destruct (contains "double" (lower s)), (contains "64" s), (contains "single" s), (contains "32" s); cbn [orb]; intuition discriminate.
Qed.

Lemma init_attributes : forall inputs outputs cls w batch accel prec norm e,
  elm_init inputs outputs cls w batch accel prec norm = Ok e ->
  s_inputs (e_net e) = inputs /\ s_outputs (e_net e) = outputs /\ e_batch e = batch /\ s_neurons (e_net e) = [] /\
  e_wc e = option_map (map Fin) w /\ e_accel e = accel /\ (e_prec64 e = false <-> want_single prec) /\
  s_kind (e_net e) = match accel with
                     | Some "GPU" => if e_prec64 e then Gpu64 else Gpu32
                     | Some "basic" => Basic
                     | _ => Fast
                     end /\
  (forall v, norm = Some v -> s_norm (e_net e) = v).
Proof.
  intros inputs outputs cls w batch accel prec norm e E. unfold elm_init in E. destruct (negb _); [discriminate|].
  assert (forall x, e = with_wc (mkElm (slfn_init (kind_of accel (parse_prec prec)) inputs outputs (match norm with Some v => v | None => default_norm (parse_prec prec) end))
    batch (parse_prec prec) accel (ctor_class cls) None false None) x -> x = option_map (map Fin) w -> s_inputs (e_net e) = inputs /\ s_outputs (e_net e) = outputs /\ e_batch e = batch /\ s_neurons (e_net e) = [] /\
  e_wc e = option_map (map Fin) w /\ e_accel e = accel /\ (e_prec64 e = false <-> want_single prec) /\
  s_kind (e_net e) = match accel with
                     | Some "GPU" => if e_prec64 e then Gpu64 else Gpu32
                     | Some "basic" => Basic
                     | _ => Fast
                     end /\
  (forall v, norm = Some v -> s_norm (e_net e) = v)) as Q.
  { intros x -> ->. repeat (split; [reflexivity|]). split; [apply parse_prec_spec|]. split; [reflexivity|]. intros v ->. reflexivity. }
  destruct w as [ws|].
  - destruct (length ws =? outputs)%nat; [|discriminate]. injection E as <-. eapply Q; reflexivity.
  - injection E as <-. eapply (Q None); reflexivity.
Qed.

(** ** accepted standard neurons can be used *)
Lemma merge_good : forall d ns n f W B, is_ufunc f = false -> length W = d -> existsb (bad_group d) ns = false ->
  existsb (bad_group d) (merge_neurons ns n f W B) = false.
Proof.
  unfold bad_group. intros d. induction ns as [|g ns IH]; intros n f W B Hf HW H; cbn [merge_neurons existsb n_func n_W]; [now rewrite Hf, HW, Nat.eqb_refl|].
  cbn [existsb] in H. apply orb_false_elim in H as [H1 H2]. destruct (ftype_eqb (n_func g) f) eqn:E; cbn [existsb n_func n_W]; [|now rewrite H1, IH].
  apply orb_false_elim in H1 as [_ H1]. apply negb_false_iff, Nat.eqb_eq in H1. now rewrite Hf, map2_length, H1, HW, Nat.min_id, Nat.eqb_refl, H2.
Qed.
Lemma merge_nonempty : forall ns n f W B, merge_neurons ns n f W B <> [].
Proof. intros [|g ns] n f W B; cbn [merge_neurons]; [discriminate|]. destruct (ftype_eqb _ _); discriminate. Qed.

Lemma standard_usable : forall e number name W B rW rB e',
  (s_neurons (e_net e) = [] \/ usable (e_net e)) ->
  add_neurons e number (FName name) W B rW rB = (e', Ok tt) ->
  forall X, wide (s_inputs (e_net e)) X -> exists H, elm_project e' (Arr2 (s_inputs (e_net e)) X) = Ok H /\ length H = length X.
Proof.
  intros e number name W B rW rB e' HU E X HX. apply add_neurons_inv in E. destruct E as (f & n & W' & B' & Ef & En & EW & EB & L1 & L2 & L3 & ->).
  assert (is_ufunc f = false) as Hf.
  { cbn [parse_func] in Ef. repeat match type of Ef with context [match ?x with _ => _ end] => destruct x; try discriminate end; injection Ef as <-; reflexivity. }
  unfold elm_project, check_arr. cbn [e_net with_net slfn_add_neurons with_B reset with_neurons s_inputs]. rewrite Nat.eqb_refl. cbn [rbind].
  eexists. split; [apply project_ok|apply map_length].
  - split; cbn [s_neurons]; [apply merge_nonempty|]. apply merge_good; [exact Hf|exact L1|]. destruct HU as [->|[_ HU]]; auto.
  - exact HX.
Qed.
End Any.

(** ** default neurons of a new model *)
Section Defaults.
#[local] Existing Instance NumR.
Context {SG : Sing}.
Local Open Scope R_scope.

Lemma default_only : forall e number func rW rB e', s_neurons (e_net e) = [] ->
  add_neurons e number func None None rW rB = (e', Ok tt) ->
  exists f, parse_func func = Some f /\ let i := s_inputs (e_net e) in
    let n := if is_lin f then Nat.min (Z.to_nat number) i else Z.to_nat number in
    s_neurons (e_net e') = [mkNeuron n f (default_W f i n rW) (default_B f i n rB)] /\ s_inputs (e_net e') = i /\
    length (default_B f i n rB) = n /\ length (default_W f i n rW) = i.
Proof.
  intros e number func rW rB e' H0 E. apply add_neurons_inv in E. destruct E as (f & n & W' & B' & Ef & En & EW & EB & L1 & L2 & L3 & ->).
  exists f. split; [exact Ef|]. cbv zeta. unfold used_number in En. subst. cbn [e_net with_net slfn_add_neurons with_B reset with_neurons s_neurons s_inputs].
  rewrite H0. cbn [merge_neurons]. auto.
Qed.

Lemma firstn_seq_map : forall (x : list R) k, (k <= length x)%nat -> firstn k x = map (fun j => nth j x 0) (seq 0 k).
Proof.
  induction x as [|a x IH]; intros [|k] H; cbn in *; try reflexivity; try lia. f_equal. rewrite <- seq_shift, map_map. apply IH. lia.
Qed.
Lemma Rsum_pick : forall (g : nat -> R) j n s, (s <= j < s + n)%nat -> Rsum (map (fun i => g i * (if (i =? j)%nat then 1 else 0)) (seq s n)) = g j.
Proof.
  intros g j. induction n as [|n IH]; intros s H; [lia|]. cbn [seq map]. unfold Rsum in *. cbn [fold_right].
  destruct (Nat.eqb_spec s j) as [->|Hn].
  - assert (fold_right Rplus 0 (map (fun i => g i * (if (i =? j)%nat then 1 else 0)) (seq (S j) n)) = 0) as ->; [|lra].
    clear. assert (forall s, (j < s)%nat -> fold_right Rplus 0 (map (fun i => g i * (if (i =? j)%nat then 1 else 0)) (seq s n)) = 0) as Q; [|apply Q; lia].
    induction n as [|n IH]; intros s H; cbn [seq map fold_right]; [reflexivity|]. rewrite IH by lia. destruct (Nat.eqb_spec s j); [lia|lra].
  - rewrite IH by lia. lra.
Qed.

Lemma iter_half : forall k, Nat.iter k (@nmul NumR (@nhalf NumR)) 1 = / 2 ^ k.
Proof.
  induction k as [|k IH]; [cbn; lra|]. change (Nat.iter (S k) (@nmul NumR (@nhalf NumR)) 1) with (@nmul NumR (@nhalf NumR) (Nat.iter k (@nmul NumR (@nhalf NumR)) 1)). rewrite IH. unfold nhalf. cbn [nmul ndiv nadd n1 NumR pow].
  change (1 / (1 + 1) * / 2 ^ k = / (2 * 2 ^ k)). rewrite Rinv_mult. lra.
Qed.
(** without a norm: 50 times the machine epsilon of the precision *)
Theorem init_norm : forall inputs outputs cls w batch accel prec e,
  elm_init inputs outputs cls w batch accel prec None = Ok e ->
  (want_single prec -> s_norm (e_net e) = 50 / 2 ^ 23) /\ (~ want_single prec -> s_norm (e_net e) = 50 / 2 ^ 52).
Proof.
  intros inputs outputs cls w batch accel prec e E. assert (s_norm (e_net e) = 50 / 2 ^ (if parse_prec prec then 52 else 23)) as ->.
  { unfold elm_init in E. destruct (negb _); [discriminate|]. assert (default_norm (parse_prec prec) = 50 / 2 ^ (if parse_prec prec then 52 else 23)) as Q.
    { unfold default_norm. change (@n1 NumR) with 1. rewrite iter_half, nof_nat_INR. cbn [nmul NumR]. unfold Rdiv. f_equal. rewrite INR_IZR_INZ. reflexivity. }
    destruct w as [ws|]; [destruct (length ws =? outputs)%nat; [|discriminate]|]; injection E as <-; exact Q. }
  pose proof (parse_prec_spec prec) as Hp. destruct (parse_prec prec); split; intros H; auto; exfalso.
  - apply Hp in H. discriminate.
  - apply H, Hp. reflexivity.
Qed.

(** linear neurons copy the first input features *)
Theorem default_lin : forall e number rW rB e', s_neurons (e_net e) = [] -> (0 <= number)%Z ->
  add_neurons e number (FName "lin") None None rW rB = (e', Ok tt) ->
  forall X, wide (s_inputs (e_net e)) X ->
  elm_project e' (Arr2 (s_inputs (e_net e)) X) = Ok (map (firstn (Nat.min (Z.to_nat number) (s_inputs (e_net e)))) X).
Proof.
  intros e number rW rB e' H0 Hn E X HX. destruct (default_only _ _ _ _ _ _ H0 E) as (f & Ef & EN & EI & LB & LW). injection Ef as <-. cbn [is_lin] in *.
  set (i := s_inputs (e_net e)) in *. set (n := Nat.min (Z.to_nat number) i) in *.
  unfold elm_project, check_arr. rewrite EI, Nat.eqb_refl. cbn [rbind].
  rewrite (project_ok (e_net e') X); [|apply usable_of; rewrite EN; [discriminate|intros q [<-|[]]; cbn [n_func n_W]; split; [reflexivity|rewrite EI; exact LW]]|rewrite EI; exact HX].
  apply f_equal. apply map_ext_in. intros x Hx. unfold wide in HX. rewrite Forall_forall in HX. specialize (HX _ Hx).
  rewrite EN. unfold hrow. cbn [map concat]. rewrite app_nil_r. unfold nrow. cbn [n_B n_W n_func]. rewrite LB.
  rewrite firstn_seq_map by (etransitivity; [apply Nat.le_min_r|apply Nat.eq_le_incl; symmetry; exact HX]). unfold mkv. apply map_ext_in. intros j Hj. apply in_seq in Hj.
  cbn [default_W default_B is_lin]. pose proof (act_value i Lin x (mcol (mk i n (fun a b => if (a =? b)%nat then 1 else 0)) j) (vget (mkv n (fun _ => 0)) j) HX) as V.
  cbn [neuron_value] in V. change (@n1 NumR) with 1. change (@n0 NumR) with 0. rewrite V by (unfold mcol, mk; now rewrite !map_length, seq_length).
  unfold inner. assert (vget (mkv n (fun _ : nat => 0)) j = 0) as ->.
  { unfold vget, mkv. rewrite (nth_map_lt (fun _ : nat => 0) (seq 0 n) j 0%nat) by (rewrite seq_length; lia). reflexivity. }
  rewrite Rplus_0_r. etransitivity; [|apply (Rsum_pick (fun a => nth a x 0) j i 0); unfold n in Hj; lia]. f_equal. apply map_ext_in. intros a Ha. apply in_seq in Ha.
  unfold entry. f_equal. unfold mcol, mk. rewrite map_map.
  rewrite (nth_map_lt _ (seq 0 i) a 0%nat 0) by (rewrite seq_length; lia). rewrite seq_nth by lia. cbn [Nat.add]. unfold vget, mkv.
  rewrite (nth_map_lt (fun b => if (a =? b)%nat then 1 else 0) (seq 0 n) j 0%nat) by (rewrite seq_length; lia). rewrite seq_nth by lia. reflexivity.
Qed.

(** radial basis neurons give values in (0, 1] *)
Theorem default_rbf : forall e number name rW rB e', s_neurons (e_net e) = [] -> In name ["rbf_l1"; "rbf_l2"; "rbf_linf"] ->
  (0 < s_inputs (e_net e))%nat -> rand_shapes (s_inputs (e_net e)) rW rB -> (forall n b, In b (rB n) -> b <> 0) ->
  add_neurons e number (FName name) None None rW rB = (e', Ok tt) ->
  forall X H, elm_project e' (Arr2 (s_inputs (e_net e)) X) = Ok H -> Forall (fun h => length h = Z.to_nat number /\ Forall (fun v => 0 < v <= 1) h) H.
Proof.
  intros e number name rW rB e' H0 Hname Hi HR HB E X H EH. destruct (default_only _ _ _ _ _ _ H0 E) as (f & Ef & EN & EI & LB & LW).
  assert (is_rbf f = true) as Hf by (destruct Hname as [<-|[<-|[<-|[]]]]; injection Ef as <-; reflexivity).
  assert (is_lin f = false) as Hl by (destruct f; try discriminate; reflexivity). rewrite Hl in *. unfold default_W, default_B in *. rewrite Hl, Hf in *.
  set (i := s_inputs (e_net e)) in *. set (n := Z.to_nat number) in *.
  unfold elm_project, check_arr in EH. rewrite EI, Nat.eqb_refl in EH. cbn [rbind] in EH. apply project_inv in EH. destruct EH as (_ & WX & ->). rewrite EI in WX.
  rewrite Forall_map. unfold wide in WX. eapply Forall_impl; [|exact WX]. intros x Hx. rewrite EN. unfold hrow. cbn [map concat]. rewrite app_nil_r. unfold nrow. cbn [n_B n_W n_func].
  rewrite LB. unfold mkv. split; [now rewrite map_length, seq_length|]. rewrite Forall_map. apply Forall_forall. intros j Hj. apply in_seq in Hj.
  destruct (HR n) as [[S1 S2] S3].
  assert (0 < vget (map (fun b => nmul (nabs b) (nof_nat i)) (rB n)) j) as Hb.
  { unfold vget. rewrite (nth_map_lt _ (rB n) j 0) by (rewrite S3; lia). rewrite nof_nat_INR. cbn [nmul nabs NumR]. apply Rmult_lt_0_compat; [|now apply lt_0_INR].
    apply Rabs_pos_lt. apply (HB n). apply nth_In. rewrite S3. lia. }
  pose proof (act_ranges i f x (mcol (rW n) j) (vget (map (fun b => nmul (nabs b) (nof_nat i)) (rB n)) j) Hx) as V.
  assert (length (mcol (rW n) j) = i) as Lc by (unfold mcol; now rewrite map_length). specialize (V Lc).
  destruct f; try discriminate Hf; apply V; exact Hb.
Qed.

(** the other neurons: weights scaled by 3/sqrt(inputs) *)
Theorem default_scaled : forall e number name g rW rB e', s_neurons (e_net e) = [] ->
  (name = "tanh" /\ g = tanh \/ name = "sigm" /\ g = (fun z => 1 / (1 + exp z))) -> rand_shapes (s_inputs (e_net e)) rW rB ->
  add_neurons e number (FName name) None None rW rB = (e', Ok tt) ->
  let d := s_inputs (e_net e) in let n := Z.to_nat number in
  forall X, wide d X -> elm_project e' (Arr2 d X) = Ok (map (fun x => map (fun j =>
    g (3 / sqrt (INR d) * Rsum (map (fun i => entry x i * entry (nth i (rW n) []) j) (seq 0 d)) + entry (rB n) j)) (seq 0 n)) X).
Proof.
  intros e number name g rW rB e' H0 Hname HR E d n X HX. destruct (default_only _ _ _ _ _ _ H0 E) as (f & Ef & EN & EI & LB & LW).
  assert (f = Tanh /\ g = tanh \/ f = Sigm /\ g = (fun z => 1 / (1 + exp z))) as Hf by (destruct Hname as [[-> ->]|[-> ->]]; injection Ef as <-; auto).
  assert (is_lin f = false /\ is_rbf f = false) as [Hl Hr] by (destruct Hf as [[-> _]|[-> _]]; split; reflexivity). rewrite Hl in *. unfold default_W, default_B in *. rewrite Hl, Hr in *.
  fold d n in EN, EI, LB |- *.
  unfold elm_project, check_arr. rewrite EI, Nat.eqb_refl. cbn [rbind].
  rewrite (project_ok (e_net e') X); [|apply usable_of; rewrite EN; [discriminate|intros q [<-|[]]; cbn [n_func n_W]; split; [destruct Hf as [[-> _]|[-> _]]; reflexivity|rewrite EI; exact LW]]|rewrite EI; exact HX].
  apply f_equal. apply map_ext_in. intros x Hx. unfold wide in HX. rewrite Forall_forall in HX. specialize (HX _ Hx).
  rewrite EN. unfold hrow. cbn [map concat]. rewrite app_nil_r. unfold nrow. cbn [n_B n_W n_func]. rewrite LB. unfold mkv. apply map_ext_in. intros j Hj. apply in_seq in Hj.
  destruct (HR n) as [[S1 S2] S3]. fold d in S1.
  match goal with |- act f x ?w ?b = _ => pose proof (act_value d f x w b HX) as V; assert (length w = d) as Lw by (unfold mcol; now rewrite !map_length); specialize (V Lw) end.
  assert (forall z1 z2 : R, z1 = z2 -> forall v, v = g z1 -> v = g z2) as Q by (intros; subst; auto).
  eapply Q; [|destruct Hf as [[-> ->]|[-> ->]]; exact V]. unfold inner. change (vget (rB n) j) with (entry (rB n) j). f_equal.
  rewrite (Rmult_comm (3 / _)), <- Rsum_scal. f_equal. apply map_ext_in. intros i Hi. apply in_seq in Hi.
  assert (entry (mcol (map (map (fun a => nmul a (ndiv (nof_nat 3) (nsqrt (nof_nat d))))) (rW n)) j) i = entry (nth i (rW n) []) j * (3 / sqrt (INR d))) as ->; [|rring].
  unfold entry, mcol. rewrite map_map. rewrite (nth_map_lt _ (rW n) i [] 0) by lia. unfold vget.
  assert (length (nth i (rW n) []) = n) as Lr by (rewrite Forall_forall in S2; apply S2; apply nth_In; lia).
  rewrite (nth_map_lt _ (nth i (rW n) []) j 0) by lia. rewrite !nof_nat_INR. cbn [nmul ndiv nsqrt NumR]. f_equal. f_equal. cbn. lra.
Qed.
End Defaults.
