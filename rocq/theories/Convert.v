(** * Loading a model into an object of another precision

    elm.py:455-468 _update_from_output converts the weights, biases and output
    weights of the pickled dictionary with [W.astype(self.precision)],
    [B.astype(self.precision)] and [np.array(m["Beta"], dtype=self.precision)].
    [convert f g] applies [f] to every number of these arrays; [g] says what
    becomes of the norm and of the class weights, which the code stores without
    conversion (elm.py:459, 466), so [g] is the identity where both arithmetics
    have the same carrier. *)
From Coq Require Import ZArith Reals Lra Lia Floats.SpecFloat.
From Verif Require Import Base Num Mat LinAlg Slfn Strs Elm MatFacts ElmFacts AccProofs WfProofs TrainThms LoadThms Float Rounding Cast SubThms RegMore Spec.

Section Convert.
Context {K K' : Num} (f g : @num K -> @num K').

Definition convert_neuron (n : @neuron K) : @neuron K' :=
  mkNeuron (n_num n) (n_func n) (map (map f) (n_W n)) (map f (n_B n)).
Definition convert_x (x : @xnum K) : @xnum K' :=
  match x with Fin a => Fin (g a) | PInf => PInf | NInf => NInf | XNaN => XNaN end.
Definition convert (m : @saved K) : @saved K' :=
  mkSaved (sv_inputs m) (sv_outputs m) (sv_class m) (option_map (map convert_x) (sv_wc m))
          (map convert_neuron (sv_neurons m)) (g (sv_norm m)) (option_map (map (map f)) (sv_B m)).
(** load / loads of a dictionary written by an object of another precision *)
Definition load_as (new : @elm K') (m : @saved K) : @elm K' * res unit := update_from new (convert m).

Lemma conv_mat : forall r c (M : list (list (@num K))), is_mat r c M -> is_mat r c (map (map f) M).
Proof.
  intros r c M [H1 H2]. split; [now rewrite map_length|]. apply Forall_map. eapply Forall_impl; [|exact H2].
  intros v Hv. cbn beta. now rewrite map_length.
Qed.
Lemma conv_nneurons : forall ns, nneurons (map convert_neuron ns) = nneurons ns.
Proof. intros ns. unfold nneurons. rewrite map_map. reflexivity. Qed.
Lemma conv_types : forall ns, map n_func (map convert_neuron ns) = map n_func ns.
Proof. intros ns. rewrite map_map. reflexivity. Qed.

(** the loaded model is the saved one with every parameter converted, and can be used and saved like any other *)
Theorem load_converts : forall (e : @elm K) (new : @elm K'),
  wf_net (e_net e) -> (s_neurons (e_net e) <> [] \/ s_B (e_net e) = None) -> e_accel new = None ->
  exists e', load_as new (output_format e) = (e', Ok tt) /\ output_format e' = convert (output_format e) /\
    wf_net (e_net e') /\ no_data (e_net e') /\ e_batch e' = e_batch new.
Proof.
  intros e new HW Hn Ha.
  set (s := e_net e).
  set (t := mkSlfn Basic (s_inputs s) (s_outputs s) (g (s_norm s)) (map convert_neuron (s_neurons s)) (s_L s)
                   (option_map (map (map f)) (s_B s)) None None).
  set (c := with_net (with_wc (with_class new (e_class e)) (option_map (map convert_x) (e_wc e))) t).
  assert (convert (output_format e) = output_format c) as EC by reflexivity.
  assert (wf_net (e_net c)) as HWc.
  { destruct HW as [W1 W2 W3 W4 W5 W6 W7]. constructor; cbn [c e_net with_net t s_inputs s_neurons s_L s_B s_outputs s_HH s_HT opt_shape].
    - apply Forall_map. eapply Forall_impl; [|exact W1]. intros n [A B]. split; cbn [convert_neuron n_num n_W n_B]; [now apply conv_mat|].
      now rewrite map_length.
    - rewrite conv_types. exact W2.
    - rewrite conv_nneurons. destruct W3 as [W3|[W3 W3']]; [left; exact W3|right]. split; [exact W3|]. unfold s. now rewrite W3'.
    - rewrite conv_nneurons. fold s in W4. destruct (s_B s) as [B|]; cbn [option_map opt_shape] in *; [now apply conv_mat|exact I].
    - tauto.
    - exact I.
    - exact I. }
  assert (s_neurons (e_net c) <> [] \/ s_B (e_net c) = None) as Hnc.
  { destruct Hn as [Hn|Hn]; [left|right]; cbn [c e_net with_net t s_neurons s_B].
    - intros C. apply Hn. unfold s in C. destruct (s_neurons (e_net e)); [reflexivity|discriminate].
    - unfold s. now rewrite Hn. }
  destruct (load_into c new HWc Hnc (or_introl Ha)) as (e' & E & HS & HW' & HD & HB & _).
  exists e'. unfold load_as. rewrite EC. split; [exact E|]. split; [|auto].
  destruct HS as (A & B & C & D & F & G & H). unfold output_format. now rewrite A, B, C, D, F, G, H.
Qed.

(** ** Parameters *)
(** every weight, bias and output weight *)
Definition params {K0 : Num} (m : @saved K0) : list num :=
  concat (map (fun n => concat (n_W n) ++ n_B n) (sv_neurons m)) ++ match sv_B m with Some B => concat B | None => [] end.
Lemma concat_conv : forall l : list (list (@num K)), concat (map (map f) l) = map f (concat l).
Proof. intros l. symmetry. apply concat_map. Qed.
Lemma params_convert : forall m, params (convert m) = map f (params m).
Proof.
  intros m. unfold params, convert. cbn [sv_neurons sv_B]. rewrite map_app. f_equal.
  - rewrite map_map. cbn [convert_neuron n_W n_B]. rewrite concat_map, map_map. f_equal. apply map_ext. intros n.
    now rewrite map_app, concat_conv.
  - destruct (sv_B m) as [B|]; cbn [option_map]; [apply concat_conv|reflexivity].
Qed.
End Convert.

Section Compose.
Context {K1 K2 K3 : Num}.
(** converting twice *)
Lemma convert_twice : forall (f g : @num K1 -> @num K2) (f' g' : @num K2 -> @num K3) m,
  convert f' g' (convert f g m) = convert (fun x => f' (f x)) (fun x => g' (g x)) m.
Proof.
  intros f g f' g' m. unfold convert. cbn [sv_inputs sv_outputs sv_class sv_wc sv_neurons sv_norm sv_B]. f_equal.
  - destruct (sv_wc m) as [w|]; [|reflexivity]. cbn [option_map]. f_equal. rewrite map_map. apply map_ext. intros []; reflexivity.
  - rewrite map_map. apply map_ext. intros n. unfold convert_neuron. cbn [n_num n_func n_W n_B]. f_equal.
    + rewrite map_map. apply map_ext. intros r. apply map_map.
    + apply map_map.
  - destruct (sv_B m) as [B|]; [|reflexivity]. cbn [option_map]. f_equal. rewrite map_map. apply map_ext. intros r. apply map_map.
Qed.
End Compose.

Lemma convert_id : forall {K : Num} (f : num -> num) (m : saved), (forall x, In x (params m) -> f x = x) -> convert f (fun x => x) m = m.
Proof.
  intros K f m H. unfold params in H.
  assert (forall v : list num, (forall x, In x v -> f x = x) -> map f v = v) as HV.
  { induction v as [|a v IH]; intros Hv; [reflexivity|]. cbn [map]. rewrite Hv by now left. f_equal. apply IH. intros; apply Hv; now right. }
  assert (forall M : list (list num), (forall x, In x (concat M) -> f x = x) -> map (map f) M = M) as HM.
  { induction M as [|r M IH]; intros HMx; [reflexivity|]. cbn [map concat] in *. rewrite HV by (intros; apply HMx, in_or_app; auto).
    f_equal. apply IH. intros; apply HMx, in_or_app; auto. }
  destruct m as [i o c w ns nm B]. unfold convert. cbn [sv_inputs sv_outputs sv_class sv_wc sv_neurons sv_norm sv_B] in *. f_equal.
  - destruct w as [w|]; [|reflexivity]. cbn [option_map]. f_equal. rewrite <- (map_id w) at 2. apply map_ext. intros []; reflexivity.
  - assert (forall x, In x (concat (map (fun n => concat (n_W n) ++ n_B n) ns)) -> f x = x) as H' by (intros; apply H, in_or_app; auto).
    clear H. induction ns as [|n ns IH]; [reflexivity|]. cbn [map concat] in *. f_equal.
    + destruct n as [k t W b]. unfold convert_neuron. cbn [n_num n_func n_W n_B] in *. f_equal.
      * apply HM. intros x Hx. apply H', in_or_app. left. apply in_or_app. now left.
      * apply HV. intros x Hx. apply H', in_or_app. left. apply in_or_app. now right.
    + apply IH. intros x Hx. apply H', in_or_app. now right.
  - destruct B as [B|]; [|reflexivity]. cbn [option_map]. f_equal. apply HM. intros x Hx. apply H, in_or_app. now right.
Qed.

(** ** Floats *)
(** load into an object whose arithmetic is the format (prec, emax) *)
Definition load_float {K : Num} (prec emax : Z) (fe ft : spec_float -> spec_float) (un : @num K -> spec_float)
  (new : @elm (NumF prec emax fe ft)) (m : @saved K) : @elm (NumF prec emax fe ft) * res unit :=
  @load_as K (NumF prec emax fe ft) (fun x => cast prec emax (un x)) un new m.
(** all parameters are numbers of the format *)
Definition in_format {K : Num} (prec emax : Z) (un : @num K -> spec_float) (m : @saved K) : Prop :=
  forall x, In x (params m) -> valid_binary prec emax (un x) = true.

Section Floats.
Context (fe ft fe' ft' : spec_float -> spec_float).
Definition sf {p e a b} (x : @num (NumF p e a b)) : spec_float := x.

(** single into double: the same numbers; back into single: the same model *)
Theorem load_wider : forall prec emax prec' emax' (e : @elm (NumF prec emax fe ft)) (new : @elm (NumF prec' emax' fe' ft'))
    (new2 : @elm (NumF prec emax fe ft)),
  (0 < prec <= prec')%Z -> (emax <= emax')%Z -> (2 <= emax')%Z ->
  wf_net (e_net e) -> (s_neurons (e_net e) <> [] \/ s_B (e_net e) = None) -> e_accel new = None -> e_accel new2 = None ->
  in_format prec emax sf (output_format e) ->
  exists e1 e2, load_float prec' emax' fe' ft' sf new (output_format e) = (e1, Ok tt) /\
    in_format prec' emax' sf (output_format e1) /\
    map (fun x => sf_val (sf x)) (params (output_format e1)) = map (fun x => sf_val (sf x)) (params (output_format e)) /\
    load_float prec emax fe ft sf new2 (output_format e1) = (e2, Ok tt) /\ output_format e2 = output_format e.
Proof.
  intros prec emax prec' emax' e new new2 Hp He H2 HW Hn Ha Ha2 HF.
  unfold load_float. destruct (load_converts (K := NumF prec emax fe ft) (K' := NumF prec' emax' fe' ft') (fun x => cast prec' emax' (sf x)) sf e new HW Hn Ha) as (e1 & E1 & O1 & W1 & _).
  assert (s_neurons (e_net e1) <> [] \/ s_B (e_net e1) = None) as Hn1.
  { pose proof (f_equal sv_neurons O1) as A. pose proof (f_equal sv_B O1) as B. cbn [output_format sv_neurons sv_B convert] in A, B.
    destruct Hn as [Hn|Hn]; [left|right].
    - rewrite A. intros C. apply Hn. destruct (s_neurons (e_net e)); [reflexivity|discriminate].
    - rewrite B, Hn. reflexivity. }
  destruct (load_converts (K := NumF prec' emax' fe' ft') (K' := NumF prec emax fe ft) (fun x => cast prec emax (sf x)) sf e1 new2 W1 Hn1 Ha2) as (e2 & E2 & O2 & _).
  exists e1, e2. split; [exact E1|].
  split. { intros x Hx. rewrite O1, params_convert in Hx. apply in_map_iff in Hx as (y & <- & Hy). unfold sf. apply cast_in_format. lia. }
  split.
  { rewrite O1, params_convert, map_map. apply map_ext_in. intros x Hx. exact (proj1 (proj2 (cast_widen prec emax prec' emax' x Hp He H2 (HF x Hx)))). }
  split; [exact E2|]. rewrite O2, O1, convert_twice.
  apply (convert_id (K := NumF prec emax fe ft) (fun x => cast prec emax (sf (cast prec' emax' (sf x))))).
  intros x Hx. exact (proj2 (proj2 (proj2 (cast_widen prec emax prec' emax' x Hp He H2 (HF x Hx))))).
Qed.

(** double into single: every parameter is rounded once; what has been in single stays as it is *)
Theorem load_narrower : forall prec emax prec' emax' (e : @elm (NumF prec' emax' fe' ft')) (new : @elm (NumF prec emax fe ft)),
  (0 < prec <= prec')%Z -> (2 < emax <= emax')%Z ->
  wf_net (e_net e) -> (s_neurons (e_net e) <> [] \/ s_B (e_net e) = None) -> e_accel new = None ->
  exists e1, load_float prec emax fe ft sf new (output_format e) = (e1, Ok tt) /\
    in_format prec emax sf (output_format e1) /\
    params (output_format e1) = map (fun x => cast prec emax (sf x)) (params (output_format e)) /\
    (forall x, In x (params (output_format e)) -> sf_fin (sf x) -> (Rabs (sf_val (sf x)) < p2 (emax - 1))%R ->
       sf_fin (cast prec emax (sf x)) /\
       (Rabs (sf_val (cast prec emax (sf x)) - sf_val (sf x)) <= p2 (- prec) * Rabs (sf_val (sf x)) + p2 (SpecFloat.emin prec emax - 1))%R) /\
    (in_format prec emax sf (output_format e) -> params (output_format e1) = params (output_format e)).
Proof.
  intros prec emax prec' emax' e new Hp He HW Hn Ha.
  unfold load_float. destruct (load_converts (K := NumF prec' emax' fe' ft') (K' := NumF prec emax fe ft) (fun x => cast prec emax (sf x)) sf e new HW Hn Ha) as (e1 & E1 & O1 & W1 & _).
  exists e1. split; [exact E1|].
  split. { intros x Hx. rewrite O1, params_convert in Hx. apply in_map_iff in Hx as (y & <- & Hy). unfold sf. apply cast_in_format. lia. }
  split. { rewrite O1. exact (params_convert (K := NumF prec' emax' fe' ft') (K' := NumF prec emax fe ft) (fun x => cast prec emax (sf x)) sf (output_format e)). }
  split.
  { intros x Hx Fx Bx. assert (sf_fin (cast prec emax (sf x))) as FC by (apply cast_finite; auto; lia). split; [exact FC|].
    apply (cast_ok prec emax ltac:(lia) (sf x) FC). }
  intros HF. rewrite O1, params_convert. change (@num (NumF prec emax fe ft)) with spec_float. change (@num (NumF prec' emax' fe' ft')) with spec_float.
  rewrite <- (map_id (params (output_format e))) at 2. apply map_ext_in. intros x Hx. apply cast_valid. exact (HF x Hx).
Qed.
End Floats.
