(** Saving and loading (C31, C32). *)
From Verif Require Import Base Num Mat LinAlg Slfn Strs Elm MatFacts ElmFacts AccProofs WfProofs TrainThms.

Section Load.
Context {K : Num} {SG : Sing}.

Definition same_model (e e' : elm) : Prop :=
  s_inputs (e_net e') = s_inputs (e_net e) /\ s_outputs (e_net e') = s_outputs (e_net e) /\
  s_neurons (e_net e') = s_neurons (e_net e) /\ s_norm (e_net e') = s_norm (e_net e) /\
  s_B (e_net e') = s_B (e_net e) /\ e_class e' = e_class e /\ e_wc e' = e_wc e.

Lemma same_project : forall e e' X, same_model e e' -> elm_project e' X = elm_project e X.
Proof. intros e e' X (A & B & C & _). unfold elm_project, project. now rewrite A, C. Qed.
Lemma same_predict : forall e e' X, same_model e e' -> elm_predict e' X = elm_predict e X.
Proof. intros e e' X (A & B & C & D & E & _). unfold elm_predict, predict, project. now rewrite A, B, C, E. Qed.
Lemma same_error : forall e e' T Y, same_model e e' -> elm_error e' T Y = elm_error e T Y.
Proof. intros e e' T Y (A & B & C & D & E & F & G). unfold elm_error, error_. now rewrite B, F, G. Qed.

Lemma merge_new : forall ns n f W B, ~ In f (map n_func ns) -> merge_neurons ns n f W B = ns ++ [mkNeuron n f W B].
Proof.
  induction ns as [|g r IH]; intros n f W B H; cbn [merge_neurons app]; [reflexivity|].
  destruct (ftype_eqb (n_func g) f) eqn:E; [exfalso; apply H; left|].
  - destruct (n_func g), f; try discriminate; auto. apply Nat.eqb_eq in E. now subst.
  - rewrite IH; auto. intros C. apply H. right. exact C.
Qed.
Lemma can_merge_new : forall ns f W, ~ In f (map n_func ns) -> can_merge ns f W = true.
Proof.
  intros ns f W H. unfold can_merge. destruct (find _ ns) as [g|] eqn:E; [|reflexivity].
  apply find_some in E as [E1 E2]. exfalso. apply H. apply in_map_iff. exists g. split; auto.
  destruct (n_func g), f; try discriminate; auto. apply Nat.eqb_eq in E2. now subst.
Qed.

Lemma load_all : forall ns s, NoDup (map n_func (s_neurons s ++ ns)) -> ns <> [] ->
  load_neurons s ns = (mkSlfn (s_kind s) (s_inputs s) (s_outputs s) (s_norm s) (s_neurons s ++ ns)
                              (Some (nneurons (s_neurons s ++ ns))) None None None, Ok tt).
Proof.
  induction ns as [|n r IH]; intros s H Hne; [congruence|]. cbn [load_neurons].
  assert (~ In (n_func n) (map n_func (s_neurons s))) as Hn.
  { rewrite map_app in H. cbn [map] in H. apply NoDup_remove_2 in H. intros C. apply H. apply in_or_app; auto. }
  rewrite can_merge_new by auto. unfold slfn_add_neurons. rewrite merge_new by auto.
  replace (mkNeuron (n_num n) (n_func n) (n_W n) (n_B n)) with n by (destruct n; reflexivity).
  destruct r as [|m r].
  - cbn [load_neurons]. reflexivity.
  - rewrite IH by (try discriminate; cbn [s_neurons with_B reset with_neurons]; rewrite <- app_assoc; exact H).
    cbn [s_neurons with_B reset with_neurons s_kind s_inputs s_outputs s_norm]. rewrite <- app_assoc. reflexivity.
Qed.

(** A new model, or any model without accelerator, becomes the saved one. *)
Theorem load_into : forall e new, wf_net (e_net e) -> (s_neurons (e_net e) <> [] \/ s_B (e_net e) = None) ->
  (e_accel new = None \/ wf_net (e_net new) /\ s_neurons (e_net new) = [] /\ s_B (e_net new) = None /\ no_data (e_net new) /\
     s_inputs (e_net new) = s_inputs (e_net e) /\ s_outputs (e_net new) = s_outputs (e_net e)) ->
  exists e', update_from new (output_format e) = (e', Ok tt) /\ same_model e e' /\ wf_net (e_net e') /\ no_data (e_net e') /\
    e_batch e' = e_batch new /\ e_accel e' = e_accel new.
Proof.
  intros e new HW Hn Ha. unfold update_from, output_format.
  cbn [sv_class sv_wc sv_inputs sv_outputs sv_neurons sv_norm sv_B].
  set (s0 := match e_accel new with None => _ | Some _ => _ end).
  assert (wf_net s0 /\ s_neurons s0 = [] /\ s_B s0 = None /\ no_data s0 /\ s_inputs s0 = s_inputs (e_net e) /\ s_outputs s0 = s_outputs (e_net e)) as (H0 & H1 & H2 & H3 & H4 & H5).
  { unfold s0. destruct (e_accel new) eqn:Ea; [|split; [apply wf_init|repeat split]].
    destruct Ha as [Ha|Ha]; [discriminate|exact Ha]. }
  clearbody s0. destruct (s_neurons (e_net e)) as [|n r] eqn:En.
  - destruct Hn as [Hn|Hn]; [congruence|]. rewrite Hn. cbn [load_neurons]. eexists. split; [reflexivity|].
    split. { unfold same_model. cbn. rewrite H1, H2, H4, H5, En, Hn. auto 10. }
    split. { destruct H0 as [W1 W2 W3 W4 W5 W6 W7]. constructor; assumption. }
    split; [exact H3|]. auto.
  - assert (NoDup (map n_func (s_neurons s0 ++ n :: r))) as ND. { rewrite H1. cbn [app]. rewrite <- En. apply (wf_types _ HW). }
    rewrite load_all by (auto; discriminate). rewrite H1. cbn [app].
    assert (wf_net (mkSlfn (s_kind s0) (s_inputs s0) (s_outputs s0) (s_norm (e_net e)) (n :: r) (Some (nneurons (n :: r))) (s_B (e_net e)) None None)) as HW'.
    { destruct HW as [W1 W2 W3 W4 W5 W6 W7]. constructor; cbn [s_inputs s_neurons s_L s_B s_outputs s_HH s_HT opt_shape]; rewrite ?H4, ?H5, <- ?En; auto. tauto. }
    destruct (s_B (e_net e)) as [B|] eqn:EB.
    + unfold set_B. cbn [s_L with_norm s_outputs]. pose proof (wf_weights _ HW) as Q. rewrite EB, En in Q. destruct Q as [Q _].
      rewrite Q, Nat.eqb_refl, H5, Nat.eqb_refl. eexists. split; [reflexivity|].
      split. { unfold same_model. cbn. rewrite En, EB. auto 10. }
      split; [rewrite H5 in HW'; exact HW'|]. split; [split; reflexivity|]. auto.
    + eexists. split; [reflexivity|].
      split. { unfold same_model. cbn. rewrite En, EB. auto 10. }
      split; [exact HW'|]. split; [split; reflexivity|]. auto.
Qed.

Theorem roundtrip : forall e new, wf_net (e_net e) -> (s_neurons (e_net e) <> [] \/ s_B (e_net e) = None) -> e_accel new = None ->
  exists e', update_from new (output_format e) = (e', Ok tt) /\ same_model e e' /\ wf_net (e_net e') /\ no_data (e_net e') /\
    (forall X, elm_project e' X = elm_project e X) /\ (forall X, elm_predict e' X = elm_predict e X) /\
    (forall T Y, elm_error e' T Y = elm_error e T Y) /\ output_format e' = output_format e.
Proof.
  intros e new HW Hn Ha. destruct (load_into e new HW Hn (or_introl Ha)) as (e' & E & HS & HW' & HD & _).
  exists e'. split; [exact E|]. split; [exact HS|]. split; [exact HW'|]. split; [exact HD|].
  split; [intros; now apply same_project|]. split; [intros; now apply same_predict|]. split; [intros; now apply same_error|].
  destruct HS as (A & B & C & D & F & G & H). unfold output_format. now rewrite A, B, C, D, F, G, H.
Qed.

(** Without accelerator the previous contents are irrelevant. *)
Theorem load_replaces : forall e1 e2 m, e_accel e1 = None -> e_accel e2 = None -> e_prec64 e1 = e_prec64 e2 ->
  let '(r1, v1) := update_from e1 m in let '(r2, v2) := update_from e2 m in
  v1 = v2 /\ e_net r1 = e_net r2 /\ e_class r1 = e_class r2 /\ e_wc r1 = e_wc r2.
Proof.
  intros e1 e2 m H1 H2 H3. unfold update_from. rewrite H1, H2, H3.
  destruct (load_neurons _ _) as [s1 [u|x]]; [|cbn; auto]. destruct (sv_B m); [|cbn; auto]. destruct (set_B _ _ _ _); cbn; auto.
Qed.
End Load.

Section Parse.
Context {K : Num}.

Lemma parse_loop_same : forall kw args e e', s_outputs (e_net e') = s_outputs (e_net e) -> e_class e' = e_class e -> e_wc e' = e_wc e ->
  snd (parse_loop e' kw args) = snd (parse_loop e kw args) /\
  e_class (fst (parse_loop e' kw args)) = e_class (fst (parse_loop e kw args)) /\
  e_wc (fst (parse_loop e' kw args)) = e_wc (fst (parse_loop e kw args)) /\
  e_batch (fst (parse_loop e' kw args)) = e_batch e'.
Proof.
  induction args as [|a r IH]; intros e e' Ho Hc Hw; cbn [parse_loop]; [cbn; auto|]. rewrite Ho.
  set (e1 := if (a =? "OP")%string then with_op e true _ else e).
  set (e1' := if (a =? "OP")%string then with_op e' true _ else e').
  assert (s_outputs (e_net e1') = s_outputs (e_net e1) /\ e_class e1' = e_class e1 /\ e_wc e1' = e_wc e1 /\ e_batch e1' = e_batch e') as (A & B & C & D).
  { unfold e1, e1'. destruct (a =? "OP")%string; cbn; auto. }
  clearbody e1 e1'. rewrite <- D.
  repeat match goal with
  | |- context [if ?b then _ else _] => destruct b
  | |- context [match kw_w kw with _ => _ end] => destruct (kw_w kw)
  end; try (match goal with |- snd (parse_loop ?x kw r) = snd (parse_loop ?y kw r) /\ _ => destruct (IH y x) as (P1 & P2 & P3 & P4) end; cbn; auto); cbn; auto.
Qed.

Lemma parse_same : forall e e' args kw e1, s_outputs (e_net e') = s_outputs (e_net e) -> s_neurons (e_net e') = s_neurons (e_net e) ->
  parse_args e args kw = (e1, Ok tt) ->
  exists e1', parse_args e' args kw = (e1', Ok tt) /\ e_class e1' = e_class e1 /\ e_wc e1' = e_wc e1 /\
    e_batch e1' = match kw_batch kw with Some b => b | None => e_batch e' end.
Proof.
  intros e e' args kw e1 Ho Hn H. unfold parse_args in *. rewrite Hn. destruct (s_neurons (e_net e)); [discriminate|].
  destruct (negb _); [discriminate|]. destruct (negb _); [discriminate|].
  match type of H with context [parse_loop ?a _ _] => set (a1 := a) in * end.
  match goal with |- context [parse_loop ?a _ _] => set (a2 := a) in * end.
  destruct (parse_loop_same kw (map upper args) a1 a2) as (P & Q & R & S); auto.
  destruct (parse_loop a1 _ _) as [b1 [[]|x]]; [|discriminate].
  destruct (parse_loop a2 _ _) as [b2 r2]. cbn [fst snd] in *. subst r2.
  assert (e1 = match kw_batch kw with Some b => with_batch b1 b | None => b1 end) as -> by congruence.
  eexists. split; [reflexivity|]. destruct (kw_batch kw); cbn; auto.
Qed.
End Parse.
