(** Arguments of the constructor, of train and of add_neurons (C44, C45, C46, C55). *)
From Coq Require Import Permutation Ascii.
From Verif Require Import Base Num Mat LinAlg Slfn Strs Elm Mrsr Search Mss MatFacts ElmFacts AccProofs WfProofs TrainThms LoadThms.
Local Open Scope string_scope.

(** ** C45: the constructor *)
Lemma lower_inv : forall a, (lower_ascii a = "c" <-> a = "c" \/ a = "C")%char /\ (lower_ascii a = "m" <-> a = "m" \/ a = "M")%char /\
  (lower_ascii a = "l" <-> a = "l" \/ a = "L")%char /\ (lower_ascii a = "w" <-> a = "w" \/ a = "W")%char.
Proof.
  intros [[] [] [] [] [] [] [] []]; vm_compute; intuition discriminate.
Qed.
Lemma str1 : forall a s, String a s = String a EmptyString -> s = EmptyString. Proof. intros. congruence. Qed.
Lemma ctor_class_iff : forall c t, ctor_class c = Some t /\ In t ["c"; "wc"; "ml"] <->
  (c = "c" /\ t = "c" \/ c = "wc" /\ t = "wc" \/ (c = "ml" \/ c = "mc") /\ t = "ml").
Proof.
  intros c t. split.
  - intros [H Ht]. unfold ctor_class in H. destruct (smem (lower c) _) eqn:E; [|discriminate]. injection H as <-.
    unfold smem in E. apply existsb_exists in E as (x & Hx & E). apply String.eqb_eq in E. subst x.
    destruct Hx as [Hx|[Hx|[Hx|[Hx|[]]]]]; destruct c as [|a c]; try discriminate Hx; cbn in Hx; injection Hx as Ha Hc; symmetry in Ha.
    + destruct c; [|discriminate]. apply (proj1 (lower_inv a)) in Ha. destruct Ha as [->| ->]; cbn in *; intuition discriminate.
    + destruct c as [|b c]; [discriminate|]. cbn in Hc. injection Hc as Hb Hc. destruct c; [|discriminate]. symmetry in Hb.
      apply (proj2 (lower_inv a)) in Ha. apply (proj1 (lower_inv b)) in Hb.
      destruct Ha as [->| ->], Hb as [->| ->]; cbn in *; intuition discriminate.
    + destruct c as [|b c]; [discriminate|]. cbn in Hc. injection Hc as Hb Hc. destruct c; [|discriminate]. symmetry in Hb.
      apply (proj2 (lower_inv a)) in Ha. apply (proj2 (lower_inv b)) in Hb.
      destruct Ha as [->| ->], Hb as [->| ->]; cbn in *; intuition discriminate.
    + destruct c as [|b c]; [discriminate|]. cbn in Hc. injection Hc as Hb Hc. destruct c; [|discriminate]. symmetry in Hb.
      apply (proj2 (lower_inv a)) in Ha. apply (proj1 (lower_inv b)) in Hb.
      destruct Ha as [->| ->], Hb as [->| ->]; cbn in *; intuition discriminate.
  - intros [[-> ->]|[[-> ->]|[[->| ->] ->]]]; vm_compute; auto.
Qed.
Lemma ctor_class_none : forall c, ~ In (lower c) ["c"; "wc"; "ml"; "mc"] -> ctor_class c = None.
Proof.
  intros c H. unfold ctor_class. destruct (smem (lower c) _) eqn:E; [|reflexivity]. exfalso. apply H.
  unfold smem in E. apply existsb_exists in E as (x & Hx & E). apply String.eqb_eq in E. now subst.
Qed.

Section Ctor.
Context {K : Num}.
Lemma init_class : forall inputs outputs cls w batch accel prec norm e,
  elm_init inputs outputs cls w batch accel prec norm = Ok e -> e_class e = ctor_class cls.
Proof.
  intros inputs outputs cls w batch accel prec norm e E. unfold elm_init in E. destruct (negb _); [discriminate|].
  destruct w as [ws|]; [destruct (_ =? _)%nat; [|discriminate]|]; apply Ok_inj in E; subst e; reflexivity.
Qed.

Theorem ctor_honoured : forall inputs outputs cls w batch accel prec norm e t,
  elm_init inputs outputs cls w batch accel prec norm = Ok e ->
  (e_class e = Some t /\ In t ["c"; "wc"; "ml"] <->
   (cls = "c" /\ t = "c" \/ cls = "wc" /\ t = "wc" \/ (cls = "ml" \/ cls = "mc") /\ t = "ml")) /\
  (~ In (lower cls) ["c"; "wc"; "ml"; "mc"] -> e_class e = None).
Proof.
  intros inputs outputs cls w batch accel prec norm e t E. rewrite (init_class _ _ _ _ _ _ _ _ _ E).
  split; [apply ctor_class_iff|apply ctor_class_none].
Qed.
End Ctor.

(** ** C44: the arguments of train *)
Lemma upper_ascii_idem : forall a, upper_ascii (upper_ascii a) = upper_ascii a.
Proof. intros [[] [] [] [] [] [] [] []]; vm_compute; reflexivity. Qed.
Lemma upper_idem : forall s, upper (upper s) = upper s.
Proof. unfold upper. induction s as [|a s IH]; cbn [smap]; [reflexivity|]. now rewrite upper_ascii_idem, IH. Qed.

(** the word [k] is among the arguments, in some letter case *)
Definition asked (k : string) (args : list string) : Prop := exists a, In a args /\ upper a = k.
Definition classes := ["C"; "WC"; "ML"; "MC"].
Definition selections := ["V"; "CV"; "LOO"].
Definition at_most_one_of (ks args : list string) : Prop :=
  forall k k', In k ks -> In k' ks -> asked k args -> asked k' args -> k = k'.

Lemma smem_in : forall s l, smem s l = true <-> In s l.
Proof.
  intros s l. unfold smem. rewrite existsb_exists. split.
  - intros (x & H & E). apply String.eqb_eq in E. now subst.
  - intros H. exists s. split; auto. apply String.eqb_refl.
Qed.
Lemma asked_in : forall k args, asked k args <-> In k (map upper args).
Proof. intros. unfold asked. rewrite in_map_iff. split; intros (a & H & H'); exists a; auto. Qed.
Lemma asked_smem : forall k args, smem k (map upper args) = true <-> asked k args.
Proof. intros. rewrite smem_in, asked_in. tauto. Qed.

Lemma filter_le1 : forall (f : string -> bool) l, NoDup l ->
  (length (filter f l) <= 1)%nat <-> (forall a b, In a l -> In b l -> f a = true -> f b = true -> a = b).
Proof.
  intros f l HN. split.
  - intros H a b Ha Hb Fa Fb.
    assert (In a (filter f l)) as Ha' by (apply filter_In; auto). assert (In b (filter f l)) as Hb' by (apply filter_In; auto).
    destruct (filter f l) as [|x [|y r]]; cbn in *; [contradiction|intuition congruence|lia].
  - intros H. assert (NoDup (filter f l)) as ND by now apply NoDup_filter.
    assert (forall a b, In a (filter f l) -> In b (filter f l) -> a = b) as Q.
    { intros a b Ha Hb. apply filter_In in Ha, Hb. apply H; tauto. }
    destruct (filter f l) as [|x [|y r]]; cbn; auto. exfalso.
    assert (x = y) by (apply Q; cbn; auto). subst. inversion ND; subst. apply H2. cbn; auto.
Qed.
Lemma amo_spec : forall ks args, NoDup ks -> at_most_one (map upper args) ks = true <-> at_most_one_of ks args.
Proof.
  intros ks args HN. unfold at_most_one, at_most_one_of. rewrite Nat.leb_le, filter_le1 by auto.
  split; intros H a b Ha Hb Fa Fb; apply H; auto; apply asked_smem; auto.
Qed.
Ltac nodups := repeat constructor; cbn; intuition discriminate.

Section Args.
Context {K : Num}.

(** what the loop does to the model when it succeeds *)
Definition last_class (args : list string) (c : option string) : option string :=
  fold_left (fun c a => if a =? "C" then Some "c" else if a =? "WC" then Some "wc" else
                        if (a =? "ML") || (a =? "MC") then Some "ml" else if a =? "R" then None else c) args c.

Lemma str_neq : forall a b c : string, (a =? b) = true -> b <> c -> (a =? c) = false.
Proof. intros a b c H N. apply String.eqb_eq in H. subst. now apply String.eqb_neq. Qed.

Lemma loop_result : forall kw args e,
  match parse_loop e kw args with
  | (e1, Ok _) =>
      (forall a, In a args -> In a classes -> (1 < s_outputs (e_net e))%nat) /\
      (In "WC" args -> forall w, kw_w kw = Some w -> length w = s_outputs (e_net e)) /\
      e1 = mkElm (e_net e) (e_batch e) (e_prec64 e) (e_accel e) (last_class args (e_class e))
             (if smem "WC" args then match kw_w kw with Some w => Some (map Fin w) | None => e_wc e end else e_wc e)
             (if smem "OP" args then true else e_op e)
             (if smem "OP" args then match kw_kmax kw with Some k => Some k | None => e_kmax e end else e_kmax e)
  | (_, Err _) =>
      (exists a, In a args /\ In a classes) /\ ~ (1 < s_outputs (e_net e))%nat \/
      In "WC" args /\ (exists w, kw_w kw = Some w /\ length w <> s_outputs (e_net e))
  end.
Proof.
  intros kw. induction args as [|a r IH]; intros e; cbn [parse_loop].
  - split; [intros a []|]. split; [intros []|]. destruct e; reflexivity.
  - assert (forall e2, e_net e2 = e_net e ->
      match parse_loop e2 kw r with (_, Ok _) => True | (_, Err _) =>
      (exists x, In x (a :: r) /\ In x classes) /\ ~ (1 < s_outputs (e_net e))%nat \/
      In "WC" (a :: r) /\ (exists w, kw_w kw = Some w /\ length w <> s_outputs (e_net e)) end) as HE.
    { intros e2 E. specialize (IH e2). destruct (parse_loop e2 kw r) as [x [u|y]]; auto. rewrite E in IH.
      destruct IH as [[(b & Hb & Hc) H]|[H H']]; [left|right]; split; auto; [exists b; cbn; auto|cbn; auto]. }
    unfold smem. cbn [existsb]. fold (smem "WC" r). fold (smem "OP" r). unfold last_class. cbn [fold_left].
    fold (last_class r). rewrite (String.eqb_sym "WC" a), (String.eqb_sym "OP" a).
    change (fold_left _ r ?x) with (last_class r x).
    destruct (1 <? s_outputs (e_net e))%nat eqn:Em.
    + apply Nat.ltb_lt in Em.
      assert (forall e2 c' w' o' k', e_net e2 = e_net e -> e_batch e2 = e_batch e -> e_prec64 e2 = e_prec64 e -> e_accel e2 = e_accel e ->
        last_class r (e_class e2) = c' ->
        (if smem "WC" r then match kw_w kw with Some w => Some (map Fin w) | None => e_wc e2 end else e_wc e2) = w' ->
        (if smem "OP" r then true else e_op e2) = o' ->
        (if smem "OP" r then match kw_kmax kw with Some k => Some k | None => e_kmax e2 end else e_kmax e2) = k' ->
        (a = "WC" -> forall w, kw_w kw = Some w -> length w = s_outputs (e_net e)) ->
        match parse_loop e2 kw r with
        | (e1, Ok _) =>
          (forall b, In b (a :: r) -> In b classes -> (1 < s_outputs (e_net e))%nat) /\
          (In "WC" (a :: r) -> forall w, kw_w kw = Some w -> length w = s_outputs (e_net e)) /\
          e1 = mkElm (e_net e) (e_batch e) (e_prec64 e) (e_accel e) c' w' o' k'
        | (_, Err _) => (exists x, In x (a :: r) /\ In x classes) /\ ~ (1 < s_outputs (e_net e))%nat \/
           In "WC" (a :: r) /\ (exists w, kw_w kw = Some w /\ length w <> s_outputs (e_net e))
        end) as HG.
      { intros e2 c' w' o' k' E1 E2 E3 E4 E5 E6 E7 E8 HWC. pose proof (HE e2 E1) as HE2. specialize (IH e2).
        destruct (parse_loop e2 kw r) as [x [u|y]]; [|exact HE2]. destruct IH as (I1 & I2 & ->). rewrite E1 in *.
        split; [auto|]. split; [intros [H|H]; auto|]. rewrite E2, E3, E4, E5, E6, E7, E8. reflexivity. }
      destruct (a =? "OP") eqn:EO.
      { rewrite !(str_neq a "OP" _ EO) by discriminate. cbn [orb]. apply HG; try reflexivity; cbn [e_class e_wc e_op e_kmax with_op].
        - now destruct (smem "OP" r).
        - destruct (smem "OP" r), (kw_kmax kw); reflexivity.
        - intros ->. discriminate. }
      cbn [orb]. destruct (a =? "C") eqn:E1.
      { rewrite !(str_neq a "C" _ E1) by discriminate. cbn [orb]. apply HG; try reflexivity. intros ->. discriminate. }
      destruct (a =? "WC") eqn:E2.
      { cbn [orb]. destruct (kw_w kw) as [w|] eqn:Ew.
        - destruct (length w =? s_outputs (e_net e))%nat eqn:El.
          + apply Nat.eqb_eq in El. apply HG; try reflexivity.
            * cbn. now destruct (smem "WC" r).
            * intros _ w' H. injection H as <-. exact El.
          + apply Nat.eqb_neq in El. right. apply String.eqb_eq in E2. split; [left; auto|]. eauto.
        - apply HG; try reflexivity. + cbn. now destruct (smem "WC" r). + discriminate. }
      cbn [orb]. destruct ((a =? "ML") || (a =? "MC")) eqn:E3.
      { apply HG; try reflexivity. intros ->. discriminate. }
      destruct (a =? "R") eqn:E4.
      { apply HG; try reflexivity. intros ->. discriminate. }
      apply HG; try reflexivity. intros ->. discriminate.
    + apply Nat.ltb_ge in Em.
      destruct (in_dec string_dec a classes) as [Hc|Hc].
      * assert (exists x, In x (a :: r) /\ In x classes) as Hx by (exists a; cbn; auto).
        assert (~ (1 < s_outputs (e_net e))%nat) as Hn by lia.
        destruct Hc as [<-|[<-|[<-|[<-|[]]]]]; cbn; auto.
      * assert ((a =? "C") = false /\ (a =? "WC") = false /\ (a =? "ML") = false /\ (a =? "MC") = false) as (N1 & N2 & N3 & N4).
        { repeat split; apply String.eqb_neq; intros ->; apply Hc; unfold classes; cbn; auto. }
        rewrite N1, N2, N3, N4. cbn [orb].
        assert (forall e2 c' w' o' k', e_net e2 = e_net e -> e_batch e2 = e_batch e -> e_prec64 e2 = e_prec64 e -> e_accel e2 = e_accel e ->
          last_class r (e_class e2) = c' ->
          (if smem "WC" r then match kw_w kw with Some w => Some (map Fin w) | None => e_wc e2 end else e_wc e2) = w' ->
          (if smem "OP" r then true else e_op e2) = o' ->
          (if smem "OP" r then match kw_kmax kw with Some k => Some k | None => e_kmax e2 end else e_kmax e2) = k' ->
          match parse_loop e2 kw r with
          | (e1, Ok _) =>
            (forall b, In b (a :: r) -> In b classes -> (1 < s_outputs (e_net e))%nat) /\
            (In "WC" (a :: r) -> forall w, kw_w kw = Some w -> length w = s_outputs (e_net e)) /\
            e1 = mkElm (e_net e) (e_batch e) (e_prec64 e) (e_accel e) c' w' o' k'
          | (_, Err _) => (exists x, In x (a :: r) /\ In x classes) /\ ~ (1 < s_outputs (e_net e))%nat \/
             In "WC" (a :: r) /\ (exists w, kw_w kw = Some w /\ length w <> s_outputs (e_net e))
          end) as HG.
        { intros e2 c' w' o' k' F1 F2 F3 F4 F5 F6 F7 F8. pose proof (HE e2 F1) as HE2. specialize (IH e2).
          destruct (parse_loop e2 kw r) as [x [u|y]]; [|exact HE2]. destruct IH as (I1 & I2 & ->). rewrite F1 in *.
          split. { intros b [->|Hb] Hb'; [contradiction|eauto]. }
          split. { intros [->|H]; [discriminate|auto]. } rewrite F2, F3, F4, F5, F6, F7, F8. reflexivity. }
        destruct (a =? "OP") eqn:EO.
        { rewrite !(str_neq a "OP" _ EO) by discriminate. apply HG; try reflexivity; cbn [e_class e_wc e_op e_kmax with_op].
          - now destruct (smem "OP" r).
          - destruct (smem "OP" r), (kw_kmax kw); reflexivity. }
        destruct (a =? "R"); apply HG; reflexivity.
Qed.

Definition valid_args (e : elm) (args : list string) (kw : kwargs) : Prop :=
  s_neurons (e_net e) <> [] /\ at_most_one_of selections args /\ at_most_one_of classes args /\
  (forall k, In k classes -> asked k args -> (1 < s_outputs (e_net e))%nat) /\
  (asked "WC" args -> forall w, kw_w kw = Some w -> length w = s_outputs (e_net e)).

Definition parsed (e : elm) (args : list string) (kw : kwargs) : elm :=
  let a := map upper args in
  mkElm (reset (e_net e)) (match kw_batch kw with Some b => b | None => e_batch e end) (e_prec64 e) (e_accel e) (last_class a None)
    (if smem "WC" a then match kw_w kw with Some w => Some (map Fin w) | None => None end else None)
    (smem "OP" a) (if smem "OP" a then kw_kmax kw else None).

Lemma parse_result : forall e args kw,
  (valid_args e args kw -> parse_args e args kw = (parsed e args kw, Ok tt)) /\
  (~ valid_args e args kw -> snd (parse_args e args kw) = Err AssertionError).
Proof.
  intros e args kw. unfold parse_args, valid_args.
  destruct (s_neurons (e_net e)) as [|n ns] eqn:En. { split; [intros [H _]; congruence|reflexivity]. }
  set (e1 := with_wc _ _).
  pose proof (amo_spec selections args ltac:(nodups)) as A1. pose proof (amo_spec classes args ltac:(nodups)) as A2.
  unfold selections in A1. unfold classes in A2 at 1.
  destruct (at_most_one _ ["V"; "CV"; "LOO"]); cbn [negb]; [|split; [intros (_ & H & _); apply A1 in H; discriminate|reflexivity]].
  destruct (at_most_one _ ["C"; "WC"; "ML"; "MC"]); cbn [negb]; [|split; [intros (_ & _ & H & _); apply A2 in H; discriminate|reflexivity]].
  pose proof (proj1 A1 eq_refl) as B1. pose proof (proj1 A2 eq_refl) as B2.
  assert (forall l e0 x y, parse_loop e0 kw l = (x, Err y) -> y = AssertionError) as HAE.
  { clear. induction l as [|a r IH]; intros e0 x y; cbn [parse_loop]; [discriminate|].
    repeat match goal with |- context [if ?b then _ else _] => destruct b | |- context [match kw_w kw with _ => _ end] => destruct (kw_w kw) end; try apply IH; congruence. }
  pose proof (loop_result kw (map upper args) e1) as L.
  destruct (parse_loop e1 kw (map upper args)) as [e2 [u|y]] eqn:EL.
  - destruct L as (L1 & L2 & ->).
    assert (valid_args e args kw) as HV.
    { unfold valid_args. rewrite En. split; [discriminate|]. split; [exact B1|]. split; [exact B2|]. split.
      - intros k Hk Ha. apply (L1 k); auto. now apply asked_in.
      - intros Ha. apply L2. now apply asked_in. }
    unfold valid_args in HV. rewrite En in HV. split; [intros _|intros C; contradiction].
    unfold parsed. cbn [e_net e_batch e_prec64 e_accel e_class e_wc e_op e_kmax with_wc with_class with_op with_net e1 with_batch].
    destruct (kw_batch kw), (smem "OP" (map upper args)), (smem "WC" (map upper args)); destruct (kw_kmax kw), (kw_w kw); reflexivity.
  - pose proof (HAE _ _ _ _ EL) as ->. split; [|reflexivity]. intros (_ & _ & _ & V1 & V2). exfalso.
    destruct L as [[(a & Ha & Hc) Hn]|[Ha (w & Hw & Hl)]].
    + apply Hn. apply (V1 a); auto. now apply asked_in.
    + apply Hl. apply V2; auto. now apply asked_in.
Qed.

Lemma valid_dec : forall e args kw, valid_args e args kw \/ ~ valid_args e args kw.
Proof.
  intros e args kw. destruct (parse_args e args kw) as [e1 [u|x]] eqn:E.
  - left. unfold parse_args in E. destruct (s_neurons (e_net e)) as [|n ns] eqn:En; [discriminate|].
    pose proof (amo_spec selections args ltac:(nodups)) as A1. pose proof (amo_spec classes args ltac:(nodups)) as A2.
    unfold selections in A1. unfold classes in A2 at 1.
    destruct (at_most_one _ ["V"; "CV"; "LOO"]); [|discriminate].
    destruct (at_most_one _ ["C"; "WC"; "ML"; "MC"]); [|discriminate]. cbn [negb] in E.
    match type of E with context [parse_loop ?e0 _ _] => pose proof (loop_result kw (map upper args) e0) as L; destruct (parse_loop e0 kw (map upper args)) as [e2 [u'|y]] end; [|discriminate].
    destruct L as (L1 & L2 & _). unfold valid_args. rewrite En. split; [discriminate|]. split; [now apply A1|]. split; [now apply A2|]. split.
    + intros k Hk Ha. apply (L1 k); auto. now apply asked_in.
    + intros Ha. apply L2. now apply asked_in.
  - right. intros H. rewrite (proj1 (parse_result e args kw) H) in E. discriminate.
Qed.

Theorem parse_iff : forall e args kw, (exists e1, parse_args e args kw = (e1, Ok tt)) <-> valid_args e args kw.
Proof.
  intros e args kw. split.
  - intros [e1 E]. destruct (valid_dec e args kw) as [H|H]; auto. apply (proj2 (parse_result e args kw)) in H. rewrite E in H. discriminate.
  - intros H. eexists. now apply (proj1 (parse_result e args kw)).
Qed.

(** the task type *)
Lemma last_class_only : forall args c k t, In (k, t) [("C","c"); ("WC","wc"); ("ML","ml"); ("MC","ml")] ->
  (forall k', In k' classes -> In k' args -> k' = k) -> ~ In "R" args ->
  In k args \/ c = Some t -> last_class args c = Some t.
Proof.
  induction args as [|a r IH]; intros c k t Hk Hu HR H; [cbn; destruct H as [[]|H]; exact H|].
  unfold last_class. cbn [fold_left]. change (fold_left _ r ?x) with (last_class r x).
  assert (forall k', In k' classes -> In k' r -> k' = k) as Hu' by (intros; apply Hu; cbn; auto).
  assert (~ In "R" r) as HR' by (intros C; apply HR; cbn; auto).
  assert (forall x, In x classes -> (a =? x) = true -> x = k) as Q.
  { intros x Hx E. apply String.eqb_eq in E. subst. apply Hu; cbn; auto. }
  assert (HR2 : (a =? "R") = false). { apply String.eqb_neq. intros ->. apply HR. cbn; auto. }
  rewrite HR2.
  destruct (a =? "C") eqn:E1.
  { specialize (Q "C" ltac:(cbn; auto) E1). subst k. apply (IH _ "C" t); auto. right. destruct Hk as [Hk|[Hk|[Hk|[Hk|[]]]]]; congruence. }
  destruct (a =? "WC") eqn:E2.
  { specialize (Q "WC" ltac:(cbn; auto) E2). subst k. apply (IH _ "WC" t); auto. right. destruct Hk as [Hk|[Hk|[Hk|[Hk|[]]]]]; congruence. }
  destruct (a =? "ML") eqn:E3.
  { specialize (Q "ML" ltac:(cbn; auto) E3). subst k. cbn [orb]. apply (IH _ "ML" t); auto. right. destruct Hk as [Hk|[Hk|[Hk|[Hk|[]]]]]; congruence. }
  destruct (a =? "MC") eqn:E4.
  { specialize (Q "MC" ltac:(cbn; auto) E4). subst k. cbn [orb]. apply (IH _ "MC" t); auto. right. destruct Hk as [Hk|[Hk|[Hk|[Hk|[]]]]]; congruence. }
  cbn [orb]. apply (IH _ k t); auto. destruct H as [[->|H]|H]; auto. exfalso.
  destruct Hk as [Hk|[Hk|[Hk|[Hk|[]]]]]; injection Hk as <- _; discriminate.
Qed.
Lemma last_class_none : forall args, (forall k, In k classes -> ~ In k args) -> last_class args None = None.
Proof.
  intros args H. unfold last_class. induction args as [|a r IH]; [reflexivity|]. cbn [fold_left].
  assert (forall x, In x classes -> (a =? x) = false) as Q. { intros x Hx. apply String.eqb_neq. intros ->. apply (H x); cbn; auto. }
  rewrite !Q by (cbn; auto). cbn [orb]. destruct (a =? "R"); apply IH; intros k Hk C; apply (H k); cbn; auto.
Qed.

Theorem parse_type : forall e args kw e1, parse_args e args kw = (e1, Ok tt) -> ~ asked "R" args ->
  (asked "C" args -> e_class e1 = Some "c") /\ (asked "WC" args -> e_class e1 = Some "wc") /\
  (asked "ML" args \/ asked "MC" args -> e_class e1 = Some "ml") /\
  ((forall k, In k classes -> ~ asked k args) -> e_class e1 = None) /\
  e_wc e1 = (if smem "WC" (map upper args) then option_map (map Fin) (kw_w kw) else None).
Proof.
  intros e args kw e1 E HR. assert (valid_args e args kw) as HV by (apply parse_iff; eauto).
  rewrite (proj1 (parse_result e args kw) HV) in E. injection E as <-. unfold parsed. cbn [e_class e_wc].
  destruct HV as (_ & _ & HV & _). rewrite asked_in in HR.
  assert (forall k t, In (k, t) [("C","c"); ("WC","wc"); ("ML","ml"); ("MC","ml")] -> In k classes -> asked k args -> last_class (map upper args) None = Some t) as Q.
  { intros k t Hk Hc Ha. apply (last_class_only _ None k t Hk); [|exact HR|left; now apply asked_in].
    intros k' Hk' Hin. apply HV; auto. now apply asked_in. }
  split; [intros; apply (Q "C"); auto; cbn; auto|]. split; [intros; apply (Q "WC"); auto; cbn; auto|].
  split; [intros [H|H]; [apply (Q "ML")|apply (Q "MC")]; auto; cbn; auto|].
  split.
  - intros H. apply last_class_none. intros k Hk C. apply (H k); auto. now apply asked_in.
  - destruct (smem _ _); [|reflexivity]. destruct (kw_w kw); reflexivity.
Qed.

(** R resets: a later R wins *)
Theorem parse_R_last : forall e args kw e1 r, upper r = "R" -> parse_args e (args ++ [r]) kw = (e1, Ok tt) -> e_class e1 = None.
Proof.
  intros e args kw e1 r Hr E. assert (valid_args e (args ++ [r]) kw) as HV by (apply parse_iff; eauto).
  rewrite (proj1 (parse_result _ _ kw) HV) in E. injection E as <-. unfold parsed. cbn [e_class].
  rewrite map_app. unfold last_class. rewrite fold_left_app. cbn [map fold_left]. rewrite Hr. reflexivity.
Qed.

(** order *)
Lemma asked_perm : forall k l l', Permutation l l' -> asked k l -> asked k l'.
Proof. intros k l l' P (a & H & E). exists a. split; auto. now apply (Permutation_in _ P). Qed.
Lemma smem_perm : forall k l l', Permutation l l' -> smem k l = smem k l'.
Proof.
  intros k l l' P. destruct (smem k l) eqn:E.
  - symmetry. apply smem_in. apply (Permutation_in _ P). now apply smem_in.
  - destruct (smem k l') eqn:E'; auto. apply smem_in in E'. apply (Permutation_in _ (Permutation_sym P)) in E'. apply smem_in in E'. congruence.
Qed.
Lemma valid_perm : forall e l l' kw, Permutation l l' -> valid_args e l kw -> valid_args e l' kw.
Proof.
  intros e l l' kw P (A & B & C & D & E). pose proof (Permutation_sym P) as P'.
  split; [exact A|]. split; [intros k k' H1 H2 H3 H4; apply (B k k'); eauto using asked_perm|].
  split; [intros k k' H1 H2 H3 H4; apply (C k k'); eauto using asked_perm|].
  split; [intros k Hk Ha; apply (D k); eauto using asked_perm|]. intros H. apply E. eauto using asked_perm.
Qed.
Lemma last_class_perm : forall l l', Permutation l l' -> ~ In "R" l ->
  (forall k k', In k classes -> In k' classes -> In k l -> In k' l -> k = k') -> last_class l None = last_class l' None.
Proof.
  intros l l' P HR HU.
  assert (forall k, In k l <-> In k l') as HI. { intros k. split; apply Permutation_in; auto using Permutation_sym. }
  destruct (existsb (fun k => smem k l) classes) eqn:E.
  - apply existsb_exists in E as (k & Hk & E). apply smem_in in E.
    assert (exists t, In (k, t) [("C","c"); ("WC","wc"); ("ML","ml"); ("MC","ml")]) as [t Ht].
    { destruct Hk as [<-|[<-|[<-|[<-|[]]]]]; eexists; cbn; eauto. }
    rewrite (last_class_only l None k t), (last_class_only l' None k t); auto.
    + intros k' H1 H2. apply HU; auto. now apply HI.
    + rewrite <- HI. exact HR.
    + left. now apply HI.
  - assert (forall k, In k classes -> ~ In k l) as Q.
    { intros k Hk Hin. assert (existsb (fun k => smem k l) classes = true) as C; [|congruence].
      apply existsb_exists. exists k. split; auto. now apply smem_in. }
    rewrite !last_class_none; auto. intros k Hk C. apply (Q k Hk). now apply HI.
Qed.

Theorem parse_order : forall e l l' kw e1, Permutation l l' -> ~ asked "R" l ->
  parse_args e l kw = (e1, Ok tt) -> parse_args e l' kw = (e1, Ok tt).
Proof.
  intros e l l' kw e1 P HR E. assert (valid_args e l kw) as HV by (apply parse_iff; eauto).
  rewrite (proj1 (parse_result e l kw) HV) in E. injection E as <-.
  rewrite (proj1 (parse_result e l' kw) (valid_perm _ _ _ _ P HV)). f_equal. unfold parsed.
  pose proof (Permutation_map upper P) as PM.
  rewrite !(smem_perm _ _ _ PM), (last_class_perm _ _ PM); auto.
  - rewrite <- asked_in. exact HR.
  - destruct HV as (_ & _ & HV & _). intros k k' H1 H2 H3 H4. apply HV; auto; now apply asked_in.
Qed.

Theorem parse_case : forall e args kw, parse_args e (map upper args) kw = parse_args e args kw.
Proof.
  intros. unfold parse_args. destruct (s_neurons (e_net e)); [reflexivity|]. cbv zeta.
  replace (map upper (map upper args)) with (map upper args); [reflexivity|].
  rewrite map_map. apply map_ext. intros a. now rewrite upper_idem.
Qed.
End Args.

Section Train.
Context {K : Num} {SG : Sing} {BR : Brent} {SH : Shuffle}.

Theorem train_order : forall e X T l l' kw e1 r, Permutation l l' -> ~ asked "R" l ->
  train e X T l kw = (e1, Ok r) -> train e X T l' kw = (e1, Ok r).
Proof.
  intros e X T l l' kw e1 r P HR E. unfold train in *.
  destruct (checkdata e X T) as [[x t]|]; [|discriminate].
  destruct (parse_args e l kw) as [e2 [[]|y]] eqn:EP; [|discriminate].
  rewrite (parse_order _ _ _ _ _ P HR EP). now rewrite <- !(smem_perm _ _ _ P).
Qed.
Theorem train_case : forall e X T args kw,
  (forall k, In k selections -> asked k args -> In k args) ->
  train e X T (map upper args) kw = train e X T args kw.
Proof.
  intros e X T args kw H. unfold train. rewrite parse_case.
  assert (forall k, In k selections -> upper k = k -> smem k (map upper args) = smem k args) as Q.
  { intros k Hk Hu. destruct (smem k args) eqn:E.
    - apply asked_smem. apply smem_in in E. exists k. auto.
    - destruct (smem k (map upper args)) eqn:E'; auto. apply asked_smem in E'. apply H in E'; auto. apply smem_in in E'. congruence. }
  rewrite !Q by (cbn; auto). reflexivity.
Qed.
Lemma check_arr_err : forall a d x, check_arr a d = Err x -> x = AssertionError.
Proof. intros a d x. unfold check_arr. destruct a; try congruence; match goal with |- context [if ?b then _ else _] => destruct b end; congruence. Qed.
Lemma checkdata_err : forall e X T x, checkdata e X T = Err x -> x = AssertionError.
Proof.
  intros e X T x. unfold checkdata. destruct (check_arr X _) eqn:E1; cbn [rbind]; [|intros H; injection H as <-; eapply check_arr_err; eauto].
  destruct (check_arr T _) eqn:E2; cbn [rbind]; [|intros H; injection H as <-; eapply check_arr_err; eauto].
  match goal with |- context [if ?b then _ else _] => destruct b end; congruence.
Qed.
(** invalid arguments are always rejected *)
Theorem train_invalid : forall e X T args kw, ~ valid_args e args kw ->
  exists e', train e X T args kw = (e', Err AssertionError).
Proof.
  intros e X T args kw H. unfold train. destruct (checkdata e X T) as [[x t]|y] eqn:E.
  - apply (proj2 (parse_result e args kw)) in H. destruct (parse_args e args kw) as [e1 r]. cbn in H. subst. eauto.
  - exists e. now rewrite (checkdata_err _ _ _ _ E).
Qed.
Lemma last_class_filter : forall args c,
  last_class (map upper (filter (fun a => negb (smem (upper a) selections)) args)) c = last_class (map upper args) c.
Proof.
  unfold last_class. induction args as [|a r IH]; intros c; [reflexivity|]. cbn [map fold_left filter].
  destruct (smem (upper a) selections) eqn:E; cbn [negb].
  - rewrite IH. f_equal. apply smem_in in E. destruct E as [<-|[<-|[<-|[]]]]; reflexivity.
  - cbn [map fold_left]. apply IH.
Qed.
(** without any word for structure selection the training is basic (no neuron is removed) *)
Theorem train_lower : forall e X T args kw, (forall k, In k selections -> ~ In k args) ->
  train e X T args kw = train e X T (filter (fun a => negb (smem (upper a) selections)) args) kw \/
  snd (train e X T args kw) = Err AssertionError.
Proof.
  intros e X T args kw H.
  destruct (valid_dec e args kw) as [HV|HV]; [|right; destruct (train_invalid e X T args kw HV) as [e' ->]; reflexivity].
  left. set (args' := filter _ args). unfold train. destruct (checkdata e X T) as [[x t]|]; [|reflexivity].
  assert (HI : forall k, ~ In k selections -> (In k (map upper args') <-> In k (map upper args))).
  { intros k Hk. unfold args'. rewrite !in_map_iff. split; intros (a & E & Ha).
    - exists a. apply filter_In in Ha. tauto.
    - exists a. split; auto. apply filter_In. split; auto. destruct (smem (upper a) selections) eqn:Es; [|reflexivity].
      apply smem_in in Es. rewrite E in Es. contradiction. }
  assert (HA : forall k, ~ In k selections -> (asked k args' <-> asked k args)) by (intros; rewrite !asked_in; auto).
  assert (HN : forall k, In k selections -> ~ asked k args').
  { intros k Hk (a & Ha & E). unfold args' in Ha. apply filter_In in Ha as [_ Ha]. rewrite E in Ha. apply smem_in in Hk. rewrite Hk in Ha. discriminate. }
  assert (HCn : forall k, In k classes -> ~ In k selections). { intros k [<-|[<-|[<-|[<-|[]]]]]; cbn; intuition discriminate. }
  assert (valid_args e args' kw) as HV'.
  { destruct HV as (A & B & C & D & E). split; [exact A|]. split; [intros k k' H1 _ H3 _; exfalso; apply (HN k); auto|].
    split; [intros k k' H1 H2 H3 H4; apply C; auto; apply HA; auto|].
    split; [intros k Hk Ha; apply (D k Hk); apply HA; auto|]. intros Ha. apply E. apply HA; auto. cbn; intuition discriminate. }
  rewrite (proj1 (parse_result e args kw) HV), (proj1 (parse_result e args' kw) HV').
  assert (parsed e args' kw = parsed e args kw) as ->.
  { unfold parsed.
    assert (HS : forall k, ~ In k selections -> smem k (map upper args') = smem k (map upper args)).
    { intros k Hk. destruct (smem k (map upper args)) eqn:E.
      - apply smem_in. apply HI; auto. now apply smem_in.
      - destruct (smem k (map upper args')) eqn:E'; auto. apply smem_in, HI in E'; auto. apply smem_in in E'. congruence. }
    rewrite !HS by (cbn; intuition discriminate).
    replace (last_class (map upper args') None) with (last_class (map upper args) None); [reflexivity|].
    unfold args'. symmetry. apply last_class_filter. }
  assert (HF : forall k, In k selections -> smem k args = false /\ smem k args' = false).
  { intros k Hk. split; apply Bool.not_true_is_false; intros C; apply smem_in in C.
    - exact (H k Hk C).
    - unfold args' in C. apply filter_In in C as [C _]. exact (H k Hk C). }
  destruct (HF "V") as [-> ->]; [cbn; auto|]. destruct (HF "CV") as [-> ->]; [cbn; auto|]. destruct (HF "LOO") as [-> ->]; [cbn; auto|]. reflexivity.
Qed.

(** ** C46 *)
Theorem add_neurons_rejected : forall e n f W B rW rB e' x, add_neurons e n f W B rW rB = (e', Err x) -> e' = e.
Proof.
  intros e n f W B rW rB e' x. unfold add_neurons. destruct (parse_func f); [|congruence]. destruct (n <? 0)%Z; [congruence|].
  cbv zeta. repeat match goal with |- context [if ?b then _ else _] => destruct b end; congruence.
Qed.

(** train refused its arguments: bad data, bad words, or missing / bad validation data or k *)
Definition refused (e : elm) (X T : arr) (args : list string) (kw : kwargs) : Prop :=
  is_ok (checkdata e X T) = false \/ ~ valid_args e args kw \/
  smem "V" args = true /\ (kw_Xv kw = None \/ kw_Tv kw = None \/
     exists Xv Tv, kw_Xv kw = Some Xv /\ kw_Tv kw = Some Tv /\ is_ok (checkdata e Xv Tv) = false) \/
  smem "V" args = false /\ smem "CV" args = true /\ (forall k, kw_k kw = Some k -> (k < 3)%nat).

Definition forgets (e e' : elm) : Prop :=
  exists s b c w o k, (s = e_net e \/ s_neurons (e_net e) <> [] /\ s = reset (e_net e)) /\ e' = mkElm s b (e_prec64 e) (e_accel e) c w o k.
Lemma parse_args_forgets : forall e args kw, forgets e (fst (parse_args e args kw)) /\
  (kw_batch kw = None -> e_batch (fst (parse_args e args kw)) = e_batch e).
Proof.
  intros e args kw. unfold parse_args. destruct (s_neurons (e_net e)) as [|n ns] eqn:En.
  { cbn [fst]. split; auto. destruct e. cbn. do 6 eexists. split; [left; reflexivity|reflexivity]. }
  assert (HF : forall b c w o k, forgets e (mkElm (reset (e_net e)) b (e_prec64 e) (e_accel e) c w o k)).
  { intros. do 6 eexists. split; [right; split; [rewrite En; discriminate|reflexivity]|reflexivity]. }
  destruct (negb _); [split; [apply HF|reflexivity]|]. destruct (negb _); [split; [apply HF|reflexivity]|].
  assert (forall l e0, e_net (fst (parse_loop e0 kw l)) = e_net e0 /\ e_batch (fst (parse_loop e0 kw l)) = e_batch e0 /\
    e_prec64 (fst (parse_loop e0 kw l)) = e_prec64 e0 /\ e_accel (fst (parse_loop e0 kw l)) = e_accel e0) as Q.
  { clear. induction l as [|a r IH]; intros e0; cbn [parse_loop]; [cbn; auto|].
    repeat match goal with |- context [if ?b then _ else _] => destruct b | |- context [match kw_w kw with _ => _ end] => destruct (kw_w kw) end;
      try (match goal with |- context [parse_loop ?x kw r] => destruct (IH x) as (P1 & P2 & P3 & P4) end; cbn; auto); cbn; auto. }
  match goal with |- context [parse_loop ?x kw ?l] => destruct (Q l x) as (Q1 & Q2 & Q3 & Q4); destruct (parse_loop x kw l) as [e2 [u|y]] end;
    cbn [fst] in *.
  - destruct e2 as [s b p a c w o k]. cbn in Q1, Q2, Q3, Q4. subst.
    destruct (kw_batch kw); cbn; split; auto; try discriminate; apply HF.
  - destruct e2 as [s b p a c w o k]. cbn in Q1, Q2, Q3, Q4. subst. split; auto.
Qed.

Lemma forgets_parse : forall e e' args kw, forgets e e' -> e_batch e' = e_batch e -> s_neurons (e_net e) <> [] -> parse_args e' args kw = parse_args e args kw.
Proof.
  intros e e' args kw (s & b & c & w & o & k & Hs & ->) Hb Hn. cbn in Hb. subst b. unfold parse_args. cbn [e_net].
  assert (s_neurons s = s_neurons (e_net e) /\ reset s = reset (e_net e)) as [-> R]. { destruct Hs as [->|[_ ->]]; split; reflexivity. }
  destruct (s_neurons (e_net e)); [congruence|].
  cbn [with_wc with_class with_op with_net e_net e_batch e_prec64 e_accel e_class e_wc e_op e_kmax]. now rewrite R.
Qed.
Lemma forgets_check : forall e e' X T, forgets e e' -> checkdata e' X T = checkdata e X T.
Proof. intros e e' X T (s & b & c & w & o & k & Hs & ->). unfold checkdata. cbn [e_net]. destruct Hs as [->|[_ ->]]; reflexivity. Qed.

Lemma refused_state : forall e X T args kw, refused e X T args kw ->
  exists e' x, train e X T args kw = (e', Err x) /\ forgets e e' /\ (e_batch e' = e_batch e \/ kw_batch kw <> None) /\ (s_neurons (e_net e) = [] -> e' = e).
Proof.
  intros e X T args kw HR. unfold train. pose proof (parse_args_forgets e args kw) as [PF PB].
  assert (forgets e e) as F0. { destruct e. do 6 eexists. split; [left; reflexivity|reflexivity]. }
  destruct (checkdata e X T) as [[x t]|y] eqn:EC; [|exists e, y; auto].
  unfold refused in HR; rewrite EC in HR; destruct HR as [HR|HR]; [discriminate|].
  assert (e_batch (fst (parse_args e args kw)) = e_batch e \/ kw_batch kw <> None) as HB.
  { destruct (kw_batch kw); [right; discriminate|left; auto]. }
  assert (s_neurons (e_net e) = [] -> fst (parse_args e args kw) = e) as HN. { intros H. unfold parse_args. now rewrite H. }
  destruct HR as [HR|HR].
  { apply (proj2 (parse_result e args kw)) in HR. destruct (parse_args e args kw) as [e1 r]. cbn [fst snd] in *. subst r. eauto 10. }
  destruct (parse_args e args kw) as [e1 [u|y]]; cbn [fst] in *; [|eauto 10].
  destruct HR as [(HV & HR)|(HV & HCV & HR)]; rewrite HV.
  - destruct HR as [->|[->|(Xv & Tv & -> & -> & HC)]].
    + eauto 10.
    + destruct (kw_Xv kw); eauto 10.
    + rewrite (forgets_check _ _ _ _ PF). destruct (checkdata e Xv Tv) as [v|y]; [discriminate|]. cbn [lift_err]. eauto 10.
  - rewrite HCV. destruct (kw_k kw) as [k|] eqn:Ek; [|eauto 10]. specialize (HR k eq_refl).
    destruct (3 <=? k)%nat eqn:E; [apply Nat.leb_le in E; lia|]. eauto 10.
Qed.

Theorem train_refused : forall e X T args kw, refused e X T args kw ->
  exists e' x, train e X T args kw = (e', Err x) /\
    (forall X', elm_project e' X' = elm_project e X') /\ (forall X', elm_predict e' X' = elm_predict e X') /\
    (kw_batch kw = None -> forall X' T' args' kw', snd (train e' X' T' args' kw') = snd (train e X' T' args' kw') /\
      (is_ok (checkdata e X' T') = true -> train e' X' T' args' kw' = train e X' T' args' kw')).
Proof.
  intros e X T args kw HR. destruct (refused_state _ _ _ _ _ HR) as (e' & x & E & HF & HB & HN). exists e', x. split; [exact E|].
  assert (HP : forall X', elm_project e' X' = elm_project e X').
  { intros X'. destruct HF as (s & b & c & w & o & k & Hs & ->). unfold elm_project. cbn [e_net]. destruct Hs as [->|[_ ->]]; reflexivity. }
  split; [exact HP|]. split.
  { intros X'. destruct HF as (s & b & c & w & o & k & Hs & ->). unfold elm_predict. cbn [e_net]. destruct Hs as [->|[_ ->]]; reflexivity. }
  intros Hb X' T' args' kw'. destruct (s_neurons (e_net e)) as [|n ns] eqn:En; [now rewrite HN|].
  unfold train. rewrite (forgets_check _ _ _ _ HF).
  assert (parse_args e' args' kw' = parse_args e args' kw') as EP.
  { apply forgets_parse; auto; [destruct HB; congruence|rewrite En; discriminate]. }
  destruct (checkdata e X' T') as [[x' t']|y] eqn:EC.
  - rewrite EP. auto.
  - split; [reflexivity|discriminate].
Qed.
End Train.

(** ** C55: which arrays are accepted *)
Section Check.
Context {K : Num} {SG : Sing} {BR : Brent} {SH : Shuffle}.

(** the array as a two-dimensional one, if it is numeric with one or two dimensions *)
Definition as_rows (a : arr) : option (nat * mat) :=
  match a with Arr1 v => Some (1%nat, map (fun x => [x]) v) | Arr2 c m => Some (c, m) | _ => None end.
Definition accepted (d : nat) (a : arr) (m : mat) : Prop := as_rows a = Some (d, m).

Lemma check_spec : forall a d, (forall m, accepted d a m -> check_arr a d = Ok m) /\
  ((forall m, ~ accepted d a m) -> check_arr a d = Err AssertionError).
Proof.
  intros a d. unfold accepted, check_arr. destruct a as [v|c m| |]; cbn [as_rows].
  - split; [intros m H; injection H as <- <-; reflexivity|]. intros H. destruct (1 =? d)%nat eqn:E; [|reflexivity].
    apply Nat.eqb_eq in E. subst. exfalso. eapply H. reflexivity.
  - split; [intros m' H; injection H as -> ->; now rewrite Nat.eqb_refl|]. intros H. destruct (c =? d)%nat eqn:E; [|reflexivity].
    apply Nat.eqb_eq in E. subst. exfalso. eapply H. reflexivity.
  - split; [discriminate|reflexivity].
  - split; [discriminate|reflexivity].
Qed.
Lemma accepted_dec : forall d a, (exists m, accepted d a m) \/ (forall m, ~ accepted d a m).
Proof.
  intros d a. unfold accepted. destruct (as_rows a) as [[c m]|]; [|right; discriminate].
  destruct (Nat.eq_dec c d) as [->|N]; [left; eauto|right]. intros m' C. congruence.
Qed.

Theorem project_checks : forall e X,
  (forall m, accepted (s_inputs (e_net e)) X m -> elm_project e X = elm_project e (Arr2 (s_inputs (e_net e)) m) /\
                                                 elm_predict e X = elm_predict e (Arr2 (s_inputs (e_net e)) m)) /\
  ((forall m, ~ accepted (s_inputs (e_net e)) X m) -> elm_project e X = Err AssertionError /\ elm_predict e X = Err AssertionError).
Proof.
  intros e X. destruct (check_spec X (s_inputs (e_net e))) as [A B]. unfold elm_project, elm_predict. split.
  - intros m H. rewrite (A m H). cbn [check_arr]. rewrite Nat.eqb_refl. auto.
  - intros H. rewrite (B H). auto.
Qed.
Theorem error_checks : forall e T Y, let d := s_outputs (e_net e) in
  (forall t y, accepted d T t -> accepted d Y y -> elm_error e T Y = elm_error e (Arr2 d t) (Arr2 d y) /\
      confusion e T Y = confusion e (Arr2 d t) (Arr2 d y)) /\
  ((forall m, ~ accepted d T m) \/ (forall m, ~ accepted d Y m) -> elm_error e T Y = Err AssertionError /\ confusion e T Y = Err AssertionError).
Proof.
  intros e T Y d. destruct (check_spec T d) as [A B], (check_spec Y d) as [A' B']. unfold elm_error, confusion. fold d. split.
  - intros t y H H'. rewrite (A t H), (A' y H'). cbn [check_arr]. rewrite Nat.eqb_refl. auto.
  - intros H. assert (forall C (f : mat -> mat -> res C), (let? t := check_arr T d in let? y := check_arr Y d in f t y) = Err AssertionError) as Q.
    { intros C f. destruct H as [H|H]; [rewrite (B H); reflexivity|]. rewrite (B' H).
      destruct (check_arr T d) eqn:E; [reflexivity|]. cbn. now rewrite (check_arr_err _ _ _ E). }
    rewrite Q. split; [reflexivity|]. destruct (e_class e) as [c|]; [|reflexivity]. destruct (smem c _); [|reflexivity]. apply (Q mat).
Qed.
Theorem train_checks : forall e X T args kw,
  (forall x t, accepted (s_inputs (e_net e)) X x -> accepted (s_outputs (e_net e)) T t -> length x = length t ->
     train e X T args kw = train e (Arr2 (s_inputs (e_net e)) x) (Arr2 (s_outputs (e_net e)) t) args kw) /\
  ((forall x t, accepted (s_inputs (e_net e)) X x -> accepted (s_outputs (e_net e)) T t -> length x <> length t) ->
     train e X T args kw = (e, Err AssertionError)).
Proof.
  intros e X T args kw. destruct (check_spec X (s_inputs (e_net e))) as [A B], (check_spec T (s_outputs (e_net e))) as [A' B'].
  unfold train, checkdata. split.
  - intros x t H H' L. rewrite (A x H), (A' t H'). cbn [check_arr]. rewrite !Nat.eqb_refl. reflexivity.
  - intros H. destruct (accepted_dec (s_inputs (e_net e)) X) as [[x Hx]|Hx]; [|rewrite (B Hx); reflexivity].
    rewrite (A x Hx). cbn [rbind]. destruct (accepted_dec (s_outputs (e_net e)) T) as [[t Ht]|Ht]; [|rewrite (B' Ht); reflexivity].
    rewrite (A' t Ht). cbn [rbind]. specialize (H x t Hx Ht). apply Nat.eqb_neq in H. rewrite H. reflexivity.
Qed.
End Check.
