(** HPELM.train never selects a structure (C80). *)
From Verif Require Import Base Num Mat LinAlg Slfn Strs Elm Mrsr Search Mss Hpelm MatFacts ElmFacts ArgThms.
Local Open Scope string_scope.

(** not an argument about structure selection *)
Definition keeps (a : string) : bool := negb (smem (upper a) ["V"; "CV"; "LOO"; "OP"]).

Section HpPlain.
Context {K : Num} {SG : Sing} {BR : Brent} {SH : Shuffle}.

(** the model without its ranking options *)
Definition unrank (e : elm) : elm := with_op e false None.

Lemma asked_keeps : forall k args, ~ In k ["V"; "CV"; "LOO"; "OP"] -> asked k (filter keeps args) <-> asked k args.
Proof.
  intros k args Hk. unfold asked. split; intros (a & H & E).
  - apply filter_In in H as [H _]. eauto.
  - exists a. split; [|exact E]. apply filter_In. split; [exact H|]. unfold keeps. rewrite E.
    destruct (smem k _) eqn:S; [|reflexivity]. apply smem_in in S. contradiction.
Qed.
Lemma classes_other : forall k, In k classes -> ~ In k ["V"; "CV"; "LOO"; "OP"].
Proof. intros k H C. unfold classes in H. cbn in *. intuition congruence. Qed.
Lemma asked_sel : forall k args, In k selections -> ~ asked k (filter keeps args).
Proof.
  intros k args Hk (a & H & E). apply filter_In in H as [_ H]. unfold keeps in H. rewrite E in H.
  assert (smem k ["V"; "CV"; "LOO"; "OP"] = true) as C by (apply smem_in; unfold selections in Hk; cbn in *; tauto). rewrite C in H. discriminate.
Qed.
Lemma valid_keeps : forall e args kw, at_most_one_of selections args -> valid_args e (filter keeps args) kw <-> valid_args e args kw.
Proof.
  intros e args kw HS. unfold valid_args, at_most_one_of in *. split; intros (V1 & V2 & V3 & V4 & V5).
  - split; [auto|]. split; [auto|]. split; [|split].
    + intros k k' H1 H2 A1 A2. apply V3; auto; apply asked_keeps; auto; now apply classes_other.
    + intros k H1 A1. apply (V4 k); auto. apply asked_keeps; auto. now apply classes_other.
    + intros A1. apply V5. apply asked_keeps; auto. cbn. intuition discriminate.
  - split; [auto|]. split; [|split; [|split]].
    + intros k k' H1 H2 A1 A2. exfalso. exact (asked_sel k args H1 A1).
    + intros k k' H1 H2 A1 A2. apply V3; auto; [rewrite <- (asked_keeps k args)|rewrite <- (asked_keeps k' args)]; auto; now apply classes_other.
    + intros k H1 A1. apply (V4 k); auto. rewrite <- (asked_keeps k args); auto. now apply classes_other.
    + intros A1. apply V5. rewrite <- (asked_keeps "WC" args); auto. cbn. intuition discriminate.
Qed.
Lemma last_class_keeps : forall args c, last_class (map upper (filter keeps args)) c = last_class (map upper args) c.
Proof.
  induction args as [|a r IH]; intros c; [reflexivity|]. cbn [filter map]. destruct (keeps a) eqn:E.
  - cbn [map]. unfold last_class. cbn [fold_left]. apply IH.
  - unfold keeps in E. apply Bool.negb_false_iff, smem_in in E. rewrite IH. unfold last_class. cbn [fold_left].
    destruct E as [<-|[<-|[<-|[<-|[]]]]]; reflexivity.
Qed.
Lemma parsed_keeps : forall e args kw, unrank (parsed e args kw) = parsed e (filter keeps args) kw.
Proof.
  intros e args kw. unfold parsed, unrank, with_op. cbn. rewrite last_class_keeps.
  assert (smem "OP" (map upper (filter keeps args)) = false) as ->.
  { destruct (smem "OP" _) eqn:S; [|reflexivity]. apply asked_smem in S as (a & H & E). apply filter_In in H as [_ H]. unfold keeps in H. rewrite E in H. discriminate. }
  assert (smem "WC" (map upper (filter keeps args)) = smem "WC" (map upper args)) as ->; [|reflexivity].
  apply Bool.eq_iff_eq_true. rewrite !asked_smem. apply asked_keeps. cbn. intuition discriminate.
Qed.

Lemma fill_unrank : forall e T rs, hp_fill_wc (unrank e) T rs = unrank (hp_fill_wc e T rs).
Proof. intros e T rs. unfold hp_fill_wc. change (is_wc (unrank e)) with (is_wc e). change (e_wc (unrank e)) with (e_wc e). destruct (is_wc e); [|reflexivity]. destruct (e_wc e); reflexivity. Qed.
Lemma batches_unrank : forall e parts s, add_batches (unrank e) s parts = add_batches e s parts.
Proof.
  intros e. induction parts as [|[X0 T0] r IH]; intros s; [reflexivity|]. cbn [add_batches].
  change (is_wc (unrank e)) with (is_wc e). change (e_wc (unrank e)) with (e_wc e).
  match goal with |- match ?p with _ => _ end = _ => destruct p as [wv|x] end; [|reflexivity].
  destruct (add_batch s X0 T0 wv) as [s1 [[]|x]]; [apply IH|reflexivity].
Qed.
Lemma add_unrank : forall e fX fT istart icount,
  hp_add_data (unrank e) fX fT istart icount None =
  (unrank (fst (fst (hp_add_data e fX fT istart icount None))), None, snd (hp_add_data e fX fT istart icount None)).
Proof.
  intros e fX fT istart icount. unfold hp_add_data. change (s_neurons (e_net (unrank e))) with (s_neurons (e_net e)).
  change (hp_check (unrank e) fX fT) with (hp_check e fX fT).
  destruct (s_neurons (e_net e)) as [|g l]; [reflexivity|]. destruct (hp_check e fX fT) as [[X T]|x]; [|reflexivity].
  change (e_batch (unrank e)) with (e_batch e). destruct (nbatches _ _) as [nb|x]; [|reflexivity].
  rewrite fill_unrank, batches_unrank. set (rs := ranges _ _ _ _). change (e_net (unrank (hp_fill_wc e T rs))) with (e_net (hp_fill_wc e T rs)).
  destruct (add_batches (hp_fill_wc e T rs) (e_net (hp_fill_wc e T rs)) (hp_batches X T rs)) as [s1 [[]|x]]; reflexivity.
Qed.

Theorem hp_train_plain : forall e fX fT args kw istart icount, at_most_one_of selections args ->
  let r := hp_train e fX fT args kw istart icount in
  let r' := hp_train e fX fT (filter keeps args) kw istart icount in
  snd r = snd r' /\ (snd r = Ok tt -> unrank (fst r) = fst r').
Proof.
  intros e fX fT args kw istart icount HS. cbv zeta. unfold hp_train. destruct (hp_check e fX fT) as [p|x]; [|split; [reflexivity|discriminate]].
  destruct (parse_result e args kw) as [P1 P2]. destruct (parse_result e (filter keeps args) kw) as [Q1 Q2].
  destruct (valid_dec e args kw) as [V|V].
  - rewrite (P1 V), (Q1 (proj2 (valid_keeps e args kw HS) V)). rewrite <- parsed_keeps, add_unrank.
    set (i0 := match istart with Some i => Z.max 0 i | None => 0%Z end).
    destruct (hp_add_data (parsed e args kw) fX fT i0 icount None) as [[e' fs'] [[]|x]]; cbn [fst snd]; [|split; [reflexivity|discriminate]].
    change (e_net (unrank e')) with (e_net e'). destruct (solve (e_net e')) as [s r]. split; reflexivity.
  - specialize (P2 V). specialize (Q2 (fun C => V (proj1 (valid_keeps e args kw HS) C))).
    destruct (parse_args e args kw) as [a ra]. destruct (parse_args e (filter keeps args) kw) as [b rb]. cbn [snd] in P2, Q2. subst. split; [reflexivity|discriminate].
Qed.
End HpPlain.
