(** Which calls leave neurons and settings alone. *)
From Verif Require Import Base Num Mat LinAlg Slfn Strs Elm Mrsr Search Mss Hpelm Forget.
Local Open Scope string_scope.
Local Open Scope list_scope.
Section F.
Context {K : Num} {SG : Sing} {BR : Brent} {SH : Shuffle}.
Definition same_net (s s' : slfn) : Prop := s_kind s' = s_kind s /\ s_inputs s' = s_inputs s /\ s_outputs s' = s_outputs s /\ s_norm s' = s_norm s /\ s_neurons s' = s_neurons s.
Lemma net_refl : forall s, same_net s s. Proof. unfold same_net. auto. Qed.
Lemma net_trans : forall a b c, same_net a b -> same_net b c -> same_net a c.
Proof. unfold same_net. intros a b c (A1 & A2 & A3 & A4 & A5) (B1 & B2 & B3 & B4 & B5). repeat split; congruence. Qed.
Lemma net_batch : forall s X T w, same_net s (fst (add_batch s X T w)).
Proof. intros s X T w. unfold add_batch. destruct (rbind (project s X) _) as [[H T']|]; [|apply net_refl]. destruct (if (length T' =? length H)%nat then _ else _); unfold same_net; repeat split. Qed.
Lemma net_batches : forall e parts s, same_net s (fst (add_batches e s parts)).
Proof.
  intros e. induction parts as [|[X0 T0] parts IH]; intros s; [apply net_refl|]. cbn [add_batches]. destruct (if is_wc e then _ else _) as [w|]; [|apply net_refl].
  pose proof (net_batch s X0 T0 w) as Q. destruct (add_batch s X0 T0 w) as [s1 [u|x]]; [|exact Q]. cbn [fst] in Q. eapply net_trans; [exact Q|apply IH].
Qed.
Lemma net_solve : forall s, same_net s (fst (solve s)).
Proof. intros s. unfold solve. destruct (s_HH s); [destruct (s_HT s)|]; unfold same_net; repeat split. Qed.
Lemma setup_net : forall e e1 s, e_batch e1 = e_batch e -> e_prec64 e1 = e_prec64 e -> e_accel e1 = e_accel e -> same_net (e_net e) s -> same_setup e (with_net e1 s).
Proof. intros e e1 s H1 H2 H3 (A1 & A2 & A3 & A4 & A5). unfold same_setup. cbn [with_net e_batch e_prec64 e_accel e_net]. auto 10. Qed.
Lemma setup_refl : forall e, same_setup e e.
Proof. unfold same_setup. auto 10. Qed.
Lemma setup_trans : forall a b c, same_setup a b -> same_setup b c -> same_setup a c.
Proof. unfold same_setup. intros a b c (A1 & A2 & A3 & A4 & A5 & A6 & A7 & A8) (B1 & B2 & B3 & B4 & B5 & B6 & B7 & B8). repeat split; congruence. Qed.
Ltac su := unfold same_setup; repeat split.
Lemma fill_setup : forall e T, same_setup e (fill_wc e T).
Proof. intros e T. unfold fill_wc. destruct (is_wc e); [destruct (e_wc e)|]; su. Qed.
Lemma setup_data : forall e X T, same_setup e (fst (add_data e X T)).
Proof.
  intros e X T. unfold add_data. destruct (nbatches _ _) as [nb|]; [|su]. pose proof (fill_setup e T) as Q. destruct (nb <=? 0)%Z; [exact Q|].
  destruct (array_split X _) as [xs|]; [|exact Q]. destruct (array_split T _) as [ts|]; [|exact Q]. pose proof (net_batches (fill_wc e T) (combine xs ts) (e_net (fill_wc e T))) as N. destruct (add_batches _ _ _) as [s r]. cbn [fst] in *.
  eapply setup_trans; [exact Q|]. apply setup_net; auto.
Qed.
Lemma setup_loop : forall kw args e, same_setup e (fst (parse_loop e kw args)).
Proof.
  intros kw. induction args as [|a args IH]; intros e; [su|]. cbn [parse_loop]. set (e1 := if a =? "OP" then _ else e).
  assert (same_setup e e1) as Q by (unfold e1; destruct (a =? "OP"); su).
  assert (forall e2, same_setup e1 e2 -> same_setup e (fst (parse_loop e2 kw args))) as G. { intros e2 H2. eapply setup_trans; [exact Q|]. eapply setup_trans; [exact H2|apply IH]. }
  destruct (a =? "C"); [destruct (1 <? _)%nat; [apply G; su|exact Q]|].
  destruct (a =? "WC"). { destruct (1 <? _)%nat; [|exact Q]. destruct (kw_w kw) as [w|]; [|apply G; su]. destruct (length w =? _)%nat; [apply G; su|exact Q]. }
  destruct (_ || _)%bool; [destruct (1 <? _)%nat; [apply G; su|exact Q]|]. destruct (a =? "R"); apply G; su.
Qed.
Lemma setup_parse : forall e args kw, kw_batch kw = None -> same_setup e (fst (parse_args e args kw)).
Proof.
  intros e args kw HB. unfold parse_args. destruct (s_neurons (e_net e)); [su|].
  set (e0 := with_wc _ None). assert (same_setup e e0) as Q by su. destruct (negb _); [exact Q|]. destruct (negb _); [exact Q|].
  pose proof (setup_loop kw (map upper args) e0) as P. destruct (parse_loop e0 kw (map upper args)) as [e2 [u|y]]; rewrite ?HB; cbn [fst] in *; exact (setup_trans _ _ _ Q P).
Qed.
(** training without model structure selection, whether it succeeds or not *)
Theorem setup_train : forall e X T args kw, kw_batch kw = None -> smem "V" args = false -> smem "CV" args = false -> smem "LOO" args = false ->
  same_setup e (fst (train e X T args kw)).
Proof.
  intros e X T args kw HB H1 H2 H3. unfold train. destruct (checkdata e X T) as [[x t]|]; [|su]. pose proof (setup_parse e args kw HB) as P. destruct (parse_args e args kw) as [e1 [u|y]]; [|exact P].
  rewrite H1, H2, H3. cbn [fst] in P. unfold train_basic. pose proof (setup_data e1 x t) as Q. destruct (add_data e1 x t) as [e2 [u'|y]]; cbn [fst] in Q; [|eapply setup_trans; eauto].
  pose proof (net_solve (e_net e2)) as N. destruct (solve (e_net e2)) as [s r]. cbn [fst done] in *. eapply setup_trans; [exact P|]. eapply setup_trans; [exact Q|]. apply setup_net; auto.
Qed.
Lemma hp_fill_setup : forall e T rs, same_setup e (hp_fill_wc e T rs).
Proof. intros e T rs. unfold hp_fill_wc. destruct (is_wc e); [destruct (e_wc e)|]; su. Qed.
Theorem setup_hp_train : forall e fX fT args kw istart icount, kw_batch kw = None -> same_setup e (fst (hp_train e fX fT args kw istart icount)).
Proof.
  intros e fX fT args kw istart icount HB. unfold hp_train. destruct (hp_check e fX fT) as [xt|]; [|su]. pose proof (setup_parse e args kw HB) as P. destruct (parse_args e args kw) as [e1 [u|y]]; [|exact P]. cbn [fst] in P.
  unfold hp_add_data. destruct (s_neurons (e_net e1)); [exact P|]. destruct (hp_check e1 fX fT) as [[X T]|]; [|exact P]. destruct (nbatches _ _) as [nb|]; [|exact P].
  set (rs := ranges _ _ _ _). pose proof (hp_fill_setup e1 T rs) as F. pose proof (net_batches (hp_fill_wc e1 T rs) (hp_batches X T rs) (e_net (hp_fill_wc e1 T rs))) as N.
  assert (forall s, same_net (e_net (hp_fill_wc e1 T rs)) s -> same_setup e (with_net (hp_fill_wc e1 T rs) s)) as G.
  { intros s Hs. eapply setup_trans; [exact P|]. eapply setup_trans; [exact F|]. apply setup_net; auto. }
  destruct (add_batches _ _ _) as [s1 [u'|y]]; cbn [fst] in N; [|now apply G]. cbn [e_net with_net]. pose proof (net_solve s1) as M. destruct (solve s1) as [s r]. cbn [fst] in *. apply (G s). eapply net_trans; eauto.
Qed.
(** A call that leaves neurons and settings alone *)
Inductive call := CTrain (X T : arr) (args : list string) (kw : kwargs) | CData (X T : mat).
Definition harmless (c : call) : Prop :=
  match c with
  | CTrain _ _ args kw => kw_batch kw = None /\ smem "V" args = false /\ smem "CV" args = false /\ smem "LOO" args = false
  | CData _ _ => True
  end.
Definition do_call (e : elm) (c : call) : elm := match c with CTrain X T args kw => fst (train e X T args kw) | CData X T => fst (add_data e X T) end.
Theorem train_after : forall cs e X T args kw, Forall harmless cs ->
  same_outcome (train e X T args kw) (train (fold_left do_call cs e) X T args kw).
Proof.
  intros cs e X T args kw H. apply train_forgets. revert e. induction H as [|c cs Hc H IH]; intros e; [su|]. cbn [fold_left]. eapply setup_trans; [|apply IH].
  destruct c as [X' T' args' kw'|X' T']; cbn [do_call]; [destruct Hc as (A & B & C & D); now apply setup_train|apply setup_data].
Qed.
End F.
