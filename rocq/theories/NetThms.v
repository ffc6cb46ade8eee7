(** Networks in which every queue has one writer and one reader are deterministic:
    all schedules have the same length and the same result. *)
From Verif Require Import Base Network.

Lemma upd_length : forall {A} (l : list A) i x, length (upd l i x) = length l.
Proof. intros A. induction l as [|y r IH]; intros [|i] x; cbn; auto. Qed.
Lemma nth_upd_same : forall {A} (l : list A) i x y, nth_error l i = Some y -> nth_error (upd l i x) i = Some x.
Proof. intros A. induction l as [|z r IH]; intros [|i] x y H; cbn in *; try discriminate; eauto. Qed.
Lemma nth_upd_other : forall {A} (l : list A) i j x, i <> j -> nth_error (upd l i x) j = nth_error l j.
Proof. intros A. induction l as [|z r IH]; intros [|i] [|j] x H; cbn in *; auto; congruence. Qed.
Lemma upd_comm : forall {A} (l : list A) i j x y, i <> j -> upd (upd l i x) j y = upd (upd l j y) i x.
Proof. intros A. induction l as [|z r IH]; intros [|i] [|j] x y H; cbn in *; auto; try congruence. f_equal. apply IH. congruence. Qed.
Lemma upd_upd : forall {A} (l : list A) i x y, upd (upd l i x) i y = upd l i y.
Proof. intros A. induction l as [|z r IH]; intros [|i] x y; cbn in *; auto. f_equal. apply IH. Qed.

Section Net.
Context {V S : Type} (N : net V S).
Context (one_writer : forall p s q v k, act N p s = Put q v k -> wr N q = p)
        (one_reader : forall p s q k, act N p s = Get q k -> rd N q = p).

Lemma flushed_spec : forall (c : cfg V S) p, flushed N c p = true <->
  forall q b pp, nth_error (queues c) q = Some (b, pp) -> wr N q = p -> b = [].
Proof.
  intros c p. unfold flushed. rewrite forallb_forall. split.
  - intros H q b pp E W. assert (In q (seq 0 (length (queues c)))) as Hin.
    { apply in_seq. split; [lia|]. cbn. apply nth_error_Some. congruence. }
    specialize (H q Hin). rewrite E in H. destruct b; auto. rewrite W, Nat.eqb_refl in H. discriminate.
  - intros H q _. destruct (nth_error (queues c) q) as [[[|x b] pp]|] eqn:E; auto.
    destruct (wr N q =? p)%nat eqn:W; auto. apply Nat.eqb_eq in W. specialize (H _ _ _ E W). discriminate.
Qed.

(** the three kinds of steps *)
Inductive stepk (c : cfg V S) : label -> cfg V S -> Prop :=
| KPut p s q v k b pp : nth_error (procs c) p = Some s -> act N p s = Put q v k -> nth_error (queues c) q = Some (b, pp) ->
    has_room (maxsize N q) (b, pp) = true -> stepk c (LProc p) (mkCfg (upd (procs c) p k) (upd (queues c) q (b ++ [v], pp)))
| KGet p s q v k b pp : nth_error (procs c) p = Some s -> act N p s = Get q k -> nth_error (queues c) q = Some (b, v :: pp) ->
    stepk c (LProc p) (mkCfg (upd (procs c) p (k v)) (upd (queues c) q (b, pp)))
| KJoin p s p' s' k : nth_error (procs c) p = Some s -> act N p s = Join p' k -> nth_error (procs c) p' = Some s' ->
    act N p' s' = Stop -> flushed N c p' = true -> stepk c (LProc p) (mkCfg (upd (procs c) p k) (queues c))
| KFeed q v b pp : nth_error (queues c) q = Some (v :: b, pp) -> (length pp < pcap N q)%nat ->
    stepk c (LFeed q) (mkCfg (procs c) (upd (queues c) q (b, pp ++ [v]))).

Lemma fire_step : forall c l c', fire N l c = Some c' <-> stepk c l c'.
Proof.
  intros c l c'. split.
  - intros H. destruct l as [p|q]; cbn [fire] in H.
    + destruct (nth_error (procs c) p) as [s|] eqn:Es; [|discriminate]. destruct (act N p s) as [|q v k|q k|p' k] eqn:Ea; [discriminate| | |].
      * destruct (nth_error (queues c) q) as [[b pp]|] eqn:Eq; [|discriminate]. destruct (has_room _ _) eqn:Er; [|discriminate].
        injection H as <-. eapply KPut; eauto.
      * destruct (nth_error (queues c) q) as [[b [|v pp]]|] eqn:Eq; try discriminate. injection H as <-. eapply KGet; eauto.
      * destruct (nth_error (procs c) p') as [s'|] eqn:Ep; [|discriminate]. destruct (is_stop (act N p' s')) eqn:E1; [|discriminate].
        destruct (flushed N c p') eqn:E2; [|discriminate]. injection H as <-. eapply KJoin; eauto. destruct (act N p' s'); auto; discriminate.
    + destruct (nth_error (queues c) q) as [[[|v b] pp]|] eqn:Eq; try discriminate. destruct (_ <? _)%nat eqn:E; [|discriminate].
      injection H as <-. apply Nat.ltb_lt in E. eapply KFeed; eauto.
  - intros H. destruct H as [p s q v k b pp H1 H2 H3 H4|p s q v k b pp H1 H2 H3|p s p' s' k H1 H2 H3 H4 H5|q v b pp H1 H2]; cbn [fire].
    + now rewrite H1, H2, H3, H4.
    + now rewrite H1, H2, H3.
    + rewrite H1, H2, H3, H4, H5. reflexivity.
    + rewrite H1. apply Nat.ltb_lt in H2. now rewrite H2.
Qed.

Lemma room_less : forall m (b b' : list V) (pp pp' : list V), (length b' + length pp' <= length b + length pp)%nat ->
  has_room m (b, pp) = true -> has_room m (b', pp') = true.
Proof. intros [k|] b b' pp pp' H; unfold has_room; cbn [fst snd]; auto. rewrite !Nat.ltb_lt. lia. Qed.

Lemma stepk_eq : forall c l d d', stepk c l d -> d = d' -> stepk c l d'.
Proof. intros c l d d' H <-. exact H. Qed.

Ltac lk := cbn [procs queues];
  first [eassumption
        | rewrite nth_upd_other by (auto; congruence); eassumption
        | erewrite nth_upd_same by eassumption; reflexivity ].
Ltac fin := cbn [procs queues]; rewrite ?upd_upd; f_equal; try reflexivity; try (apply upd_comm; congruence).
Ltac room H := eapply room_less; [|exact H]; rewrite ?app_length; cbn; lia.

(** steps of different processes / feeder threads do not disturb each other *)
Lemma flush_put : forall c p' q x, flushed N c p' = true -> wr N q <> p' -> forall ps,
  flushed N (mkCfg ps (upd (queues c) q x)) p' = true.
Proof.
  intros c p' q x H W ps. apply flushed_spec. cbn [queues]. intros q1 b1 pp1 E W1. destruct (Nat.eq_dec q q1) as [<-|Hq]; [congruence|].
  rewrite nth_upd_other in E by auto. eapply (proj1 (flushed_spec _ _) H); eauto.
Qed.
Lemma flush_get : forall c p' q b pp pp', flushed N c p' = true -> nth_error (queues c) q = Some (b, pp) -> forall ps,
  flushed N (mkCfg ps (upd (queues c) q (b, pp'))) p' = true.
Proof.
  intros c p' q b pp pp' H HQ ps. apply flushed_spec. cbn [queues]. intros q1 b1 pp1 E W1. destruct (Nat.eq_dec q q1) as [<-|Hq].
  - rewrite (nth_upd_same _ _ _ _ HQ) in E. injection E as <- <-. eapply (proj1 (flushed_spec _ _) H); eauto.
  - rewrite nth_upd_other in E by auto. eapply (proj1 (flushed_spec _ _) H); eauto.
Qed.
Lemma flush_feed : forall c p' q v b pp x, flushed N c p' = true -> nth_error (queues c) q = Some (v :: b, pp) -> forall ps,
  flushed N (mkCfg ps (upd (queues c) q x)) p' = true.
Proof.
  intros c p' q v b pp x H HQ ps. apply flush_put; auto. intros W.
  pose proof (proj1 (flushed_spec _ _) H _ _ _ HQ W). discriminate.
Qed.
Lemma flush_same : forall c p' ps, flushed N c p' = true -> flushed N (mkCfg ps (queues c)) p' = true.
Proof. intros c p' ps H. exact H. Qed.

(** half of the diamond, for the ordered pairs put < get < join < feed *)
Lemma dia_put_put : forall c p s q v k b pp p0 s0 q0 v0 k0 b0 pp0,
  nth_error (procs c) p = Some s -> act N p s = Put q v k -> nth_error (queues c) q = Some (b, pp) -> has_room (maxsize N q) (b, pp) = true ->
  nth_error (procs c) p0 = Some s0 -> act N p0 s0 = Put q0 v0 k0 -> nth_error (queues c) q0 = Some (b0, pp0) -> has_room (maxsize N q0) (b0, pp0) = true ->
  p <> p0 -> exists d,
  stepk (mkCfg (upd (procs c) p k) (upd (queues c) q (b ++ [v], pp))) (LProc p0) d /\
  stepk (mkCfg (upd (procs c) p0 k0) (upd (queues c) q0 (b0 ++ [v0], pp0))) (LProc p) d.
Proof.
  intros * A1 A2 A3 A4 B1 B2 B3 B4 Hp.
  assert (q <> q0) as Hq. { intros <-. apply one_writer in A2, B2. congruence. }
  eexists. split; [eapply KPut; lk|]. eapply stepk_eq; [eapply KPut; lk|]. fin.
Qed.
Lemma dia_put_get : forall c p s q v k b pp p0 s0 q0 v0 k0 b0 pp0,
  nth_error (procs c) p = Some s -> act N p s = Put q v k -> nth_error (queues c) q = Some (b, pp) -> has_room (maxsize N q) (b, pp) = true ->
  nth_error (procs c) p0 = Some s0 -> act N p0 s0 = Get q0 k0 -> nth_error (queues c) q0 = Some (b0, v0 :: pp0) ->
  p <> p0 -> exists d,
  stepk (mkCfg (upd (procs c) p k) (upd (queues c) q (b ++ [v], pp))) (LProc p0) d /\
  stepk (mkCfg (upd (procs c) p0 (k0 v0)) (upd (queues c) q0 (b0, pp0))) (LProc p) d.
Proof.
  intros * A1 A2 A3 A4 B1 B2 B3 Hp. destruct (Nat.eq_dec q q0) as [<-|Hq].
  - rewrite A3 in B3. injection B3 as <- ->. eexists. split; [eapply KGet; lk|].
    eapply stepk_eq; [eapply KPut; [lk|lk|lk|room A4]|]. fin.
  - eexists. split; [eapply KGet; lk|]. eapply stepk_eq; [eapply KPut; lk|]. fin.
Qed.
Lemma dia_put_join : forall c p s q v k b pp p0 s0 p0' s0' k0,
  nth_error (procs c) p = Some s -> act N p s = Put q v k -> nth_error (queues c) q = Some (b, pp) -> has_room (maxsize N q) (b, pp) = true ->
  nth_error (procs c) p0 = Some s0 -> act N p0 s0 = Join p0' k0 -> nth_error (procs c) p0' = Some s0' -> act N p0' s0' = Stop -> flushed N c p0' = true ->
  p <> p0 -> exists d,
  stepk (mkCfg (upd (procs c) p k) (upd (queues c) q (b ++ [v], pp))) (LProc p0) d /\
  stepk (mkCfg (upd (procs c) p0 k0) (queues c)) (LProc p) d.
Proof.
  intros * A1 A2 A3 A4 B1 B2 B3 B4 B5 Hp. assert (p <> p0') as Hp' by (intros <-; congruence).
  eexists. split; [eapply KJoin; [lk|lk|lk|lk|]|].
  - apply flush_put; auto. rewrite (one_writer _ _ _ _ _ A2). exact Hp'.
  - eapply stepk_eq; [eapply KPut; lk|]. fin.
Qed.
Lemma dia_put_feed : forall c p s q v k b pp q0 v0 b0 pp0,
  nth_error (procs c) p = Some s -> act N p s = Put q v k -> nth_error (queues c) q = Some (b, pp) -> has_room (maxsize N q) (b, pp) = true ->
  nth_error (queues c) q0 = Some (v0 :: b0, pp0) -> (length pp0 < pcap N q0)%nat -> exists d,
  stepk (mkCfg (upd (procs c) p k) (upd (queues c) q (b ++ [v], pp))) (LFeed q0) d /\
  stepk (mkCfg (procs c) (upd (queues c) q0 (b0, pp0 ++ [v0]))) (LProc p) d.
Proof.
  intros * A1 A2 A3 A4 B1 B2. destruct (Nat.eq_dec q q0) as [<-|Hq].
  - rewrite A3 in B1. injection B1 as -> <-. eexists. split; [eapply KFeed; [lk|exact B2]|].
    eapply stepk_eq; [eapply KPut; [lk|lk|lk|room A4]|]. fin.
  - eexists. split; [eapply KFeed; lk|]. eapply stepk_eq; [eapply KPut; lk|]. fin.
Qed.
Lemma dia_get_get : forall c p s q v k b pp p0 s0 q0 v0 k0 b0 pp0,
  nth_error (procs c) p = Some s -> act N p s = Get q k -> nth_error (queues c) q = Some (b, v :: pp) ->
  nth_error (procs c) p0 = Some s0 -> act N p0 s0 = Get q0 k0 -> nth_error (queues c) q0 = Some (b0, v0 :: pp0) ->
  p <> p0 -> exists d,
  stepk (mkCfg (upd (procs c) p (k v)) (upd (queues c) q (b, pp))) (LProc p0) d /\
  stepk (mkCfg (upd (procs c) p0 (k0 v0)) (upd (queues c) q0 (b0, pp0))) (LProc p) d.
Proof.
  intros * A1 A2 A3 B1 B2 B3 Hp. assert (q <> q0) as Hq. { intros <-. apply one_reader in A2, B2. congruence. }
  eexists. split; [eapply KGet; lk|]. eapply stepk_eq; [eapply KGet; lk|]. fin.
Qed.
Lemma dia_get_join : forall c p s q v k b pp p0 s0 p0' s0' k0,
  nth_error (procs c) p = Some s -> act N p s = Get q k -> nth_error (queues c) q = Some (b, v :: pp) ->
  nth_error (procs c) p0 = Some s0 -> act N p0 s0 = Join p0' k0 -> nth_error (procs c) p0' = Some s0' -> act N p0' s0' = Stop -> flushed N c p0' = true ->
  p <> p0 -> exists d,
  stepk (mkCfg (upd (procs c) p (k v)) (upd (queues c) q (b, pp))) (LProc p0) d /\
  stepk (mkCfg (upd (procs c) p0 k0) (queues c)) (LProc p) d.
Proof.
  intros * A1 A2 A3 B1 B2 B3 B4 B5 Hp. assert (p <> p0') as Hp' by (intros <-; congruence).
  eexists. split; [eapply KJoin; [lk|lk|lk|lk|]|].
  - eapply flush_get; eauto.
  - eapply stepk_eq; [eapply KGet; lk|]. fin.
Qed.
Lemma dia_get_feed : forall c p s q v k b pp q0 v0 b0 pp0,
  nth_error (procs c) p = Some s -> act N p s = Get q k -> nth_error (queues c) q = Some (b, v :: pp) ->
  nth_error (queues c) q0 = Some (v0 :: b0, pp0) -> (length pp0 < pcap N q0)%nat -> exists d,
  stepk (mkCfg (upd (procs c) p (k v)) (upd (queues c) q (b, pp))) (LFeed q0) d /\
  stepk (mkCfg (procs c) (upd (queues c) q0 (b0, pp0 ++ [v0]))) (LProc p) d.
Proof.
  intros * A1 A2 A3 B1 B2. destruct (Nat.eq_dec q q0) as [<-|Hq].
  - rewrite A3 in B1. injection B1 as -> <-. eexists. split; [eapply KFeed; [lk|cbn in B2; lia]|].
    eapply stepk_eq; [eapply KGet; lk|]. fin.
  - eexists. split; [eapply KFeed; lk|]. eapply stepk_eq; [eapply KGet; lk|]. fin.
Qed.
Lemma dia_join_join : forall c p s p' s' k p0 s0 p0' s0' k0,
  nth_error (procs c) p = Some s -> act N p s = Join p' k -> nth_error (procs c) p' = Some s' -> act N p' s' = Stop -> flushed N c p' = true ->
  nth_error (procs c) p0 = Some s0 -> act N p0 s0 = Join p0' k0 -> nth_error (procs c) p0' = Some s0' -> act N p0' s0' = Stop -> flushed N c p0' = true ->
  p <> p0 -> exists d,
  stepk (mkCfg (upd (procs c) p k) (queues c)) (LProc p0) d /\
  stepk (mkCfg (upd (procs c) p0 k0) (queues c)) (LProc p) d.
Proof.
  intros * A1 A2 A3 A4 A5 B1 B2 B3 B4 B5 Hp.
  assert (p0 <> p') as Hp' by (intros <-; congruence). assert (p <> p0') as Hp2 by (intros <-; congruence).
  eexists. split; [eapply KJoin; lk|]. eapply stepk_eq; [eapply KJoin; lk|]. fin.
Qed.
Lemma dia_join_feed : forall c p s p' s' k q0 v0 b0 pp0,
  nth_error (procs c) p = Some s -> act N p s = Join p' k -> nth_error (procs c) p' = Some s' -> act N p' s' = Stop -> flushed N c p' = true ->
  nth_error (queues c) q0 = Some (v0 :: b0, pp0) -> (length pp0 < pcap N q0)%nat -> exists d,
  stepk (mkCfg (upd (procs c) p k) (queues c)) (LFeed q0) d /\
  stepk (mkCfg (procs c) (upd (queues c) q0 (b0, pp0 ++ [v0]))) (LProc p) d.
Proof.
  intros * A1 A2 A3 A4 A5 B1 B2. eexists. split; [eapply KFeed; lk|].
  eapply stepk_eq; [eapply KJoin; [lk|lk|lk|lk|eapply flush_feed; eauto]|]. fin.
Qed.
Lemma dia_feed_feed : forall c q v b pp q0 v0 b0 pp0,
  nth_error (queues c) q = Some (v :: b, pp) -> (length pp < pcap N q)%nat ->
  nth_error (queues c) q0 = Some (v0 :: b0, pp0) -> (length pp0 < pcap N q0)%nat -> q <> q0 -> exists d,
  stepk (mkCfg (procs c) (upd (queues c) q (b, pp ++ [v]))) (LFeed q0) d /\
  stepk (mkCfg (procs c) (upd (queues c) q0 (b0, pp0 ++ [v0]))) (LFeed q) d.
Proof.
  intros * A1 A2 B1 B2 Hq. eexists. split; [eapply KFeed; lk|]. eapply stepk_eq; [eapply KFeed; lk|]. fin.
Qed.

Lemma ex_swap : forall {A} (P Q : A -> Prop), (exists d, P d /\ Q d) -> exists d, Q d /\ P d.
Proof. intros A P Q (d & H & H'). eauto. Qed.

Lemma stepk_frame : forall c l c1, stepk c l c1 -> forall l2 c2, stepk c l2 c2 -> l <> l2 ->
  exists d, stepk c1 l2 d /\ stepk c2 l d.
Proof.
  intros c l c1 H l2 c2 H2 Hne.
  destruct H as [p s q v k b pp A1 A2 A3 A4|p s q v k b pp A1 A2 A3|p s p' s' k A1 A2 A3 A4 A5|q v b pp A1 A2];
  destruct H2 as [p0 s0 q0 v0 k0 b0 pp0 B1 B2 B3 B4|p0 s0 q0 v0 k0 b0 pp0 B1 B2 B3|p0 s0 p0' s0' k0 B1 B2 B3 B4 B5|q0 v0 b0 pp0 B1 B2].
  - eapply dia_put_put; eauto; congruence.
  - eapply dia_put_get; eauto; congruence.
  - eapply dia_put_join; eauto; congruence.
  - eapply dia_put_feed; eauto; congruence.
  - apply ex_swap. eapply dia_put_get; eauto; congruence.
  - eapply dia_get_get; eauto; congruence.
  - eapply dia_get_join; eauto; congruence.
  - eapply dia_get_feed; eauto; congruence.
  - apply ex_swap. eapply dia_put_join; eauto; congruence.
  - apply ex_swap. eapply dia_get_join; eauto; congruence.
  - eapply dia_join_join; eauto; congruence.
  - eapply dia_join_feed; eauto; congruence.
  - apply ex_swap. eapply dia_put_feed; eauto; congruence.
  - apply ex_swap. eapply dia_get_feed; eauto; congruence.
  - apply ex_swap. eapply dia_join_feed; eauto; congruence.
  - eapply dia_feed_feed; eauto; congruence.
Qed.

Lemma label_dec : forall a b : label, {a = b} + {a <> b}.
Proof. decide equality; apply Nat.eq_dec. Qed.

Theorem diamond : forall c l1 c1 l2 c2, fire N l1 c = Some c1 -> fire N l2 c = Some c2 -> l1 <> l2 ->
  exists d, fire N l2 c1 = Some d /\ fire N l1 c2 = Some d.
Proof.
  intros c l1 c1 l2 c2 H1 H2 Hne. apply fire_step in H1, H2. destruct (stepk_frame _ _ _ H1 _ _ H2 Hne) as (d & A & B).
  exists d. split; now apply fire_step.
Qed.

(** any first step can be followed by a run of the remaining length to the same end *)
Lemma descend : forall ls c f l c', exec N c ls = Some f -> stuck N f -> fire N l c = Some c' ->
  exists ls', exec N c' ls' = Some f /\ length ls = (1 + length ls')%nat.
Proof.
  induction ls as [|a r IH]; intros c f l c' HE HS HF; cbn [exec] in HE.
  - injection HE as <-. rewrite (HS l) in HF. discriminate.
  - destruct (fire N a c) as [ca|] eqn:Ea; [|discriminate]. destruct (label_dec a l) as [<-|Hne].
    + assert (ca = c') by congruence. subst. exists r. split; auto.
    + destruct (diamond c a ca l c' Ea HF Hne) as (d & D1 & D2).
      destruct (IH ca f l d HE HS D1) as (ls' & E' & L). exists (a :: ls'). cbn [exec length]. rewrite D2. split; auto.
Qed.

Theorem all_runs_of_one : forall c ls f (P : cfg V S -> Prop), exec N c ls = Some f -> stuck N f -> P f -> all_runs N c P.
Proof.
  intros c ls f P HE HS HP.
  assert (Q : forall ks c c', exec N c ks = Some c' -> forall ls, exec N c ls = Some f ->
    exists rest, exec N c' rest = Some f /\ length ls = (length ks + length rest)%nat).
  { clear c ls HE. induction ks as [|k r IH]; intros c c' E ls HE; cbn [exec] in E.
    - injection E as <-. exists ls. auto.
    - destruct (fire N k c) as [ck|] eqn:Ek; [|discriminate].
      destruct (descend ls c f k ck HE HS Ek) as (ls' & E' & L).
      destruct (IH ck c' E ls' E') as (rest & R1 & R2). exists rest. cbn. split; auto. lia. }
  split.
  - exists (length ls). intros ks c' E. destruct (Q ks c c' E ls HE) as (rest & _ & L). lia.
  - intros ks c' E Hs. destruct (Q ks c c' E ls HE) as (rest & R & _). destruct rest as [|a r]; cbn [exec] in R.
    + injection R as ->. exact HP.
    + rewrite (Hs a) in R. discriminate.
Qed.

Lemma exec_app : forall a c b, exec N c (a ++ b) = match exec N c a with Some c' => exec N c' b | None => None end.
Proof. induction a as [|l r IH]; intros c b; cbn [app exec]; auto. destruct (fire N l c); auto. Qed.
End Net.
