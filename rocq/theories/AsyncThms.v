(** The asynchronous methods compute what the synchronous ones compute, for every
    schedule (C23, C24, C25). *)
From Verif Require Import Base Num Mat LinAlg Slfn Strs Elm Hpelm Network Async NetThms MatFacts SplitProofs Spec ElmFacts WfProofs RangeThms.

Lemma ceil_lt : forall n b k, (0 < b)%Z -> (k < ceil_div n b)%Z -> (k * b < n)%Z.
Proof.
  intros n b k Hb H. unfold ceil_div in H. pose proof (Z.mul_div_le (- n) b Hb).
  pose proof (Z.mod_pos_bound (- n) b Hb). pose proof (Z.div_mod (- n) b ltac:(lia)). nia.
Qed.
Lemma ceil_ge : forall n b, (0 < b)%Z -> (n <= ceil_div n b * b)%Z.
Proof. intros n b Hb. unfold ceil_div. pose proof (Z.mul_div_le (- n) b Hb). nia. Qed.

Section AsyncThms.
Context {K : Num} {SG : Sing}.

Section Add.
Context (e : elm) (X T : mat) (batch istart cnt nb : Z) (pc : nat -> nat).
Context (Hb : (0 < batch)%Z) (Hnb : nb = ceil_div cnt batch) (Hpc : forall q, (0 <? pc q)%nat = true).
Local Notation N := (add_net e X T batch istart cnt nb pc).
Local Notation rq := (req batch istart cnt).
Local Notation sl := (fun M b => slice M (fst (bounds batch istart cnt b)) (snd (bounds batch istart cnt b))).

Lemma a_writer : forall p s q v k, act N p s = Put q v k -> wr N q = p.
Proof.
  intros [|[|[|p]]] [r|w|m|m] q v k H; cbn in H; try discriminate.
  - destruct m; try discriminate; injection H as <- _ _; reflexivity.
  - destruct r; try discriminate; injection H as <- _ _; reflexivity.
  - destruct r; try discriminate; injection H as <- _ _; reflexivity.
Qed.
Lemma a_reader : forall p s q k, act N p s = Get q k -> rd N q = p.
Proof.
  intros [|[|[|p]]] [r|w|m|m] q k H; cbn in H; try discriminate.
  - destruct m; try discriminate; injection H as <- _; reflexivity.
  - destruct r; try discriminate; injection H as <- _; reflexivity.
  - destruct r; try discriminate; injection H as <- _; reflexivity.
Qed.

Lemma req_chunk : forall b, (0 <= b < nb)%Z -> forall M, reader_got M (rq b) = SR (RPut (sl M b)).
Proof.
  intros b H M. unfold req, bounds, reader_got. cbn [fst snd]. destruct (Z.leb_spec (Z.min ((b + 1) * batch + istart) (cnt + istart)) (b * batch + istart)) as [L|L]; [|reflexivity].
  exfalso. pose proof (ceil_lt cnt batch b Hb ltac:(lia)). nia.
Qed.
Lemma req_last : forall M, reader_got M (rq nb) = SR RStop.
Proof.
  intros M. unfold req, bounds, reader_got. destruct (Z.leb_spec (Z.min ((nb + 1) * batch + istart) (cnt + istart)) (nb * batch + istart)) as [L|L]; [reflexivity|].
  exfalso. pose proof (ceil_ge cnt batch Hb). rewrite <- Hnb in *. lia.
Qed.

Definition outcome (r : slfn * res unit) : amain := match r with (s, Ok _) => ADone s | (s, Err x) => ARaised s x end.
Definition after (b : Z) (m : amain) : cfg value pstate :=
  mkCfg [SA m; SR RWait; SR RWait] [([], [rq b]); ([], []); ([], [rq b]); ([], [])].

Ltac ex := cbn [exec fire procs queues nth_error act add_net a_act a_main reader_act has_room maxsize upd length app fst snd pcap];
  rewrite ?Hpc; change (0 + 0 <? 1)%nat with true; cbn [exec fire procs queues nth_error act add_net a_act a_main reader_act has_room maxsize upd length app fst snd pcap].

Lemma a_start : (0 <= nb)%Z -> exec N (add_cfg e nb RWait RWait) [LProc 0; LProc 0; LFeed 0; LFeed 2] = Some (after 0 (a_next nb 0 (e_net e))).
Proof.
  intros H. unfold add_cfg. destruct (Z.leb_spec 0 nb) as [_|L]; [|lia]. do 5 ex. reflexivity.
Qed.

Lemma a_iter : forall b s, (0 <= b < nb)%Z ->
  exec N (after b (APutX (b + 1) s)) [LProc 0; LProc 0; LProc 1; LProc 1; LFeed 1; LProc 2; LProc 2; LFeed 3; LProc 0; LProc 0; LFeed 0; LFeed 2] =
  Some (after (b + 1) (match add_batches e s [(sl X b, sl T b)] with (s', Ok _) => a_next nb (b + 1) s' | (s', Err x) => ARaised s' x end)).
Proof.
  intros b s H. unfold after. repeat (progress (ex; rewrite ?req_chunk by lia)).
  destruct (Z.ltb_spec 0 (b + 1)) as [_|L]; [|lia]. repeat (progress (ex; rewrite ?req_chunk by lia)).
  destruct (add_batches e s [(sl X b, sl T b)]) as [s' [u|x]]; reflexivity.
Qed.

Lemma stuck_of : forall (c : cfg value pstate), (forall p, (p < 3)%nat -> fire N (LProc p) c = None) -> (forall q, (q < 4)%nat -> fire N (LFeed q) c = None) ->
  length (procs c) = 3%nat -> length (queues c) = 4%nat -> stuck N c.
Proof.
  intros c HP HQ LP LQ [p|q].
  - destruct (Nat.lt_ge_cases p 3); auto. cbn [fire]. replace (nth_error (procs c) p) with (@None pstate); [reflexivity|]. symmetry. apply nth_error_None. lia.
  - destruct (Nat.lt_ge_cases q 4); auto. cbn [fire]. replace (nth_error (queues c) q) with (@None (list value * list value)); [reflexivity|]. symmetry. apply nth_error_None. lia.
Qed.
Ltac stk := apply stuck_of; [intros [|[|[|p]]] Hp; [reflexivity..|lia]|intros [|[|[|[|q]]]] Hq; [reflexivity..|lia]|reflexivity|reflexivity].

Lemma a_end : forall s, exists ls f, exec N (after nb (AJoinX s)) ls = Some f /\ stuck N f /\ hd_error (procs f) = Some (SA (ADone s)).
Proof.
  intros s. exists [LProc 1; LProc 2; LProc 0; LProc 0]. eexists. split.
  - unfold after. repeat (progress (ex; rewrite ?req_last)). reflexivity.
  - split; [stk|reflexivity].
Qed.
Lemma a_fail : forall b s x, (0 <= b <= nb)%Z -> exists ls f, exec N (after b (ARaised s x)) ls = Some f /\ stuck N f /\ hd_error (procs f) = Some (SA (ARaised s x)).
Proof.
  intros b s x H. destruct (Z.eq_dec b nb) as [->|Hne].
  - exists [LProc 1; LProc 2]. eexists. split; [unfold after; repeat (progress (ex; rewrite ?req_last)); reflexivity|]. split; [stk|reflexivity].
  - exists [LProc 1; LProc 1; LFeed 1; LProc 2; LProc 2; LFeed 3]. eexists. split.
    + unfold after. repeat (progress (ex; rewrite ?req_chunk by lia)). reflexivity.
    + split; [stk|reflexivity].
Qed.

Lemma add_batches_cons : forall s X0 T0 r, add_batches e s ((X0, T0) :: r) =
  match add_batches e s [(X0, T0)] with (s', Ok _) => add_batches e s' r | (s', Err x) => (s', Err x) end.
Proof.
  intros s X0 T0 r. cbn [add_batches]. match goal with |- match ?w with Ok _ => _ | Err _ => _ end = _ => destruct w as [wv|x]; [|reflexivity] end.
  destruct (add_batch s X0 T0 wv) as [s' [u|x]]; reflexivity.
Qed.

Lemma a_run : forall m k s, (Z.of_nat k + Z.of_nat m = nb)%Z -> exists ls f,
  exec N (after (Z.of_nat k) (a_next nb (Z.of_nat k) s)) ls = Some f /\ stuck N f /\
  hd_error (procs f) = Some (SA (outcome (add_batches e s (hp_batches X T (map (bounds batch istart cnt) (map Z.of_nat (seq k m))))))).
Proof.
  induction m as [|m IH]; intros k s H.
  - assert (Z.of_nat k = nb) as E by lia. rewrite E. unfold a_next. destruct (Z.leb_spec (nb + 1) nb) as [L|_]; [lia|]. exact (a_end s).
  - unfold a_next. destruct (Z.leb_spec (Z.of_nat k + 1) nb) as [_|L]; [|lia].
    pose proof (a_iter (Z.of_nat k) s ltac:(lia)) as I. cbn [seq map hp_batches]. unfold hp_batches in IH |- *. cbn [map].
    rewrite add_batches_cons.
    destruct (add_batches e s [(sl X (Z.of_nat k), sl T (Z.of_nat k))]) as [s' [u|x]] eqn:EB.
    + replace (Z.of_nat k + 1)%Z with (Z.of_nat (S k)) in * by lia.
      destruct (IH (S k) s' ltac:(lia)) as (ls & f & E1 & E2 & E3).
      eexists (_ ++ ls), f. rewrite exec_app, I. auto.
    + destruct (a_fail (Z.of_nat k + 1) s' x ltac:(lia)) as (ls & f & E1 & E2 & E3).
      eexists (_ ++ ls), f. rewrite exec_app, I. auto.
Qed.

Theorem a_all_runs : (0 <= nb)%Z ->
  all_runs N (add_cfg e nb RWait RWait)
    (fun c => hd_error (procs c) = Some (SA (outcome (add_batches e (e_net e) (hp_batches X T (ranges batch istart cnt nb)))))).
Proof.
  intros H. destruct (a_run (Z.to_nat nb) 0 (e_net e) ltac:(lia)) as (ls & f & E1 & E2 & E3).
  eapply (all_runs_of_one N a_writer a_reader); [|exact E2|exact E3].
  instantiate (1 := [LProc 0; LProc 0; LFeed 0; LFeed 2] ++ ls). rewrite exec_app, (a_start H). exact E1.
Qed.

(** *** with readers that died at the start *)
Definition reach (c : cfg value pstate) (P : cfg value pstate -> Prop) : Prop := exists ls f, exec N c ls = Some f /\ stuck N f /\ P f.
Lemma reach_step : forall l c c' (P : cfg value pstate -> Prop), fire N l c = Some c' -> reach c' P -> reach c P.
Proof. intros l c c' P E (ls & f & H1 & H2 & H3). exists (l :: ls), f. split; [|auto]. cbn [exec]. now rewrite E. Qed.
Lemma reach_stop : forall c (P : cfg value pstate -> Prop), stuck N c -> P c -> reach c P.
Proof. intros c P H1 H2. exists [], c. auto. Qed.
Lemma reach_all : forall c (P : cfg value pstate -> Prop), reach c P -> all_runs N c P.
Proof. intros c P (ls & f & H1 & H2 & H3). exact (all_runs_of_one N a_writer a_reader c ls f P H1 H2 H3). Qed.

Lemma req_last1 : forall M b, b = nb -> reader_got M (rq b) = SR RStop.
Proof. intros M b ->. apply req_last. Qed.
Ltac fl E0 E2 := repeat (progress (cbn [fire procs queues nth_error act add_net a_act a_main reader_act has_room maxsize upd length app fst snd pcap is_stop flushed wr forallb seq andb];
  rewrite ?Hpc, ?E0, ?E2; change (0 + 0 <? 1)%nat with true; change (1 + 0 <? 1)%nat with false; change (0 + 1 <? 1)%nat with false;
  change (0 <? 0)%Z with false; change (0 <? 1)%Z with true; rewrite ?req_last1, ?req_chunk by lia; cbn iota)).
Ltac go E0 E2 l := eapply (reach_step l); [solve [fl E0 E2; reflexivity]|].

Theorem a_dead : forall rX rT, (rX = RWait \/ rX = RStop) -> (rT = RWait \/ rT = RStop) -> (rX = RStop \/ rT = RStop) -> (0 < nb)%Z ->
  all_runs N (add_cfg e nb rX rT) (fun c => exists m, hd_error (procs c) = Some (SA m) /\ (m = AGetX 1 (e_net e) \/ exists Xb, m = AGetT 1 (e_net e) Xb)).
Proof.
  intros rX rT HX HT HD H. apply reach_all. unfold add_cfg. destruct (Z.leb_spec 0 nb) as [_|L]; [|lia].
  destruct (1 <? pc 0)%nat eqn:E0, (1 <? pc 2)%nat eqn:E2; destruct (Z.eq_dec nb 1) as [E1|E1].
  all: assert (a_next nb 0 (e_net e) = APutX 1 (e_net e)) as EA by (unfold a_next; destruct (Z.leb_spec (0 + 1) nb) as [_|L]; [reflexivity|lia]).
  all: destruct HX as [-> | ->], HT as [-> | ->]; try (destruct HD; discriminate).
  all: do 2 go E0 E2 (LProc 0); go E0 E2 (LFeed 0); go E0 E2 (LFeed 2); rewrite ?EA; do 2 go E0 E2 (LProc 0).
  all: repeat first [go E0 E2 (LProc 0)|go E0 E2 (LProc 1)|go E0 E2 (LProc 2)|go E0 E2 (LFeed 0)|go E0 E2 (LFeed 1)|go E0 E2 (LFeed 2)|go E0 E2 (LFeed 3)].
  all: apply reach_stop; [apply stuck_of; [intros [|[|[|p]]] Hp; [..|lia]; fl E0 E2; reflexivity|intros [|[|[|[|q]]]] Hq; [..|lia]; fl E0 E2; reflexivity|reflexivity|reflexivity]|].
  all: eexists; split; [reflexivity|]; eauto.
Qed.

Ltac drive E0 E2 := repeat first [go E0 E2 (LProc 0)|go E0 E2 (LProc 1)|go E0 E2 (LProc 2)|go E0 E2 (LFeed 0)|go E0 E2 (LFeed 1)|go E0 E2 (LFeed 2)|go E0 E2 (LFeed 3)];
  apply reach_stop; [apply stuck_of; [intros [|[|[|p]]] Hp; [..|lia]; fl E0 E2; reflexivity|intros [|[|[|[|q]]]] Hq; [..|lia]; fl E0 E2; reflexivity|reflexivity|reflexivity]|].
Theorem a_zero : forall rX rT, (rX = RWait \/ rX = RStop) -> (rT = RWait \/ rT = RStop) -> nb = 0%Z ->
  all_runs N (add_cfg e nb rX rT) (fun c => hd_error (procs c) = Some (SA (ADone (e_net e)))).
Proof.
  intros rX rT HX HT H. apply reach_all. unfold add_cfg. destruct (Z.leb_spec 0 nb) as [_|L]; [|lia].
  assert (a_next nb 0 (e_net e) = AJoinX (e_net e)) as EA by (unfold a_next; destruct (Z.leb_spec (0 + 1) nb) as [L|_]; [lia|reflexivity]).
  destruct HX as [-> | ->], HT as [-> | ->]; do 2 go I I (LProc 0); rewrite EA; drive I I; reflexivity.
Qed.
Theorem a_neg : forall rX rT, (rX = RWait \/ rX = RStop) -> (rT = RWait \/ rT = RStop) -> (nb < 0)%Z ->
  all_runs N (add_cfg e nb rX rT) (fun c => hd_error (procs c) = Some (SA (match rX, rT with RStop, RStop => ADone (e_net e) | RStop, _ => AJoinT (e_net e) | _, _ => AJoinX (e_net e) end))).
Proof.
  intros rX rT HX HT H. apply reach_all. unfold add_cfg. destruct (Z.leb_spec 0 nb) as [L|_]; [lia|].
  destruct HX as [-> | ->], HT as [-> | ->]; drive I I; reflexivity.
Qed.
End Add.

Section Pred.
Context (s : slfn) (X : mat) (batch istart cnt nb : Z) (pc : nat -> nat).
Context (Hb : (0 < batch)%Z) (Hnb : nb = ceil_div cnt batch) (Hpc : forall q, (0 <? pc q)%nat = true).
Local Notation N := (predict_net s X batch istart cnt nb pc).
Local Notation rq := (req batch istart cnt).
Local Notation sl := (fun M b => slice M (fst (bounds batch istart cnt b)) (snd (bounds batch istart cnt b))).

Lemma p_writer : forall p st q v k, act N p st = Put q v k -> wr N q = p.
Proof.
  intros [|[|[|p]]] [r|w|m|m] q v k H; cbn in H; try discriminate.
  - destruct m; try discriminate; injection H as <- _ _; reflexivity.
  - destruct r; try discriminate; injection H as <- _ _; reflexivity.
  - destruct w; discriminate.
Qed.
Lemma p_reader : forall p st q k, act N p st = Get q k -> rd N q = p.
Proof.
  intros [|[|[|p]]] [r|w|m|m] q k H; cbn in H; try discriminate.
  - destruct m; try discriminate; injection H as <- _; reflexivity.
  - destruct r; try discriminate; injection H as <- _; reflexivity.
  - destruct w; try discriminate; injection H as <- _; reflexivity.
Qed.
Lemma p_stuck_of : forall (c : cfg value pstate), (forall p, (p < 3)%nat -> fire N (LProc p) c = None) -> (forall q, (q < 3)%nat -> fire N (LFeed q) c = None) ->
  length (procs c) = 3%nat -> length (queues c) = 3%nat -> stuck N c.
Proof.
  intros c HP HQ LP LQ [p|q].
  - destruct (Nat.lt_ge_cases p 3); auto. cbn [fire]. replace (nth_error (procs c) p) with (@None pstate); [reflexivity|]. symmetry. apply nth_error_None. lia.
  - destruct (Nat.lt_ge_cases q 3); auto. cbn [fire]. replace (nth_error (queues c) q) with (@None (list value * list value)); [reflexivity|]. symmetry. apply nth_error_None. lia.
Qed.
Ltac stk := apply p_stuck_of; [intros [|[|[|p]]] Hp; [reflexivity..|lia]|intros [|[|[|q]]] Hq; [reflexivity..|lia]|reflexivity|reflexivity].
Ltac ex := cbn [exec fire procs queues nth_error act predict_net p_act p_main reader_act writer_act has_room maxsize upd length app fst snd pcap];
  rewrite ?Hpc; change (0 + 0 <? 1)%nat with true; cbn [exec fire procs queues nth_error act predict_net p_act p_main reader_act writer_act has_room maxsize upd length app fst snd pcap].

Definition pafter (b : Z) (m : pmain) (Y : mat) : cfg value pstate :=
  mkCfg [SP m; SR RWait; SW (WWait Y)] [([], [rq b]); ([], []); ([], [])].

Lemma p_start : forall Y, (0 <= nb)%Z -> exec N (predict_cfg nb RWait Y) [LProc 0; LFeed 0] = Some (pafter 0 (p_next nb 0) Y).
Proof.
  intros Y H. unfold predict_cfg. destruct (Z.leb_spec 0 nb) as [_|L]; [|lia]. repeat (progress ex). reflexivity.
Qed.
Lemma p_end : forall Y, exists ls f, exec N (pafter nb PEnd Y) ls = Some f /\ stuck N f /\ predict_finish f = Some (Ok Y).
Proof.
  intros Y. exists [LProc 1; LProc 0; LFeed 2; LProc 2; LProc 0; LProc 0]. eexists. split.
  - unfold pafter. repeat (progress (ex; rewrite ?(req_last batch istart cnt nb Hb Hnb); cbn [writer_got])). reflexivity.
  - split; [stk|reflexivity].
Qed.
Lemma p_fail : forall b x Y, (0 <= b <= nb)%Z -> exists ls f, exec N (pafter b (PRaised x) Y) ls = Some f /\ stuck N f /\ predict_finish f = Some (Err x).
Proof.
  intros b x Y H. destruct (Z.eq_dec b nb) as [->|Hne].
  - exists [LProc 1]. eexists. split; [unfold pafter; repeat (progress (ex; rewrite ?(req_last batch istart cnt nb Hb Hnb))); reflexivity|]. split; [stk|reflexivity].
  - exists [LProc 1; LProc 1; LFeed 1]. eexists. split.
    + unfold pafter. repeat (progress (ex; rewrite ?(req_chunk batch istart cnt nb Hb Hnb) by lia)). reflexivity.
    + split; [stk|reflexivity].
Qed.
Lemma p_iter_err : forall b Y x, (0 <= b < nb)%Z -> predict s (sl X b) = Err x ->
  exec N (pafter b (PPut (b + 1)) Y) [LProc 0; LProc 1; LProc 1; LFeed 1; LProc 0; LFeed 0] = Some (pafter (b + 1) (PRaised x) Y).
Proof.
  intros b Y x H E. unfold pafter. repeat (progress (ex; rewrite ?(req_chunk batch istart cnt nb Hb Hnb) by lia)).
  destruct (Z.ltb_spec 0 (b + 1)) as [_|L]; [|lia]. repeat (progress ex). rewrite E. repeat (progress ex). reflexivity.
Qed.
Lemma p_iter : forall b Y Yb Y', (0 <= b < nb)%Z -> predict s (sl X b) = Ok Yb ->
  slice_assign Y (fst (bounds batch istart cnt b) - istart) (snd (bounds batch istart cnt b) - istart) Yb = Ok Y' ->
  exec N (pafter b (PPut (b + 1)) Y) [LProc 0; LProc 1; LProc 1; LFeed 1; LProc 0; LProc 0; LFeed 0; LFeed 2; LProc 2] = Some (pafter (b + 1) (p_next nb (b + 1)) Y').
Proof.
  intros b Y Yb Y' H E E2. unfold pafter. repeat (progress (ex; rewrite ?(req_chunk batch istart cnt nb Hb Hnb) by lia)).
  destruct (Z.ltb_spec 0 (b + 1)) as [_|L]; [|lia]. repeat (progress ex). rewrite E. repeat (progress ex).
  replace (b + 1 - 1)%Z with b by lia. destruct (bounds batch istart cnt b) as [u v]. cbn [fst snd] in E2. repeat (progress ex).
  cbn [writer_got]. rewrite E2. reflexivity.
Qed.
Lemma predict_len : forall Z0 Yb, predict s Z0 = Ok Yb -> length Yb = length Z0.
Proof.
  intros Z0 Yb E. unfold predict in E. destruct (s_B s) as [B|]; [|discriminate]. destruct (project s Z0) as [H|] eqn:EP; [|discriminate].
  cbn [rbind] in E. apply Ok_inj in E. apply project_inv in EP. destruct EP as (_ & _ & ->). subst Yb. unfold mmul. now rewrite !map_length.
Qed.

Context (Hi : (0 <= istart)%Z) (Hc : (0 <= cnt)%Z) (HX : (istart + cnt <= Z.of_nat (length X))%Z).
Lemma p_store : forall b Y Yb, (0 <= b < nb)%Z -> Z.of_nat (length Y) = cnt -> predict s (sl X b) = Ok Yb -> exists Y',
  slice_assign Y (fst (bounds batch istart cnt b) - istart) (snd (bounds batch istart cnt b) - istart) Yb = Ok Y' /\ Z.of_nat (length Y') = cnt.
Proof.
  intros b Y Yb H HY E. apply predict_len in E. pose proof (ceil_lt cnt batch b Hb ltac:(lia)).
  unfold bounds in *. cbn [fst snd] in *. rewrite slice_length_in in E by nia.
  eexists. split.
  - apply slice_assign_in; nia.
  - rewrite !app_length, firstn_length, skipn_length. nia.
Qed.
Lemma p_run : forall m k Y, (Z.of_nat k + Z.of_nat m = nb)%Z -> Z.of_nat (length Y) = cnt -> exists ls f,
  exec N (pafter (Z.of_nat k) (p_next nb (Z.of_nat k)) Y) ls = Some f /\ stuck N f /\
  predict_finish f = Some (store_loop (predict s) (fun ab => (fst ab - istart, snd ab - istart)%Z) X (map (bounds batch istart cnt) (map Z.of_nat (seq k m))) Y).
Proof.
  induction m as [|m IH]; intros k Y H HY.
  - assert (Z.of_nat k = nb) as E by lia. rewrite E. unfold p_next. destruct (Z.leb_spec (nb + 1) nb) as [L|_]; [lia|]. exact (p_end Y).
  - unfold p_next. destruct (Z.leb_spec (Z.of_nat k + 1) nb) as [_|L]; [|lia]. cbn [seq map store_loop].
    destruct (predict s (sl X (Z.of_nat k))) as [Yb|x] eqn:EP.
    + destruct (p_store (Z.of_nat k) Y Yb ltac:(lia) HY EP) as (Y' & ES & HY').
      pose proof (p_iter (Z.of_nat k) Y Yb Y' ltac:(lia) EP ES) as I. cbn [rbind fst snd] in *. rewrite ES. cbn [rbind].
      replace (Z.of_nat k + 1)%Z with (Z.of_nat (S k)) in * by lia.
      destruct (IH (S k) Y' ltac:(lia) HY') as (ls & f & E1 & E2 & E3).
      eexists (_ ++ ls), f. rewrite exec_app, I. auto.
    + pose proof (p_iter_err (Z.of_nat k) Y x ltac:(lia) EP) as I. cbn [rbind].
      destruct (p_fail (Z.of_nat k + 1) x Y ltac:(lia)) as (ls & f & E1 & E2 & E3).
      eexists (_ ++ ls), f. rewrite exec_app, I. auto.
Qed.
Lemma nb_nonneg : (0 <= nb)%Z.
Proof. pose proof (ceil_ge cnt batch Hb). rewrite Hnb. nia. Qed.
Theorem p_all_runs : forall Y, Z.of_nat (length Y) = cnt ->
  all_runs N (predict_cfg nb RWait Y)
    (fun c => predict_finish c = Some (store_loop (predict s) (fun ab => (fst ab - istart, snd ab - istart)%Z) X (ranges batch istart cnt nb) Y)).
Proof.
  intros Y HY. pose proof nb_nonneg as H. destruct (p_run (Z.to_nat nb) 0 Y ltac:(lia) HY) as (ls & f & E1 & E2 & E3).
  eapply (all_runs_of_one N p_writer p_reader); [|exact E2|exact E3].
  instantiate (1 := [LProc 0; LFeed 0] ++ ls). rewrite exec_app, (p_start Y H). exact E1.
Qed.
(** a reader that died: the main process waits for its first answer for ever *)
Theorem p_dead : forall Y, (0 < nb)%Z -> all_runs N (predict_cfg nb RStop Y) (fun c => predict_finish c = None).
Proof.
  intros Y H. unfold predict_cfg. destruct (Z.leb_spec 0 nb) as [_|L]; [|lia].
  destruct (1 <? pc 0)%nat eqn:E1.
  - eapply (all_runs_of_one N p_writer p_reader _ [LProc 0; LFeed 0; LProc 0; LFeed 0]).
    + repeat (progress (ex; change (0 <? 0)%Z with false; unfold p_next)). destruct (Z.leb_spec (0 + 1) nb) as [_|L]; [|lia].
      repeat (progress (ex; rewrite ?E1)). reflexivity.
    + stk.
    + reflexivity.
  - eapply (all_runs_of_one N p_writer p_reader _ [LProc 0; LFeed 0; LProc 0]).
    + repeat (progress (ex; change (0 <? 0)%Z with false; unfold p_next)). destruct (Z.leb_spec (0 + 1) nb) as [_|L]; [|lia].
      repeat (progress (ex; rewrite ?E1)). reflexivity.
    + apply p_stuck_of; [intros [|[|[|p]]] Hp; [reflexivity..|lia]|intros [|[|[|q]]] Hq; [|reflexivity..|lia]|reflexivity|reflexivity].
      cbn [fire queues nth_error length predict_net pcap]. now rewrite E1.
    + reflexivity.
Qed.
End Pred.
End AsyncThms.
