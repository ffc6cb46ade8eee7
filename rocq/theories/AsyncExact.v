(** Exactly which calls of predict_async return, and with which contents of the output file
    (C23, C25), for every schedule. *)
From Verif Require Import Base Num Mat LinAlg Slfn Strs Elm Hpelm Network Async NetThms MatFacts SplitProofs ElmFacts WfProofs RangeThms AsyncThms AsyncApi Spec.

(** ** Specification *)
(** the rows a batch asks for, and the rows a file with [n] rows gives for them: Python
    counts negative indices from the end *)
Definition from (batch istart b : Z) : Z := (b * batch + istart)%Z.
Definition upto (batch istart cnt b : Z) : Z := Z.min ((b + 1) * batch + istart) (cnt + istart).
Definition given (n : nat) (a b : Z) : Z :=
  let pos i := if (i <? 0)%Z then Z.max 0 (i + Z.of_nat n) else Z.min i (Z.of_nat n) in Z.max 0 (pos b - pos a).
(** the batch does not fit into its place in the output file: another number of rows, and
    not a single row, which numpy repeats *)
Definition misread (n : nat) (batch istart cnt b : Z) : Prop :=
  let r := given n (from batch istart b) (upto batch istart cnt b) in
  (r <> upto batch istart cnt b - from batch istart b)%Z /\ (r <> 1)%Z.

Section Exact.
Context {K : Num} {SG : Sing}.

Lemma slice_given : forall (M : mat) a b, Z.of_nat (length (slice M a b)) = given (length M) a b.
Proof.
  intros M a b. unfold slice, given, py_bound. rewrite firstn_length, skipn_length.
  destruct (Z.ltb_spec a 0), (Z.ltb_spec b 0); lia.
Qed.

Section Pred.
Context (s : slfn) (X : mat) (batch istart cnt nb : Z) (pc : nat -> nat).
Context (Hb : (0 < batch)%Z) (Hnb : nb = ceil_div cnt batch) (Hpc : forall q, (0 <? pc q)%nat = true).
Local Notation N := (predict_net s X batch istart cnt nb pc).
Local Notation rq := (req batch istart cnt).
Local Notation sl := (fun M b => slice M (fst (bounds batch istart cnt b)) (snd (bounds batch istart cnt b))).
Ltac stk := apply p_stuck_of; [intros [|[|[|p]]] Hp; [reflexivity..|lia]|intros [|[|[|q]]] Hq; [reflexivity..|lia]|reflexivity|reflexivity].
Ltac ex := cbn [exec fire procs queues nth_error act predict_net p_act p_main reader_act writer_act has_room maxsize upd length app fst snd pcap];
  rewrite ?Hpc; change (0 + 0 <? 1)%nat with true; cbn [exec fire procs queues nth_error act predict_net p_act p_main reader_act writer_act has_room maxsize upd length app fst snd pcap].

(** the configuration when the writer has died *)
Definition pdead (b : Z) (m : pmain) (Y : mat) (x : exn) : cfg value pstate :=
  mkCfg [SP m; SR RWait; SW (WDead Y x)] [([], [rq b]); ([], []); ([], [])].

Lemma p_iter_dead : forall b Y Yb x, (0 <= b < nb)%Z -> predict s (sl X b) = Ok Yb ->
  slice_assign Y (fst (bounds batch istart cnt b) - istart) (snd (bounds batch istart cnt b) - istart) Yb = Err x ->
  exec N (pafter batch istart cnt b (PPut (b + 1)) Y) [LProc 0; LProc 1; LProc 1; LFeed 1; LProc 0; LProc 0; LFeed 0; LFeed 2; LProc 2] = Some (pdead (b + 1) (p_next nb (b + 1)) Y x).
Proof.
  intros b Y Yb x H E E2. unfold pafter. repeat (progress (ex; rewrite ?(req_chunk batch istart cnt nb Hb Hnb) by lia)).
  destruct (Z.ltb_spec 0 (b + 1)) as [_|L]; [|lia]. repeat (progress ex). rewrite E. repeat (progress ex).
  replace (b + 1 - 1)%Z with b by lia. destruct (bounds batch istart cnt b) as [u v]. cbn [fst snd] in E2. repeat (progress ex).
  cbn [writer_got]. rewrite E2. reflexivity.
Qed.
(** nothing left to write: the end marker goes into the queue, the call returns *)
Lemma p_dead_last : forall Y x, exists ls f, exec N (pdead nb PEnd Y x) ls = Some f /\ stuck N f /\ predict_finish f = Some (Ok Y).
Proof.
  intros Y x. exists [LProc 1; LProc 0; LFeed 2; LProc 0; LProc 0]. eexists. split.
  - unfold pdead. repeat (progress (ex; rewrite ?(req_last batch istart cnt nb Hb Hnb); cbn [is_stop flushed wr forallb seq andb Nat.eqb negb])). reflexivity.
  - split; [stk|reflexivity].
Qed.
(** one more batch: its predictions fill the queue, the call waits for ever *)
Lemma p_dead_more : forall b Y x, (0 <= b < nb)%Z -> (forall b', (0 <= b' < nb)%Z -> exists Yb, predict s (sl X b') = Ok Yb) ->
  exists ls f, exec N (pdead b (PPut (b + 1)) Y x) ls = Some f /\ stuck N f /\ predict_finish f = None.
Proof.
  intros b Y x H HP. destruct (HP b H) as (Yb & E).
  assert (exec N (pdead b (PPut (b + 1)) Y x) [LProc 0; LProc 1; LProc 1; LFeed 1; LProc 0; LProc 0; LFeed 0; LFeed 2] =
    Some (mkCfg [SP (p_next nb (b + 1)); SR RWait; SW (WDead Y x)] [([], [rq (b + 1)]); ([], []);
      ([], [VWrite Yb (fst (bounds batch istart cnt b) - istart) (snd (bounds batch istart cnt b) - istart)])])) as I.
  { unfold pdead. repeat (progress (ex; rewrite ?(req_chunk batch istart cnt nb Hb Hnb) by lia)).
    destruct (Z.ltb_spec 0 (b + 1)) as [_|L]; [|lia]. repeat (progress ex). rewrite E. repeat (progress ex).
    replace (b + 1 - 1)%Z with b by lia. destruct (bounds batch istart cnt b) as [u v]. repeat (progress ex). reflexivity. }
  set (W := VWrite _ _ _) in I. clearbody W.
  destruct (Z.eq_dec (b + 1) nb) as [E1|E1].
  - exists ([LProc 0; LProc 1; LProc 1; LFeed 1; LProc 0; LProc 0; LFeed 0; LFeed 2] ++ [LProc 1]). eexists. split; [|split].
    + rewrite exec_app, I. rewrite E1. repeat (progress (ex; rewrite ?(req_last batch istart cnt nb Hb Hnb))). reflexivity.
    + unfold p_next. destruct (Z.leb_spec (nb + 1) nb) as [L|_]; [lia|]. stk.
    + unfold p_next. destruct (Z.leb_spec (nb + 1) nb) as [L|_]; [lia|]. reflexivity.
  - destruct (HP (b + 1)%Z ltac:(lia)) as (Yb' & E'). unfold p_next in I. destruct (Z.leb_spec (b + 1 + 1) nb) as [_|L]; [|lia].
    assert (forall c, c = mkCfg [SP (PPut (b + 1 + 1)); SR RWait; SW (WDead Y x)] [([], [rq (b + 1)]); ([], []); ([], [W])] ->
      exec N c [LProc 0; LProc 1; LProc 1; LFeed 1; LProc 0; LFeed 0] =
      Some (mkCfg [SP (PPutW (b + 1 + 1) Yb'); SR RWait; SW (WDead Y x)] [([], [rq (b + 1 + 1)]); ([], []); ([], [W])])) as I2.
    { intros c ->. repeat (progress (ex; rewrite ?(req_chunk batch istart cnt nb Hb Hnb) by lia)).
      destruct (Z.ltb_spec 0 (b + 1 + 1)) as [_|L]; [|lia]. repeat (progress ex). rewrite E'. repeat (progress ex). reflexivity. }
    specialize (I2 _ eq_refl). destruct (Z.eq_dec (b + 1 + 1) nb) as [E2|E2].
    + eexists (_ ++ _ ++ [LProc 1]), _. split; [|split].
      * rewrite exec_app, I, exec_app, I2. repeat (progress (ex; rewrite ?(req_last1 batch istart cnt nb Hb Hnb) by auto)). reflexivity.
      * apply p_stuck_of; [intros [|[|[|p]]] Hp; [|reflexivity..|lia]|intros [|[|[|q]]] Hq; [reflexivity..|lia]|reflexivity|reflexivity].
        cbn [fire procs nth_error act predict_net p_act p_main]. destruct (bounds batch istart cnt _). reflexivity.
      * reflexivity.
    + eexists (_ ++ _ ++ [LProc 1; LProc 1; LFeed 1]), _. split; [|split].
      * rewrite exec_app, I, exec_app, I2. repeat (progress (ex; rewrite ?(req_chunk batch istart cnt nb Hb Hnb) by lia)). reflexivity.
      * apply p_stuck_of; [intros [|[|[|p]]] Hp; [|reflexivity..|lia]|intros [|[|[|q]]] Hq; [reflexivity..|lia]|reflexivity|reflexivity].
        cbn [fire procs nth_error act predict_net p_act p_main]. destruct (bounds batch istart cnt _). reflexivity.
      * reflexivity.
Qed.
(** an array and nothing to do *)
Lemma p_zero : nb = 0%Z -> forall Y, all_runs N (predict_cfg nb RStop Y) (fun c => predict_finish c = Some (Ok Y)).
Proof.
  intros E Y. unfold predict_cfg. destruct (Z.leb_spec 0 nb) as [_|L]; [|lia].
  eapply (all_runs_of_one N (p_writer s X batch istart cnt nb pc) (p_reader s X batch istart cnt nb pc) _ [LProc 0; LFeed 0; LProc 0; LFeed 2; LProc 2; LProc 0; LProc 0]).
  - repeat (progress (ex; change (0 <? 0)%Z with false; unfold p_next)). destruct (Z.leb_spec (0 + 1) nb) as [L|_]; [lia|].
    repeat (progress (ex; cbn [writer_got is_stop flushed wr forallb seq andb Nat.eqb negb])). reflexivity.
  - stk.
  - reflexivity.
Qed.

(** *** what is left in the output file *)
Fixpoint aloop (rs : list (Z * Z)) (Y : mat) : option (res mat) :=
  match rs with
  | [] => Some (Ok Y)
  | ab :: r =>
    match predict s (slice X (fst ab) (snd ab)) with
    | Err x => Some (Err x)
    | Ok Yb => match slice_assign Y (fst ab - istart) (snd ab - istart) Yb with
               | Ok Y' => aloop r Y'
               | Err _ => match r with [] => Some (Ok Y) | _ => None end
               end
    end
  end.
Lemma q_run : (forall b', (0 <= b' < nb)%Z -> exists Yb, predict s (sl X b') = Ok Yb) ->
  forall m k Y, (Z.of_nat k + Z.of_nat m = nb)%Z -> exists ls f,
  exec N (pafter batch istart cnt (Z.of_nat k) (p_next nb (Z.of_nat k)) Y) ls = Some f /\ stuck N f /\
  predict_finish f = aloop (map (bounds batch istart cnt) (map Z.of_nat (seq k m))) Y.
Proof.
  intros HP. induction m as [|m IH]; intros k Y H.
  - assert (Z.of_nat k = nb) as E by lia. rewrite E. unfold p_next. destruct (Z.leb_spec (nb + 1) nb) as [L|_]; [lia|].
    exact (p_end s X batch istart cnt nb pc Hb Hnb Hpc Y).
  - unfold p_next. destruct (Z.leb_spec (Z.of_nat k + 1) nb) as [_|L]; [|lia]. cbn [seq map aloop].
    destruct (HP (Z.of_nat k) ltac:(lia)) as (Yb & EP). cbn beta in EP. rewrite EP.
    destruct (slice_assign Y _ _ Yb) as [Y'|x] eqn:ES.
    + pose proof (p_iter s X batch istart cnt nb pc Hb Hnb Hpc (Z.of_nat k) Y Yb Y' ltac:(lia) EP ES) as I.
      replace (Z.of_nat k + 1)%Z with (Z.of_nat (S k)) in * by lia.
      destruct (IH (S k) Y' ltac:(lia)) as (ls & f & E1 & E2 & E3).
      eexists (_ ++ ls), f. rewrite exec_app, I. auto.
    + pose proof (p_iter_dead (Z.of_nat k) Y Yb x ltac:(lia) EP ES) as I.
      destruct m as [|m].
      * assert (Z.of_nat k + 1 = nb)%Z as E by lia. rewrite E in *. unfold p_next in I. destruct (Z.leb_spec (nb + 1) nb) as [L|_]; [lia|].
        destruct (p_dead_last Y x) as (ls & f & E1 & E2 & E3).
        eexists (_ ++ ls), f. rewrite exec_app, I. auto.
      * unfold p_next in I. destruct (Z.leb_spec (Z.of_nat k + 1 + 1) nb) as [_|L]; [|lia].
        destruct (p_dead_more (Z.of_nat k + 1) Y x ltac:(lia) HP) as (ls & f & E1 & E2 & E3).
        eexists (_ ++ ls), f. rewrite exec_app, I. auto.
Qed.
Theorem q_all_runs : (forall b', (0 <= b' < nb)%Z -> exists Yb, predict s (sl X b') = Ok Yb) -> (0 <= nb)%Z -> forall Y,
  all_runs N (predict_cfg nb RWait Y) (fun c => predict_finish c = aloop (ranges batch istart cnt nb) Y).
Proof.
  intros HP H Y. destruct (q_run HP (Z.to_nat nb) 0 Y ltac:(lia)) as (ls & f & E1 & E2 & E3).
  eapply (all_runs_of_one N (p_writer s X batch istart cnt nb pc) (p_reader s X batch istart cnt nb pc)); [|exact E2|exact E3].
  instantiate (1 := [LProc 0; LFeed 0] ++ ls). rewrite exec_app, (p_start s X batch istart cnt nb pc Hpc Y H). exact E1.
Qed.

Lemma slice_assign_fit : forall (Y rows : mat) b, (0 <= b < nb)%Z -> Z.of_nat (length Y) = cnt ->
  Z.of_nat (length rows) = given (length X) (from batch istart b) (upto batch istart cnt b) ->
  (misread (length X) batch istart cnt b -> slice_assign Y (fst (bounds batch istart cnt b) - istart) (snd (bounds batch istart cnt b) - istart) rows = Err ValueError) /\
  (~ misread (length X) batch istart cnt b -> exists Y', length Y' = length Y /\
     slice_assign Y (fst (bounds batch istart cnt b) - istart) (snd (bounds batch istart cnt b) - istart) rows = Ok Y').
Proof.
  intros Y rows b H HY HR. pose proof (ceil_lt cnt batch b Hb ltac:(lia)). unfold misread. cbv zeta. rewrite <- HR.
  unfold bounds, from, upto in *. cbn [fst snd] in *.
  set (v := Z.min ((b + 1) * batch + istart) (cnt + istart)) in *. assert (v - istart <= cnt)%Z by lia. assert (b * batch < v - istart)%Z by nia.
  unfold slice_assign. rewrite !py_bound_in by nia.
  destruct (Nat.eqb_spec (length rows) (Z.to_nat (v - istart) - Z.to_nat (b * batch + istart - istart))) as [E|E].
  - split; [lia|]. intros _. eexists. split; [|reflexivity]. rewrite !app_length, firstn_length, skipn_length. lia.
  - split.
    + intros [A B]. destruct rows as [|r [|r' rows]]; cbn [length] in *; [reflexivity|lia|reflexivity].
    + intros A. destruct rows as [|r [|r' rows]]; cbn [length] in *; [exfalso; apply A; lia| |exfalso; apply A; lia].
      eexists. split; [|reflexivity]. rewrite !app_length, firstn_length, skipn_length, repeat_length. lia.
Qed.
End Pred.

(** *** reading slices of the predictions *)
Lemma predict_sl : forall s X P a b, predict s X = Ok P -> exists Yb, predict s (slice X a b) = Ok Yb /\ length Yb = length (slice X a b).
Proof.
  intros s X P a b H. unfold predict in *. destruct (s_B s) as [B|]; [|discriminate]. destruct (project s X) as [Hm|] eqn:E; [|discriminate].
  apply project_inv in E. destruct E as (U & W & _). rewrite project_ok.
  - cbn [rbind]. eexists. split; [reflexivity|]. unfold mmul. now rewrite !map_length.
  - exact U.
  - unfold wide, slice in *. apply Forall_forall. intros x Hx. rewrite Forall_forall in W. apply W.
    rewrite <- (firstn_skipn (py_bound (length X) a) X). apply in_or_app. right.
    match type of Hx with In x (firstn ?n ?l) => rewrite <- (firstn_skipn n l) end. apply in_or_app. now left.
Qed.

Section Loop.
Context (s : slfn) (X P : mat) (batch istart cnt nb : Z).
Context (Hb : (0 < batch)%Z) (Hnb : nb = ceil_div cnt batch) (HP : predict s X = Ok P).
Local Notation bnd k m := (map (bounds batch istart cnt) (map Z.of_nat (seq k m))).
Local Notation place := (fun ab : Z * Z => (fst ab - istart, snd ab - istart)%Z).
Local Notation bad := (misread (length X) batch istart cnt).

(** one batch *)
Lemma batch_step : forall b (Y : mat), (0 <= b < nb)%Z -> Z.of_nat (length Y) = cnt -> exists Yb,
  predict s (slice X (fst (bounds batch istart cnt b)) (snd (bounds batch istart cnt b))) = Ok Yb /\
  (bad b -> slice_assign Y (fst (bounds batch istart cnt b) - istart) (snd (bounds batch istart cnt b) - istart) Yb = Err ValueError) /\
  (~ bad b -> exists Y', length Y' = length Y /\ slice_assign Y (fst (bounds batch istart cnt b) - istart) (snd (bounds batch istart cnt b) - istart) Yb = Ok Y').
Proof.
  intros b Y H HY. destruct (predict_sl s X P (fst (bounds batch istart cnt b)) (snd (bounds batch istart cnt b)) HP) as (Yb & E & L).
  exists Yb. split; [exact E|]. apply (slice_assign_fit X batch istart cnt nb Hb Hnb Y Yb b); auto.
  rewrite L, slice_given. reflexivity.
Qed.
Lemma loop_good : forall m k Y, (Z.of_nat k + Z.of_nat m <= nb)%Z -> Z.of_nat (length Y) = cnt ->
  (forall b, (Z.of_nat k <= b < Z.of_nat k + Z.of_nat m)%Z -> ~ bad b) ->
  exists Y', store_loop (predict s) place X (bnd k m) Y = Ok Y' /\ Z.of_nat (length Y') = cnt /\
    forall rs, aloop s X istart (bnd k m ++ rs) Y = aloop s X istart rs Y' /\ store_loop (predict s) place X (bnd k m ++ rs) Y = store_loop (predict s) place X rs Y'.
Proof.
  induction m as [|m IH]; intros k Y H HY HB; [exists Y; auto|]. cbn [seq map app aloop store_loop].
  destruct (batch_step (Z.of_nat k) Y ltac:(lia) HY) as (Yb & E & _ & G). destruct (G (HB (Z.of_nat k) ltac:(lia))) as (Y' & L & ES).
  destruct (IH (S k) Y' ltac:(lia) ltac:(lia)) as (Y'' & E1 & E2 & E3).
  { intros b Hb'. apply HB. lia. }
  exists Y''. rewrite E. cbn [rbind fst snd] in *. rewrite ES. cbn [rbind]. auto.
Qed.
Lemma seq_split : forall k m j, (j <= m)%nat -> bnd k m = bnd k j ++ bnd (k + j) (m - j).
Proof. intros k m j H. rewrite <- !map_app, <- seq_app. do 3 f_equal. lia. Qed.
Lemma first_bad : forall m, (forall b, (0 <= b < Z.of_nat m)%Z -> ~ bad b) \/ exists j, (j < m)%nat /\ bad (Z.of_nat j) /\ forall b, (0 <= b < Z.of_nat j)%Z -> ~ bad b.
Proof.
  assert (forall b, bad b \/ ~ bad b) as D by (intros b; unfold misread; cbv zeta; lia).
  induction m as [|m [IH|(j & Hj & B)]]; [left; intros; lia| |right; exists j; split; [lia|exact B]].
  destruct (D (Z.of_nat m)) as [B|B]; [right; exists m; auto|]. left. intros b H. destruct (Z.eq_dec b (Z.of_nat m)) as [->|]; [auto|apply IH; lia].
Qed.
Lemma loop_hang : forall Y b, Z.of_nat (length Y) = cnt -> (0 <= b < nb - 1)%Z -> bad b -> aloop s X istart (ranges batch istart cnt nb) Y = None.
Proof.
  intros Y b HY H HB. unfold ranges, zrange. destruct (first_bad (Z.to_nat nb)) as [G|(j & Hj & B & G)]; [exfalso; apply (G b); auto; lia|].
  assert (Z.of_nat j <= b)%Z as Hjb by (destruct (Z.le_gt_cases (Z.of_nat j) b); auto; exfalso; apply (G b); auto; lia).
  rewrite (seq_split 0 (Z.to_nat nb) j) by lia. destruct (loop_good j 0 Y ltac:(lia) HY) as (Y' & _ & L & E); [intros b' Hb'; apply G; lia|].
  rewrite (proj1 (E _)). destruct (Z.to_nat nb - j)%nat as [|[|r]] eqn:ER; [lia|lia|]. cbn [seq map aloop plus].
  destruct (batch_step (Z.of_nat j) Y' ltac:(lia) L) as (Yb & E1 & E2 & _). rewrite E1, (E2 B). reflexivity.
Qed.
Lemma loop_last : forall Y, (0 < nb)%Z -> Z.of_nat (length Y) = cnt -> (forall b, (0 <= b < nb - 1)%Z -> ~ bad b) -> bad (nb - 1)%Z ->
  exists Y', store_loop (predict s) place X (ranges batch istart cnt (nb - 1)) Y = Ok Y' /\
    aloop s X istart (ranges batch istart cnt nb) Y = Some (Ok Y') /\ store_loop (predict s) place X (ranges batch istart cnt nb) Y = Err ValueError.
Proof.
  intros Y Hn HY G B. unfold ranges, zrange. rewrite (seq_split 0 (Z.to_nat nb) (Z.to_nat (nb - 1))) by lia.
  destruct (loop_good (Z.to_nat (nb - 1)) 0 Y ltac:(lia) HY) as (Y' & E0 & L & E); [intros b' Hb'; apply G; lia|].
  exists Y'. split; [exact E0|]. rewrite (proj1 (E _)), (proj2 (E _)). replace (Z.to_nat nb - Z.to_nat (nb - 1))%nat with 1%nat by lia.
  cbn [seq map aloop store_loop plus]. rewrite Z2Nat.id by lia.
  destruct (batch_step (nb - 1)%Z Y' ltac:(lia) L) as (Yb & E1 & E2 & _). rewrite E1. cbn [rbind fst snd]. rewrite (E2 B). auto.
Qed.
Lemma loop_all : forall Y, (0 <= nb)%Z -> Z.of_nat (length Y) = cnt -> (forall b, (0 <= b < nb)%Z -> ~ bad b) ->
  aloop s X istart (ranges batch istart cnt nb) Y = Some (store_loop (predict s) place X (ranges batch istart cnt nb) Y) /\
  is_ok (store_loop (predict s) place X (ranges batch istart cnt nb) Y) = true.
Proof.
  intros Y Hn HY G. unfold ranges, zrange. destruct (loop_good (Z.to_nat nb) 0 Y ltac:(lia) HY) as (Y' & E0 & L & E); [intros b' Hb'; apply G; lia|].
  specialize (E []). rewrite app_nil_r in E. rewrite E0. split; [exact (proj1 E)|reflexivity].
Qed.
End Loop.

Lemma slice_assign_app : forall (l z rows : mat) a b, (0 <= a <= b)%Z -> (b <= Z.of_nat (length l))%Z ->
  slice_assign (l ++ z) a b rows = let? l' := slice_assign l a b rows in Ok (l' ++ z).
Proof.
  intros l z rows a b H1 H2. unfold slice_assign. rewrite !py_bound_in by (rewrite ?app_length; lia).
  assert (forall rs, firstn (Z.to_nat a) (l ++ z) ++ rs ++ skipn (Z.to_nat a + (Z.to_nat b - Z.to_nat a)) (l ++ z) =
     (firstn (Z.to_nat a) l ++ rs ++ skipn (Z.to_nat a + (Z.to_nat b - Z.to_nat a)) l) ++ z) as E.
  { intros rs. rewrite firstn_app, skipn_app. replace (Z.to_nat a - length l)%nat with 0%nat by lia.
    replace (Z.to_nat a + (Z.to_nat b - Z.to_nat a) - length l)%nat with 0%nat by lia. cbn [firstn skipn]. now rewrite app_nil_r, !app_assoc. }
  destruct (length rows =? _)%nat; [cbn [rbind]; now rewrite E|]. destruct rows as [|r [|r' rows]]; cbn [rbind]; rewrite ?E; reflexivity.
Qed.
Lemma store_loop_app : forall f pl X z c rs Y, Z.of_nat (length Y) = c -> Forall (fun ab => 0 <= fst (pl ab) <= snd (pl ab) /\ snd (pl ab) <= c)%Z rs ->
  store_loop f pl X rs (Y ++ z) = let? Y' := store_loop f pl X rs Y in Ok (Y' ++ z).
Proof.
  intros f pl X z c. induction rs as [|ab r IH]; intros Y HY H; cbn [store_loop rbind]; auto.
  inversion H as [|? ? H1 H2]; subst. destruct (f _) as [Yb|]; cbn [rbind]; auto. rewrite slice_assign_app by lia.
  destruct (slice_assign Y _ _ Yb) as [Y'|] eqn:ES; cbn [rbind]; auto. apply IH; auto.
  unfold slice_assign in ES. rewrite !py_bound_in in ES by lia. destruct (Nat.eqb_spec (length Yb) (Z.to_nat (snd (pl ab)) - Z.to_nat (fst (pl ab)))).
  - apply Ok_inj in ES. subst Y'. rewrite !app_length, firstn_length, skipn_length. lia.
  - destruct Yb as [|r0 [|r1 Yb]]; try discriminate. apply Ok_inj in ES. subst Y'. rewrite !app_length, firstn_length, skipn_length, repeat_length. lia.
Qed.

(** ** The theorems *)
Theorem predict_async_exact : forall e w X P istart icount pc N c,
  (0 < e_batch e)%Z -> (forall q, (0 < pc q)%nat) -> predict (e_net e) X = Ok P ->
  predict_async e (SFile (Some (w, X))) istart icount pc = Ok (N, c) ->
  let cnt := selected icount (Z.of_nat (length X)) istart in
  let nb := ceil_div cnt (e_batch e) in
  let bad := misread (length X) (e_batch e) istart cnt in
  ((forall b, (0 <= b < nb)%Z -> ~ bad b) -> exists Y, hp_predict e (SFile (Some (w, X))) DFile istart icount = Ok Y /\
     all_runs N c (fun g => predict_finish g = Some (Ok Y))) /\
  ((exists b, (0 <= b < nb - 1)%Z /\ bad b) -> all_runs N c (fun g => predict_finish g = None)) /\
  ((forall b, (0 <= b < nb - 1)%Z -> ~ bad b) -> (0 < nb)%Z -> bad (nb - 1)%Z -> exists Y,
     hp_predict e (SFile (Some (w, X))) DFile istart icount = Err ValueError /\
     hp_predict e (SFile (Some (w, X))) DFile istart (Some ((nb - 1) * e_batch e)%Z) = Ok Y /\
     all_runs N c (fun g => predict_finish g = Some (Ok (Y ++ zero_mat (Z.to_nat (cnt - (nb - 1) * e_batch e)) (s_outputs (e_net e)))))).
Proof.
  intros e w X P istart icount pc N c Hb Hpc HP H cnt nb bad. unfold predict_async in H. unfold hp_predict.
  destruct (s_neurons (e_net e)); [discriminate|]. destruct (s_B (e_net e)); [|discriminate].
  unfold check_src in *. destruct (w =? s_inputs (e_net e))%nat; [|discriminate]. cbn [rbind] in *.
  rewrite !nbatches_eq in * by auto. cbn [rbind] in *. change (clip_count icount (length X) istart) with cnt in *. fold nb in H.
  unfold new_rows in *. destruct (Z.ltb_spec cnt 0) as [|Hc]; [discriminate|]. cbn [rbind] in *. injection H as <- <-.
  assert (forall q, (0 <? pc q)%nat = true) as Hpc' by (intros q; apply Nat.ltb_lt; auto).
  assert (0 <= nb)%Z as Hn by (pose proof (ceil_ge cnt (e_batch e) Hb) as HG; change (ceil_div cnt (e_batch e)) with nb in HG; nia).
  set (Y0 := zero_mat (Z.to_nat cnt) (s_outputs (e_net e))). assert (Z.of_nat (length Y0) = cnt) as HY0.
  { unfold Y0, zero_mat, mk. rewrite map_length, seq_length. lia. }
  pose proof (q_all_runs (e_net e) X (e_batch e) istart cnt nb pc Hb eq_refl Hpc') as Q. 
  assert (forall Y, all_runs (predict_net (e_net e) X (e_batch e) istart cnt nb pc) (predict_cfg nb RWait Y) (fun g => predict_finish g = aloop (e_net e) X istart (ranges (e_batch e) istart cnt nb) Y)) as QA.
  { apply Q; auto. intros b' _. destruct (predict_sl (e_net e) X P (fst (bounds (e_batch e) istart cnt b')) (snd (bounds (e_batch e) istart cnt b')) HP) as (Yb & E & _). eauto. }
  clear Q. fold nb. split; [|split].
  - intros G. destruct (loop_all (e_net e) X P (e_batch e) istart cnt nb Hb eq_refl HP Y0 Hn HY0 G) as (E1 & E2).
    destruct (store_loop (predict (e_net e)) _ X _ Y0) as [Y|]; [|discriminate]. exists Y. split; [reflexivity|].
    eapply all_runs_impl; [|apply QA]. cbn beta. intros g ->. exact E1.
  - intros (b & Hb1 & Hb2). eapply all_runs_impl; [|apply QA]. cbn beta. intros g ->. eapply loop_hang; eauto.
  - intros G Hn1 B. destruct (loop_last (e_net e) X P (e_batch e) istart cnt nb Hb eq_refl HP Y0 Hn1 HY0 G B) as (Y' & E1 & E2 & E3).
    pose proof (ceil_lt cnt (e_batch e) (nb - 1) Hb ltac:(change (ceil_div cnt (e_batch e)) with nb; lia)) as HL.
    assert (clip_count (Some ((nb - 1) * e_batch e)%Z) (length X) istart = ((nb - 1) * e_batch e)%Z) as EC.
    { unfold clip_count. unfold cnt, selected in HL. destruct icount; lia. }
    rewrite EC. destruct (Z.ltb_spec ((nb - 1) * e_batch e) 0) as [|_]; [nia|]. cbn [rbind].
    assert (ceil_div ((nb - 1) * e_batch e) (e_batch e) = nb - 1)%Z as EN.
    { unfold ceil_div. rewrite <- Z.mul_opp_l, Z.div_mul by lia. lia. }
    rewrite EN. assert (ranges (e_batch e) istart ((nb - 1) * e_batch e) (nb - 1) = ranges (e_batch e) istart cnt (nb - 1)) as ER.
    { unfold ranges, zrange. apply map_ext_in. intros b Hb'. apply in_map_iff in Hb'. destruct Hb' as (i & <- & Hi). apply in_seq in Hi. unfold bounds. f_equal. nia. }
    rewrite ER. set (z := zero_mat (Z.to_nat (cnt - (nb - 1) * e_batch e)) (s_outputs (e_net e))).
    assert (Y0 = zero_mat (Z.to_nat ((nb - 1) * e_batch e)) (s_outputs (e_net e)) ++ z) as EY.
    { unfold Y0, z, zero_mat, mk. replace (Z.to_nat cnt) with (Z.to_nat ((nb - 1) * e_batch e) + Z.to_nat (cnt - (nb - 1) * e_batch e))%nat by nia.
      rewrite seq_app, map_app. f_equal. rewrite <- (seq_length (Z.to_nat (cnt - (nb - 1) * e_batch e)) 0) at 1.
      generalize (Z.to_nat (cnt - (nb - 1) * e_batch e)) as m, (0 + Z.to_nat ((nb - 1) * e_batch e))%nat as u. intros m u. rewrite seq_length.
      revert u. generalize 0%nat as v. induction m as [|m IH]; intros v u; cbn [seq map]; f_equal; auto. }
    rewrite EY in E1. rewrite (store_loop_app _ _ _ z ((nb - 1) * e_batch e)) in E1.
    + destruct (store_loop (predict (e_net e)) _ X (ranges (e_batch e) istart cnt (nb - 1)) _) as [Y1|]; [|discriminate]. cbn [rbind] in E1. apply Ok_inj in E1.
      exists Y1. split; [exact E3|]. split; [reflexivity|]. eapply all_runs_impl; [|apply QA]. cbn beta. intros g ->. rewrite E1. exact E2.
    + unfold zero_mat, mk. rewrite map_length, seq_length. nia.
    + unfold ranges, zrange. apply Forall_forall. intros ab Hab. apply in_map_iff in Hab. destruct Hab as (b & <- & Hb'). apply in_map_iff in Hb'.
      destruct Hb' as (i & <- & Hi). apply in_seq in Hi. unfold bounds. cbn [fst snd]. nia.
Qed.
(** an array argument: never returns, unless nothing is selected *)
Theorem predict_async_array_exact : forall e a istart icount pc N c X,
  (0 < e_batch e)%Z -> (forall q, (0 < pc q)%nat) -> check_src (SArr a) (s_inputs (e_net e)) = Ok X ->
  predict_async e (SArr a) istart icount pc = Ok (N, c) ->
  ((0 < selected icount (Z.of_nat (length X)) istart)%Z -> all_runs N c (fun g => predict_finish g = None)) /\
  (selected icount (Z.of_nat (length X)) istart = 0%Z -> all_runs N c (fun g => predict_finish g = Some (Ok [])) /\ hp_predict e (SArr a) DFile istart icount = Ok []).
Proof.
  intros e a istart icount pc N c X Hb Hpc HC H. split.
  - intros HS. eapply predict_async_array; eauto.
  - intros HS. unfold predict_async in H. unfold hp_predict. rewrite HC in *.
    destruct (s_neurons (e_net e)); [discriminate|]. destruct (s_B (e_net e)); [|discriminate]. cbn [rbind] in *.
    rewrite !nbatches_eq in * by auto. cbn [rbind] in *. change (clip_count icount (length X) istart) with (selected icount (Z.of_nat (length X)) istart) in *.
    rewrite HS in *. cbn [new_rows Z.ltb Z.compare rbind] in *. injection H as <- <-. split; [|reflexivity].
    assert (forall q, (0 <? pc q)%nat = true) as Hpc' by (intros q; apply Nat.ltb_lt; auto).
    apply p_zero; auto.
Qed.
End Exact.
