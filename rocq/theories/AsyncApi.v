(** The asynchronous methods as called: for every data argument, range and schedule
    (C23, C24, C25). *)
From Verif Require Import Base Num Mat LinAlg Slfn Strs Elm Hpelm Network Async NetThms MatFacts SplitProofs Spec ElmFacts WfProofs RangeThms AsyncThms.

(** ** Specification *)
(** the number of samples a range selects *)
Definition selected (icount : option Z) (n istart : Z) : Z :=
  match icount with None => (n - istart)%Z | Some c => Z.min c (n - istart) end.
(** the calls of add_data_async that never return: a file argument with a range so
    wrong that not even the end marker is sent to its reader; or an array argument
    with something to do *)
Definition add_hangs {K : Num} (fX fT : src) (sel batch : Z) : Prop :=
  (sel <= - batch /\ ((exists f, fX = SFile f) \/ (exists f, fT = SFile f)))%Z \/
  (0 < sel /\ ((exists a, fX = SArr a) \/ (exists a, fT = SArr a)))%Z.

Section AsyncApi.
Context {K : Num} {SG : Sing}.

Lemma fill_wc_batch : forall e T rs, e_batch (hp_fill_wc e T rs) = e_batch e.
Proof. intros e T rs. unfold hp_fill_wc. destruct (is_wc e); [|reflexivity]. destruct (e_wc e); reflexivity. Qed.

Lemma sync_split : forall e fX fT istart icount fs,
  hp_add_data e fX fT istart icount fs =
  (let '(e1, fs0, r) := add_prologue e fX fT istart icount fs in
   match r with
   | Err x => (e1, fs0, Err x)
   | Ok st => match add_batches e1 (e_net e1) (hp_batches (st_X st) (st_T st) (ranges (e_batch e1) istart (st_cnt st) (st_nb st))) with
              | (s1, Err x) => (with_net e1 s1, fs0, Err x)
              | (s1, Ok _) => match fs0 with
                              | None => (with_net e1 s1, None, Ok tt)
                              | Some f => let '(s2, f', r) := write_fs s1 f in (with_net e1 s2, Some f', r)
                              end
              end
   end).
Proof.
  intros e fX fT istart icount fs. unfold hp_add_data, add_prologue.
  destruct (s_neurons (e_net e)) as [|n l]; [reflexivity|].
  destruct (hp_check e fX fT) as [[X T]|x]; [|reflexivity].
  destruct (match fs with None => (e, None, Ok tt) | Some f => let '(s, f', r) := prepare_fs (e_net e) f in (with_net e s, Some f', r) end) as [[e0 fs0] [u|x]]; [|reflexivity].
  destruct (nbatches (clip_count icount (length X) istart) (e_batch e0)) as [nb|x]; [|reflexivity].
  cbn [st_X st_T st_cnt st_nb]. rewrite fill_wc_batch. reflexivity.
Qed.

Lemma prologue_inv : forall e fX fT istart icount fs e1 fs1 st, add_prologue e fX fT istart icount fs = (e1, fs1, Ok st) ->
  exists X T, hp_check e fX fT = Ok (X, T) /\ st_X st = X /\ st_T st = T /\ st_cnt st = clip_count icount (length X) istart /\
  nbatches (st_cnt st) (e_batch e) = Ok (st_nb st) /\ e_batch e1 = e_batch e.
Proof.
  intros e fX fT istart icount fs e1 fs1 st H. unfold add_prologue in H.
  destruct (s_neurons (e_net e)) as [|n l]; [discriminate|].
  destruct (hp_check e fX fT) as [[X T]|x] eqn:EC; [|discriminate].
  destruct (match fs with None => (e, None, Ok tt) | Some f => let '(s, f', r) := prepare_fs (e_net e) f in (with_net e s, Some f', r) end) as [[e0 fs0] [u|x]] eqn:E0; [|discriminate].
  assert (e_batch e0 = e_batch e) as EB.
  { destruct fs as [f|]; [|injection E0; congruence]. destruct (prepare_fs (e_net e) f) as [[s f'] r]. injection E0 as <- _ _. reflexivity. }
  destruct (nbatches (clip_count icount (length X) istart) (e_batch e0)) as [nb|x] eqn:EN; [|discriminate].
  injection H as <- <- <-. exists X, T. rewrite EB in EN. cbn [st_X st_T st_cnt st_nb].
  repeat (match goal with |- _ /\ _ => split end; auto). now rewrite fill_wc_batch.
Qed.

Lemma add_batches_nil : forall e s, add_batches e s [] = (s, Ok tt).
Proof. reflexivity. Qed.
Lemma ranges_nil : forall b i c nb, (nb <= 0)%Z -> ranges b i c nb = [].
Proof. intros b i c nb H. unfold ranges, zrange. replace (Z.to_nat nb) with 0%nat by lia. reflexivity. Qed.

Lemma all_runs_impl : forall {V S} (N : net V S) c (P Q : cfg V S -> Prop), (forall x, P x -> Q x) -> all_runs N c P -> all_runs N c Q.
Proof. intros V S N c P Q H (A & B). split; auto. intros ls f E1 E2. apply H. now apply (B ls f). Qed.

Lemma start_cases : forall f, reader_start f = RWait \/ reader_start f = RStop.
Proof. intros [a|f]; cbn; auto. Qed.

Lemma finish_hd : forall e1 fs0 (c : cfg value pstate) m, hd_error (procs c) = Some (SA m) ->
  add_data_finish e1 fs0 c =
  match m with
  | ADone s => Some (match fs0 with
          | None => (with_net e1 s, None, Ok tt)
          | Some f => let '(s2, f', r) := write_fs s f in (with_net e1 s2, Some f', r)
          end)
  | ARaised s x => Some (with_net e1 s, fs0, Err x)
  | _ => None
  end.
Proof. intros e1 fs0 c m H. unfold add_data_finish. destruct (procs c) as [|p l]; [discriminate|]. injection H as ->. reflexivity. Qed.

Lemma ceil_pos_iff : forall n b, (0 < b)%Z -> ((0 < ceil_div n b) <-> (0 < n))%Z /\ ((ceil_div n b < 0) <-> (n <= - b))%Z.
Proof.
  intros n b Hb. unfold ceil_div. pose proof (Z.mod_pos_bound (- n) b Hb). pose proof (Z.div_mod (- n) b ltac:(lia)).
  split; split; nia.
Qed.

(** A call that started its processes either hangs for every schedule or ends for
    every schedule as add_data does. *)
Theorem add_async_all : forall e fX fT istart icount fs opened pc e1 fs1 N c X T,
  (0 < e_batch e)%Z -> (forall q, (0 < pc q)%nat) -> hp_check e fX fT = Ok (X, T) ->
  add_data_async e fX fT istart icount fs opened pc = (e1, fs1, Ok (N, c)) ->
  (add_hangs fX fT (selected icount (Z.of_nat (length X)) istart) (e_batch e) -> all_runs N c (fun f => add_data_finish e1 fs1 f = None)) /\
  (~ add_hangs fX fT (selected icount (Z.of_nat (length X)) istart) (e_batch e) ->
     all_runs N c (fun f => add_data_finish e1 fs1 f = Some (hp_add_data e fX fT istart icount fs))).
Proof.
  intros e fX fT istart icount fs opened pc e1 fs1 N c X T Hb Hpc EC H.
  unfold add_data_async in H. rewrite sync_split. destruct (add_prologue e fX fT istart icount fs) as [[e2 fs2] [st|x]] eqn:EP; [|discriminate].
  destruct (opened + n_files fX + n_files fT <? 2)%nat; [discriminate|]. injection H as <- <- <- <-.
  apply prologue_inv in EP. destruct EP as (X' & T' & EC' & EX & ET & ECN & ENB & EB). rewrite EC in EC'. injection EC' as <- <-.
  rewrite nbatches_eq in ENB by auto. apply Ok_inj in ENB. change (clip_count icount (length X) istart) with (selected icount (Z.of_nat (length X)) istart) in ECN.
  set (cnt := selected icount (Z.of_nat (length X)) istart) in *. rewrite EX, ET, ECN. rewrite ECN in ENB. rewrite EB. clear EX ET ECN.
  pose proof (ceil_pos_iff cnt (e_batch e) Hb) as (P1 & P2). symmetry in ENB. rewrite <- ENB in P1, P2. set (nb := st_nb st) in *. clearbody nb cnt.
  assert (forall q, (0 <? pc q)%nat = true) as Hpc' by (intros q; apply Nat.ltb_lt; auto).
  unfold add_hangs. split.
  - intros [[H1 H2]|[H1 H2]].
    + eapply all_runs_impl; [|apply a_neg; auto using start_cases; tauto].
      intros f Hf. rewrite (finish_hd _ _ _ _ Hf). destruct H2 as [[g ->]|[g ->]]; cbn; [reflexivity|]. destruct fX; reflexivity.
    + eapply all_runs_impl; [|apply a_dead; auto using start_cases; [|tauto]].
      * intros f (m & Hf & [-> |(Xb & ->)]); rewrite (finish_hd _ _ _ _ Hf); reflexivity.
      * destruct H2 as [[g ->]|[g ->]]; cbn; auto.
  - intros HN. destruct (Z.lt_trichotomy nb 0) as [H|[H|H]].
    + rewrite ranges_nil by lia. cbn [hp_batches map]. rewrite add_batches_nil.
      eapply all_runs_impl; [|apply a_neg; auto using start_cases; tauto].
      intros f Hf. rewrite (finish_hd _ _ _ _ Hf). assert (cnt <= - e_batch e)%Z by tauto.
      destruct fX as [a|g]; [|exfalso; apply HN; left; split; eauto]. destruct fT as [a'|g]; [|exfalso; apply HN; left; split; eauto]. reflexivity.
    + rewrite ranges_nil by lia. cbn [hp_batches map]. rewrite add_batches_nil.
      eapply all_runs_impl; [|apply a_zero; auto using start_cases].
      intros f Hf. rewrite (finish_hd _ _ _ _ Hf). reflexivity.
    + assert (0 < cnt)%Z by tauto. destruct fX as [a|g]; [exfalso; apply HN; right; split; eauto|]. destruct fT as [a'|g']; [exfalso; apply HN; right; split; eauto|].
      eapply all_runs_impl; [|apply a_all_runs; auto; lia].
      intros f Hf. rewrite (finish_hd _ _ _ _ Hf). unfold outcome.
      destruct (add_batches e2 (e_net e2) (hp_batches X T (ranges (e_batch e) istart cnt nb))) as [s1 [u|x]]; reflexivity.
Qed.

(** A call that raises before starting the processes *)
Theorem add_async_err : forall e fX fT istart icount fs opened pc e1 fs1 x,
  add_data_async e fX fT istart icount fs opened pc = (e1, fs1, Err x) ->
  hp_add_data e fX fT istart icount fs = (e1, fs1, Err x) \/
  x = IndexError /\ (opened <= 1)%nat /\ ((exists a, fX = SArr a) \/ (exists a, fT = SArr a)).
Proof.
  intros e fX fT istart icount fs opened pc e1 fs1 x H. unfold add_data_async in H. rewrite sync_split.
  destruct (add_prologue e fX fT istart icount fs) as [[e2 fs2] [st|x']]; [|injection H as <- <- <-; auto].
  destruct (Nat.ltb_spec (opened + n_files fX + n_files fT) 2) as [L|_]; [|discriminate]. injection H as <- <- <-.
  right. split; auto. destruct fX as [a|g]; [split; [cbn in L; lia|eauto]|]. destruct fT as [a|g']; [split; [cbn in L; lia|eauto]|]. cbn in L. lia.
Qed.

Lemma file_check : forall e f g X T, hp_check e (SFile f) (SFile g) = Ok (X, T) -> exists c d, f = Some (c, X) /\ g = Some (d, T).
Proof.
  intros e f g X T H. unfold hp_check, check_src in H. destruct f as [[c m]|]; [|discriminate]. destruct (c =? s_inputs (e_net e))%nat; [|discriminate].
  destruct g as [[d m']|]; [|discriminate]. cbn [rbind] in H. destruct (d =? s_outputs (e_net e))%nat; [|discriminate]. cbn [rbind] in H.
  destruct (length m =? length m')%nat; [|discriminate]. injection H as <- <-. eauto.
Qed.
Lemma async_no_files : forall e fX fT istart icount opened pc e1 fs1 r, add_data_async e fX fT istart icount None opened pc = (e1, fs1, r) -> fs1 = None.
Proof.
  intros e fX fT istart icount opened pc e1 fs1 r H. unfold add_data_async, add_prologue in H.
  destruct (s_neurons (e_net e)); [injection H; congruence|]. destruct (hp_check e fX fT) as [[X T]|]; [|injection H; congruence].
  destruct (nbatches (clip_count icount (length X) istart) (e_batch e)); [|injection H; congruence].
  destruct (opened + n_files fX + n_files fT <? 2)%nat; injection H; congruence.
Qed.
Theorem add_async_files : forall e f g istart icount fs opened pc e1 fs1 N c X T,
  (0 < e_batch e)%Z -> (forall q, 0 < pc q) -> hp_check e (SFile f) (SFile g) = Ok (X, T) ->
  add_data_async e (SFile f) (SFile g) istart icount fs opened pc = (e1, fs1, Ok (N, c)) ->
  (istart <= Z.of_nat (length X))%Z -> (forall n, icount = Some n -> (0 <= n)%Z) ->
  all_runs N c (fun h => add_data_finish e1 fs1 h = Some (hp_add_data e (SFile f) (SFile g) istart icount fs)).
Proof.
  intros e f g istart icount fs opened pc e1 fs1 N c X T Hb Hpc EC EA HI HC.
  apply (proj2 (add_async_all _ _ _ _ _ _ _ _ _ _ _ _ _ _ Hb Hpc EC EA)).
  intros [[H1 _]|[_ [[a Ha]|[a Ha]]]]; [|discriminate..]. unfold selected in H1. destruct icount as [n|]; [specialize (HC n eq_refl)|]; lia.
Qed.
Theorem add_async_files_err : forall e f g istart icount fs opened pc e1 fs1 x,
  add_data_async e (SFile f) (SFile g) istart icount fs opened pc = (e1, fs1, Err x) ->
  hp_add_data e (SFile f) (SFile g) istart icount fs = (e1, fs1, Err x).
Proof.
  intros e f g istart icount fs opened pc e1 fs1 x EA.
  destruct (add_async_err _ _ _ _ _ _ _ _ _ _ _ EA) as [EH|(_ & _ & [(? & Ha)|(? & Ha)])]; [exact EH|discriminate..].
Qed.
Theorem train_async_all : forall e fX fT args kw istart icount opened pc e1 N c X T,
  (forall q, (0 < pc q)%nat) -> hp_check e (SFile fX) (SFile fT) = Ok (X, T) ->
  train_async e (SFile fX) (SFile fT) args kw istart icount opened pc = (e1, Ok (N, c)) -> (0 < e_batch e1)%Z ->
  (- e_batch e1 < selected icount (Z.of_nat (length X)) (match istart with Some i => Z.max 0 i | None => 0 end))%Z ->
  all_runs N c (fun f => train_finish e1 f = Some (hp_train e (SFile fX) (SFile fT) args kw istart icount)).
Proof.
  intros e fX fT args kw istart icount opened pc e1 N c X T Hpc EC H Hb HS. unfold train_async in H. unfold hp_train. rewrite EC in *.
  destruct (parse_args e args kw) as [e2 [u|x]]; [|discriminate].
  set (i0 := match istart with Some i => Z.max 0 i | None => 0%Z end) in *. cbn zeta in H.
  destruct (add_data_async e2 (SFile fX) (SFile fT) i0 icount None (opened + n_files (SFile fX) + n_files (SFile fT)) pc) as [[e3 fs3] r] eqn:EA.
  injection H as -> ->. pose proof (async_no_files _ _ _ _ _ _ _ _ _ _ EA) as ->.
  assert (exists st, add_prologue e2 (SFile fX) (SFile fT) i0 icount None = (e1, None, Ok st)) as (st & EP).
  { unfold add_data_async in EA. destruct (add_prologue e2 (SFile fX) (SFile fT) i0 icount None) as [[e4 fs4] [st|x]]; [|discriminate].
    destruct (_ <? 2)%nat; [discriminate|]. injection EA as <- <- _. eauto. }
  apply prologue_inv in EP. destruct EP as (X' & T' & EC' & _ & _ & _ & _ & EB).
  destruct (file_check _ _ _ _ _ EC) as (a & b & -> & ->). destruct (file_check _ _ _ _ _ EC') as (a' & b' & E1 & E2).
  injection E1 as <- ->. injection E2 as <- ->. rewrite EB in Hb, HS.
  destruct (add_async_all _ _ _ _ _ _ _ _ _ _ _ _ _ _ Hb Hpc EC' EA) as (_ & HR).
  eapply all_runs_impl; [|apply HR].
  - intros f Hf. unfold train_finish. rewrite Hf. destruct (hp_add_data e2 (SFile (Some (a, X'))) (SFile (Some (b, T'))) i0 icount None) as [[e5 fs5] [u'|x]]; [|reflexivity].
    destruct (solve (e_net e5)). reflexivity.
  - intros [[H1 _]|[_ [[g Hg]|[g Hg]]]]; [lia|discriminate..].
Qed.
Theorem train_async_err : forall e fX fT args kw istart icount opened pc e1 x,
  train_async e (SFile fX) (SFile fT) args kw istart icount opened pc = (e1, Err x) ->
  hp_train e (SFile fX) (SFile fT) args kw istart icount = (e1, Err x).
Proof.
  intros e fX fT args kw istart icount opened pc e1 x H. unfold train_async in H. unfold hp_train.
  destruct (hp_check e (SFile fX) (SFile fT)); [|injection H as <- <-; reflexivity]. destruct (parse_args e args kw) as [e2 [u|y]]; [|injection H as <- <-; reflexivity]. cbn zeta in *.
  destruct (add_data_async _ _ _ _ _ _ _ _) as [[e3 fs3] r] eqn:EA. injection H as -> ->.
  destruct (add_async_err _ _ _ _ _ _ _ _ _ _ _ EA) as [EH|(_ & _ & [(? & Ha)|(? & Ha)])]; [rewrite EH; reflexivity|discriminate..].
Qed.

(** ** predict_async *)
Theorem predict_async_all : forall e f istart icount pc N c,
  (0 < e_batch e)%Z -> (0 <= istart)%Z -> (forall q, (0 < pc q)%nat) ->
  predict_async e (SFile f) istart icount pc = Ok (N, c) ->
  all_runs N c (fun g => predict_finish g = Some (hp_predict e (SFile f) DFile istart icount)).
Proof.
  intros e f istart icount pc N c Hb Hi Hpc H. unfold predict_async in H. unfold hp_predict.
  destruct (s_neurons (e_net e)); [discriminate|]. destruct (s_B (e_net e)); [|discriminate].
  destruct (check_src (SFile f) (s_inputs (e_net e))) as [X|]; [|discriminate]. cbn [rbind] in *.
  rewrite nbatches_eq in * by auto. cbn [rbind] in *. set (cnt := clip_count icount (length X) istart) in *.
  unfold new_rows in *. destruct (Z.ltb_spec cnt 0); [discriminate|]. cbn [rbind] in *. injection H as <- <-.
  assert (forall q, (0 <? pc q)%nat = true) as Hpc' by (intros q; apply Nat.ltb_lt; auto).
  apply (p_all_runs (e_net e) X (e_batch e) istart cnt (ceil_div cnt (e_batch e)) pc Hb eq_refl Hpc' Hi); auto.
  - unfold cnt, clip_count. destruct icount; lia.
  - unfold zero_mat, mk. rewrite map_length, seq_length. lia.
Qed.
Theorem predict_async_err : forall e fX istart icount pc x, predict_async e fX istart icount pc = Err x -> hp_predict e fX DFile istart icount = Err x.
Proof.
  intros e fX istart icount pc x H. unfold predict_async in H. unfold hp_predict.
  destruct (s_neurons (e_net e)); [injection H as ->; reflexivity|]. destruct (s_B (e_net e)); [|injection H as ->; reflexivity].
  destruct (check_src fX (s_inputs (e_net e))) as [X|]; [|injection H as ->; reflexivity]. cbn [rbind] in *.
  destruct (nbatches _ _); [|injection H as ->; reflexivity]. cbn [rbind] in *. destruct (new_rows _ _); [discriminate|injection H as ->; reflexivity].
Qed.
(** an array argument with something to do: never returns *)
Theorem predict_async_array : forall e a istart icount pc N c X,
  (0 < e_batch e)%Z -> (forall q, (0 < pc q)%nat) -> check_src (SArr a) (s_inputs (e_net e)) = Ok X ->
  (0 < selected icount (Z.of_nat (length X)) istart)%Z ->
  predict_async e (SArr a) istart icount pc = Ok (N, c) -> all_runs N c (fun g => predict_finish g = None).
Proof.
  intros e a istart icount pc N c X Hb Hpc HC HS H. unfold predict_async in H. rewrite HC in H.
  destruct (s_neurons (e_net e)); [discriminate|]. destruct (s_B (e_net e)); [|discriminate]. cbn [rbind] in H.
  rewrite nbatches_eq in H by auto. cbn [rbind] in H. change (clip_count icount (length X) istart) with (selected icount (Z.of_nat (length X)) istart) in H.
  set (cnt := selected icount (Z.of_nat (length X)) istart) in *.
  destruct (new_rows cnt _) as [Y|]; [|discriminate]. cbn [rbind] in H. injection H as <- <-.
  assert (forall q, (0 <? pc q)%nat = true) as Hpc' by (intros q; apply Nat.ltb_lt; auto).
  apply p_dead; auto. now apply (ceil_pos_iff cnt (e_batch e) Hb).
Qed.
End AsyncApi.
