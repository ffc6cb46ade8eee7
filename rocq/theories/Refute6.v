(** Witnesses for the asynchronous methods (exact rationals). *)
From Coq Require Import QArith.
From Verif Require Import Base Num Mat LinAlg Slfn Strs Elm Hpelm Network Async NetThms AsyncThms AsyncApi Demo.
Local Open Scope Q_scope.
#[local] Existing Instance NumQ.

Section Refute.
Context {SG : Sing}.

(** the identity on one number, already solved *)
Definition one_model (batch : Z) : elm :=
  let e := lin_model 1 1 "" None batch None 1 1 [[1]] [0] in with_net e (with_B (e_net e) (Some [[1]])).
Definition three : mat := [[5]; [6]; [7]].
Definition f3 : src := SFile (Some (1%nat, three)).
Definition a3 : src := SArr (Arr2 1 three).

(** a range that starts after the end of the file, further than one batch *)
Lemma add_hang_range : forall pc, (forall q, (0 < pc q)%nat) -> exists e1 N c,
  add_data_async (one_model 2) f3 f3 5 None None 0 pc = (e1, None, Ok (N, c)) /\
  all_runs N c (fun f => add_data_finish e1 None f = None).
Proof.
  intros pc Hpc. do 3 eexists. split; [reflexivity|].
  eapply (proj1 (add_async_all (one_model 2) f3 f3 5 None None 0 pc _ None _ _ three three eq_refl Hpc eq_refl eq_refl)).
  left. split; [vm_compute; discriminate|]. left. eexists. reflexivity.
Qed.
(** arrays, when files of earlier calls are still open *)
Lemma add_hang_array : forall pc, (forall q, (0 < pc q)%nat) -> exists e1 N c,
  add_data_async (one_model 2) a3 a3 0 None None 2 pc = (e1, None, Ok (N, c)) /\
  all_runs N c (fun f => add_data_finish e1 None f = None).
Proof.
  intros pc Hpc. do 3 eexists. split; [reflexivity|].
  eapply (proj1 (add_async_all (one_model 2) a3 a3 0 None None 2 pc _ None _ _ three three eq_refl Hpc eq_refl eq_refl)).
  right. split; [vm_compute; reflexivity|]. left. eexists. reflexivity.
Qed.
(** arrays, in a fresh model *)
Lemma add_array_raises : forall pc, exists e1,
  add_data_async (one_model 2) a3 a3 0 None None 0 pc = (e1, None, Err IndexError) /\
  snd (hp_add_data (one_model 2) a3 a3 0 None None) = Ok tt.
Proof. intros pc. eexists. split; reflexivity. Qed.
Lemma predict_hang_array : forall pc, (forall q, (0 < pc q)%nat) -> exists N c,
  predict_async (one_model 2) a3 0 None pc = Ok (N, c) /\ all_runs N c (fun f => predict_finish f = None).
Proof.
  intros pc Hpc. do 2 eexists. split; [reflexivity|].
  eapply (predict_async_array (one_model 2) (Arr2 1 three) 0 None pc _ _ three eq_refl Hpc eq_refl); [vm_compute; reflexivity|reflexivity].
Qed.

(** a negative istart: the writer dies at the first batch, the main process blocks *)
Definition two (q : nat) : nat := 2.
Definition hang_s : slfn := e_net (one_model 1).
Definition hang_c : cfg value pstate := predict_cfg 4 RWait (zero_mat 4 1).
Definition hang_N : net value pstate := predict_net hang_s three 1 (-1) 4 4 two.
Definition opt_cfg (o : option (cfg value pstate)) : cfg value pstate := match o with Some c => c | None => hang_c end.
Fixpoint greedy (n : nat) (N : net value pstate) (ls : list label) (c : cfg value pstate) : list label :=
  match n with
  | O => []
  | S n => match find (fun l => match fire N l c with Some _ => true | None => false end) ls with
           | None => []
           | Some l => match fire N l c with Some c' => l :: greedy n N ls c' | None => [] end
           end
  end.
Definition p_labels : list label := [LProc 0; LProc 1; LProc 2; LFeed 0; LFeed 1; LFeed 2]%nat.

Definition run_end (N : net value pstate) (c : cfg value pstate) : cfg value pstate := opt_cfg (exec N c (greedy 60 N p_labels c)).
Definition ran (N : net value pstate) (c : cfg value pstate) : bool :=
  (match exec N c (greedy 60 N p_labels c) with Some _ => true | None => false end) &&
  forallb (fun l => match fire N l (run_end N c) with Some _ => false | None => true end) p_labels &&
  (length (procs (run_end N c)) =? 3)%nat && (length (queues (run_end N c)) =? 3)%nat.
Lemma ran_all : forall s X batch istart cnt nb pc c (P : cfg value pstate -> Prop), ran (predict_net s X batch istart cnt nb pc) c = true ->
  P (run_end (predict_net s X batch istart cnt nb pc) c) -> all_runs (predict_net s X batch istart cnt nb pc) c P.
Proof.
  intros s X batch istart cnt nb pc c P H HP. unfold ran in H. set (N := predict_net s X batch istart cnt nb pc) in *.
  apply andb_prop in H. destruct H as [H H4]. apply andb_prop in H. destruct H as [H H3]. apply andb_prop in H. destruct H as [H1 H2].
  apply Nat.eqb_eq in H3, H4. rewrite forallb_forall in H2.
  assert (forall l, In l p_labels -> fire N l (run_end N c) = None) as HF.
  { intros l Hl. specialize (H2 l Hl). destruct (fire N l (run_end N c)); [discriminate|reflexivity]. }
  apply (all_runs_of_one N (p_writer _ _ _ _ _ _ _) (p_reader _ _ _ _ _ _ _) c (greedy 60 N p_labels c) (run_end N c)); auto.
  - unfold run_end. destruct (exec N c (greedy 60 N p_labels c)); [reflexivity|discriminate].
  - apply p_stuck_of; auto.
    + intros [|[|[|p]]] Hp; [apply HF; cbn; auto..|lia].
    + intros [|[|[|q]]] Hq; [apply HF; cbn; auto 10..|lia].
Qed.

Lemma predict_hang_negative : exists N c,
  predict_async (one_model 1) f3 (-1) None two = Ok (N, c) /\ all_runs N c (fun f => predict_finish f = None).
Proof.
  exists hang_N, hang_c. split; [reflexivity|]. apply ran_all; vm_compute; reflexivity.
Qed.

(** a negative istart with one batch: the writer dies unnoticed *)
Definition silent_c : cfg value pstate := predict_cfg 1 RWait (zero_mat 5 1).
Definition silent_N : net value pstate := predict_net (e_net (one_model 10)) three 10 (-2) 5 1 two.
Lemma predict_silent_negative : exists N c,
  predict_async (one_model 10) f3 (-2) None two = Ok (N, c) /\
  all_runs N c (fun f => predict_finish f = Some (Ok [[0]; [0]; [0]; [0]; [0]])) /\
  hp_predict (one_model 10) f3 DFile (-2) None = Err ValueError.
Proof.
  exists silent_N, silent_c. split; [reflexivity|]. split; [|vm_compute; reflexivity].
  apply ran_all; vm_compute; reflexivity.
Qed.
End Refute.
