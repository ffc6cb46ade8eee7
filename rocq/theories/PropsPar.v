(** Property theorems: several processes that call HPELM.add_data with the same fHH and
    fHT files (C26-C28).  [pexec .. evs = Some g]: the events of [evs] (steps and deaths of
    processes, in any order) are possible and lead to [g]. *)
From Coq Require Import Reals Lra QArith.
From Verif Require Import Base Num Mat LinAlg Slfn Strs Elm Hpelm MatFacts Spec ElmFacts RidgeProofs WfProofs RangeThms RangeTrain
  Parallel ParThms ParLink Demo Refute6 Refute7.
Local Open Scope nat_scope.

Section Any.
Context {K : Num}.
(** one process alone: [local_work] is what the call adds to the files *)
Theorem C26_contribution : forall j mH mT L c,
  L = nneurons (s_neurons (e_net (j_elm j))) -> c = s_outputs (e_net (j_elm j)) -> length mH = L -> length mT = L ->
  call_alone (mkFs (Some (L, mH)) (Some (c, mT))) j =
    match local_work j with
    | Ok (HH, HT) => (mkFs (Some (L, madd mH HH)) (Some (c, madd mT HT)), Ok tt)
    | Err x => (mkFs (Some (L, mH)) (Some (c, mT)), Err x)
    end.
Proof. exact call_alone_spec. Qed.
End Any.

Section Reals.
#[local] Existing Instance NumR.

(** ** C26: the files exist; any schedule without deaths.  Nobody waits for ever, and the
    files get the sum of the contributions of all processes that do not raise. *)
Theorem C26_parallel : forall L c ini mH mT cs,
  is_mat L L mH -> is_mat L c mT -> (forall W, In (Ok W) cs -> is_mat L L (fst W) /\ is_mat L c (snd W)) ->
  forall ps evs g, Forall fresh ps -> length ps = length cs -> (forall p, ~ In (Crash p) evs) ->
  @pexec NumR L c ini (work_of cs) (mkPst (FData L mH) (FData c mT) None None ps) evs = Some g ->
  length evs <= 15 * length cs /\
  ((forall p, @pstep NumR L c ini (work_of cs) p g = None) ->
     pcs g = map outcome_of cs /\
     gH g = FData L (add_all mH (map fst (ParThms.good cs))) /\ gT g = FData c (add_all mT (map snd (ParThms.good cs))) /\
     lockH g = None /\ lockT g = None).
Proof. exact parallel_all. Qed.
(** the same as calls one after the other *)
Theorem C26_sequential : forall L c ini js mH mT evs g fs rs,
  is_mat L L mH -> is_mat L c mT -> Forall (job_of L c) js ->
  (forall j HH HT, In j js -> local_work j = Ok (HH, HT) -> is_mat L L HH /\ is_mat L c HT) ->
  (forall p, ~ In (Crash p) evs) ->
  @pexec NumR L c ini (work_of (map (@local_work NumR) js))
    (@mkPst NumR (@FData NumR L mH) (@FData NumR c mT) None None (start_pcs (length js))) evs = Some g ->
  (forall p, @pstep NumR L c ini (work_of (map (@local_work NumR) js)) p g = None) ->
  calls (@mkFs NumR (Some (L, mH)) (Some (c, mT))) js = (fs, rs) ->
  (exists nH nT, gH g = FData L nH /\ gT g = FData c nT /\ fs = @mkFs NumR (Some (L, nH)) (Some (c, nT))) /\
  pcs g = map (fun r => match r with Ok _ => Done | Err x => Raised x end) rs.
Proof. exact parallel_calls. Qed.
(** files that hold the samples ss: solving gives the ridge solution of all data *)
Theorem C26_ridge {SG : Sing} : forall ns c nm ini ss ts ps evs g,
  ns <> [] -> (0 < nm)%R -> RidgeProofs.good (nneurons ns) ss -> Forall (good_task ns c nm) ts ->
  Forall fresh ps -> length ps = length ts -> (forall p, ~ In (Crash p) evs) ->
  @pexec NumR (nneurons ns) c ini (work_of (map task_work ts)) (files_of (nneurons ns) c nm ss ps) evs = Some g ->
  length evs <= 15 * length ts /\
  ((forall p, @pstep NumR (nneurons ns) c ini (work_of (map task_work ts)) p g = None) ->
    pcs g = map (fun _ => Done) ts /\
    solves ns c nm (gH g) (gT g) (ss ++ concat (map (task_samples ns) ts))).
Proof. exact parallel_from. Qed.

(** two processes on the two parts of a file *)
Definition demo_task (i : nat) (k : option nat) : task :=
  mkTask (@mkJob NumR (demo None "" None) (SFile (Some (2, demo_X))) (SArr (Arr2 2 demo_T)) (Z.of_nat i) (zcount k)) demo_X demo_T i k.
Definition demo_ns : list (@neuron NumR) := s_neurons (e_net (demo None "" None)).
Lemma demo_task_good : forall i k, i < 3 -> k <> Some 0 -> good_task demo_ns 2 1%R (demo_task i k).
Proof.
  intros i k Hi Hk. constructor; try reflexivity.
  - constructor; cbn; try exact I; repeat constructor; cbn; auto; intuition discriminate.
  - split; [discriminate|reflexivity].
  - split; [right; reflexivity|]. split; [left; reflexivity|]. split; [reflexivity|]. split; repeat constructor.
  - split; [reflexivity|]. split; [reflexivity|]. split; [exact Hi|exact Hk].
Qed.
Definition demo_tasks : list task := [demo_task 0 (Some 1); demo_task 1 None].
Definition alternate : list pevent := Run 1 :: Run 0 :: Run 1 :: Run 0 :: repeat (Run 1) 9 ++ repeat (Run 0) 9.
Definition ends_at (o : option (@pst NumR)) (ps : list (@ppc NumR)) : Prop :=
  match o with Some g => pcs g = ps | None => False end.
Lemma demo_tasks_good : Forall (good_task demo_ns 2 1%R) demo_tasks.
Proof. constructor; [|constructor; [|constructor]]; apply demo_task_good; try lia; discriminate. Qed.
Example C26_hyps {SG : Sing} : Forall (good_task demo_ns 2 1%R) demo_tasks /\ demo_ns <> [] /\
  ends_at (@pexec NumR 3 2 (scaled_eye 3 1%R) (work_of (map task_work demo_tasks)) (files_of 3 2 1%R [] (start_pcs 2)) alternate) [Done; Done].
Proof.
  split; [exact demo_tasks_good|]. split; [discriminate|].
  rewrite (tasks_work demo_ns 2 1%R _ demo_tasks_good). vm_compute. reflexivity.
Qed.

(** ** C27: the files do not exist.  Missing: the property only holds when one process is
    through the creation of both files (6 steps) before the others look. *)
Theorem C27_creation_partial {SG : Sing} : forall ns c nm ts evs g,
  ns <> [] -> (0 < nm)%R -> Forall (good_task ns c nm) ts -> ts <> [] -> (forall p, ~ In (Crash p) evs) ->
  @pexec NumR (nneurons ns) c (scaled_eye (nneurons ns) nm) (work_of (map task_work ts))
     (@mkPst NumR FNone FNone None None (start_pcs (length ts))) (repeat (Run 0) 6 ++ evs) = Some g ->
  length evs <= 15 * length ts /\
  ((forall p, @pstep NumR (nneurons ns) c (scaled_eye (nneurons ns) nm) (work_of (map task_work ts)) p g = None) ->
    pcs g = map (fun _ => Done) ts /\ solves ns c nm (gH g) (gT g) (concat (map (task_samples ns) ts))).
Proof. exact parallel_created. Qed.
Example C27_hyps {SG : Sing} : Forall (good_task demo_ns 2 1%R) demo_tasks /\ demo_ns <> [] /\ demo_tasks <> [] /\
  ends_at (@pexec NumR 3 2 (scaled_eye 3 1%R) (work_of (map task_work demo_tasks)) (@mkPst NumR FNone FNone None None (start_pcs 2))
    (repeat (Run 0) 6 ++ Run 1 :: Run 0 :: repeat (Run 1) 10 ++ repeat (Run 0) 8)) [Done; Done].
Proof.
  split; [exact demo_tasks_good|]. split; [discriminate|]. split; [discriminate|].
  rewrite (tasks_work demo_ns 2 1%R _ demo_tasks_good). vm_compute. reflexivity.
Qed.

(** ** C28: processes may die at any step.  Missing: the property only holds when no
    process is (or died) between its two writes. *)
Theorem C28_crash_partial {SG : Sing} : forall ns c nm ini ss ts ps evs g,
  ns <> [] -> (0 < nm)%R -> RidgeProofs.good (nneurons ns) ss -> Forall (good_task ns c nm) ts ->
  Forall fresh ps -> length ps = length ts ->
  @pexec NumR (nneurons ns) c ini (work_of (map task_work ts)) (files_of (nneurons ns) c nm ss ps) evs = Some g ->
  (forall q, In q (pcs g) -> wroteH q = wroteT q) ->
  exists keep, length keep = length ts /\
    (forall p, nth_error (pcs g) p = Some Done -> nth_error keep p = Some true) /\
    solves ns c nm (gH g) (gT g) (ss ++ concat (map (task_samples ns) (select keep ts))).
Proof. exact crash_ridge. Qed.
Example C28_hyps {SG : Sing} : Forall (good_task demo_ns 2 1%R) demo_tasks /\
  ends_at (@pexec NumR 3 2 (scaled_eye 3 1%R) (work_of (map task_work demo_tasks)) (files_of 3 2 1%R [] (start_pcs 2))
     (repeat (Run 0) 5 ++ [Crash 0] ++ repeat (Run 1) 11)) [Dead false false; Done].
Proof. split; [exact demo_tasks_good|]. rewrite (tasks_work demo_ns 2 1%R _ demo_tasks_good). vm_compute. reflexivity. Qed.
End Reals.

Section Rationals.
#[local] Existing Instance NumQ.
Local Open Scope Q_scope.

(** what the two files should hold for a set of processes *)
Definition part (b : bool) (r : res (mat * mat)) (sel : mat * mat -> mat) (m : mat) : mat :=
  match r with Ok W => if b then madd m (sel W) else m | Err _ => m end.
Definition holds_set (g : pst) (a b : bool) : Prop :=
  gH g = FData 1 (part b (two_work 1) fst (part a (two_work 0) fst (scaled_eye 1 1))) /\
  gT g = FData 1 (part b (two_work 1) snd (part a (two_work 0) snd (zero_mat 1 1))).

(** ** C27 refuted: two processes, both calls return normally, and the contribution of
    one is missing from fHH; another schedule makes a process raise *)
Theorem C27_refuted :
  (exists evs g, pexec 1 1 (scaled_eye 1 1) two_work no_files evs = Some g /\ pcs g = [Done; Done] /\ ~ holds_set g true true) /\
  (exists evs g, pexec 1 1 (scaled_eye 1 1) two_work no_files evs = Some g /\ nth_error (pcs g) 1 = Some (Raised IOError)).
Proof.
  split.
  - destruct lost_update as (g & E & P & H & T). exists lost_evs, g. split; [exact E|]. split; [exact P|].
    intros [C _]. rewrite H in C. vm_compute in C. discriminate.
  - destruct creation_raises as (g & E & P). exists [Run 0; Run 0; Run 1], g. auto.
Qed.

(** ** C28 refuted: a process dies between its two writes; fHH and fHT then hold different
    sets of contributions *)
Theorem C28_refuted : exists evs g, pexec 1 1 (scaled_eye 1 1) two_work old_files evs = Some g /\
  pcs g = [Dead true false; Done] /\ forall a b, ~ holds_set g a b.
Proof.
  destruct crash_between as (g & E & P & H & T). exists crash_evs, g. split; [exact E|]. split; [exact P|].
  intros a b [C1 C2]. rewrite H in C1. rewrite T in C2. destruct a, b; vm_compute in C1, C2; discriminate.
Qed.
End Rationals.

Print Assumptions C26_contribution.
Print Assumptions C26_parallel.
Print Assumptions C26_sequential.
Print Assumptions C26_ridge.
Print Assumptions C27_creation_partial.
Print Assumptions C28_crash_partial.
Print Assumptions C27_refuted.
Print Assumptions C28_refuted.
