(** The contributions of the processes of Parallel.v are those of HPELM.add_data, and
    what several processes store is solved to the ridge solution (C26, C27, C28). *)
From Coq Require Import Reals Lra Permutation.
From Verif Require Import Base Num Mat LinAlg Slfn Strs Elm Mrsr Search Mss Hpelm Network NetThms MatFacts SplitProofs Spec ElmFacts RLin
  AccProofs TrainProofs RidgeProofs WfProofs TrainThms IncrThms SolveThms RangeThms RangeTrain Parallel ParThms.

Section Any.
Context {K : Num}.

(** one call of add_data by one process *)
Record pjob := mkJob { j_elm : elm; j_X : src; j_T : src; j_start : Z; j_count : option Z }.

(** hp_elm.py:128-166 without the files, then 168-169: the matrices a process adds *)
Definition local_work (j : pjob) : res (mat * mat) :=
  match hp_add_data (with_net (j_elm j) (reset (e_net (j_elm j)))) (j_X j) (j_T j) (j_start j) (j_count j) None with
  | (e1, _, Ok _) =>
    match get_corr (e_net e1) with
    | Ok (Some (HH, HT)) => Ok (sub_norm (getL (e_net e1)) (s_norm (e_net e1)) HH, HT)
    | _ => Err TypeError
    end
  | (_, _, Err x) => Err x
  end.

(** the whole call, one process alone *)
Definition call_alone (fs : corrfs) (j : pjob) : corrfs * res unit :=
  let '(_, fs', r) := hp_add_data (j_elm j) (j_X j) (j_T j) (j_start j) (j_count j) (Some fs) in
  (match fs' with Some f => f | None => fs end, r).

Theorem call_alone_spec : forall j mH mT L c,
  L = nneurons (s_neurons (e_net (j_elm j))) -> c = s_outputs (e_net (j_elm j)) -> length mH = L -> length mT = L ->
  call_alone (mkFs (Some (L, mH)) (Some (c, mT))) j =
    match local_work j with
    | Ok (HH, HT) => (mkFs (Some (L, madd mH HH)) (Some (c, madd mT HT)), Ok tt)
    | Err x => (mkFs (Some (L, mH)) (Some (c, mT)), Err x)
    end.
Proof.
  intros [e fX fT i cnt] mH mT L c HL Hc H1 H2. cbn [j_elm] in *. unfold call_alone, local_work. cbn [j_elm j_X j_T j_start j_count].
  unfold hp_add_data. change (s_neurons (e_net (with_net e (reset (e_net e))))) with (s_neurons (e_net e)).
  destruct (s_neurons (e_net e)) as [|n ns] eqn:En; [reflexivity|].
  change (hp_check (with_net e (reset (e_net e))) fX fT) with (hp_check e fX fT).
  destruct (hp_check e fX fT) as [[X T]|x]; [|reflexivity].
  assert (prepare_fs (e_net e) (mkFs (Some (L, mH)) (Some (c, mT))) = (reset (e_net e), mkFs (Some (L, mH)) (Some (c, mT)), Ok tt)) as EP.
  { unfold prepare_fs. assert (getL (reset (e_net e)) = L) as -> by (cbn; rewrite En; now rewrite HL).
    change (s_outputs (reset (e_net e))) with (s_outputs (e_net e)). cbn [f_HH f_HT]. rewrite <- Hc, H1, !Nat.eqb_refl. cbn [andb f_HT]. rewrite H2, !Nat.eqb_refl. reflexivity. }
  rewrite EP. set (e0 := with_net e (reset (e_net e))).
  destruct (nbatches _ _) as [nb|x]; [|reflexivity].
  destruct (add_batches _ _ _) as [s1 [u|x]]; [|reflexivity].
  cbn [e_net with_net]. unfold write_fs. destruct (get_corr s1) as [[[HH HT]|]|x]; reflexivity.
Qed.

(** calls one after the other *)
Definition calls (fs : corrfs) (js : list pjob) : corrfs * list (res unit) :=
  fold_left (fun st j => let '(f, r) := call_alone (fst st) j in (f, snd st ++ [r])) js (fs, []).
End Any.

#[local] Existing Instance NumR.
Local Open Scope R_scope.

Definition job_of (L c : nat) (j : @pjob NumR) : Prop :=
  nneurons (s_neurons (e_net (j_elm j))) = L /\ s_outputs (e_net (j_elm j)) = c.
Definition unit_of (r : res (list (list R) * list (list R))) : res unit := match r with Ok _ => Ok tt | Err x => Err x end.

Lemma add_all_len : forall Ms m L w, is_mat L w m -> Forall (is_mat L w) Ms -> length (add_all m Ms) = L.
Proof. intros Ms m L w Hm HF. apply (add_all_mat L w Ms m Hm HF). Qed.

Lemma good_mats : forall L c (cs : list (res (list (list R) * list (list R)))),
  (forall W, In (Ok W) cs -> is_mat L L (fst W) /\ is_mat L c (snd W)) ->
  Forall (is_mat L L) (map fst (ParThms.good cs)) /\ Forall (is_mat L c) (map snd (ParThms.good cs)).
Proof.
  intros L c. induction cs as [|[W|x] cs IH]; intros H; cbn [ParThms.good map]; [split; constructor| |apply IH; intros; apply H; now right].
  destruct (IH (fun W' HW => H W' (or_intror HW))) as [I1 I2]. destruct (H W (or_introl eq_refl)) as [A B].
  split; constructor; auto.
Qed.

Theorem calls_spec : forall L c js mH mT,
  is_mat L L mH -> is_mat L c mT -> Forall (job_of L c) js ->
  (forall W, In (Ok W) (map (@local_work NumR) js) -> is_mat L L (fst W) /\ is_mat L c (snd W)) ->
  calls (mkFs (Some (L, mH)) (Some (c, mT))) js =
    (mkFs (Some (L, add_all mH (map fst (ParThms.good (map (@local_work NumR) js)))))
          (Some (c, add_all mT (map snd (ParThms.good (map (@local_work NumR) js))))),
     map unit_of (map (@local_work NumR) js)).
Proof.
  intros L c js. unfold calls.
  cut (forall mH mT rs, is_mat L L mH -> is_mat L c mT -> Forall (job_of L c) js ->
    (forall W, In (Ok W) (map (@local_work NumR) js) -> is_mat L L (fst W) /\ is_mat L c (snd W)) ->
    fold_left (fun st j => let '(f, r) := call_alone (fst st) j in (f, snd st ++ [r])) js (mkFs (Some (L, mH)) (Some (c, mT)), rs) =
    (mkFs (Some (L, add_all mH (map fst (ParThms.good (map (@local_work NumR) js)))))
          (Some (c, add_all mT (map snd (ParThms.good (map (@local_work NumR) js))))),
     rs ++ map unit_of (map (@local_work NumR) js))).
  { intros H mH mT H1 H2 H3 H4. exact (H mH mT [] H1 H2 H3 H4). }
  induction js as [|j js IH]; intros mH mT rs H1 H2 HJ HW; cbn [fold_left map ParThms.good].
  { rewrite app_nil_r. reflexivity. }
  inversion HJ as [|? ? [EL Ec] HJ']; subst x l. cbn [fst snd].
  rewrite (call_alone_spec j mH mT L c); [|now symmetry|now symmetry|apply H1|apply H2].
  destruct (@local_work NumR j) as [[A B]|x] eqn:EW.
  - destruct (HW (A, B)) as [MA MB]; [left; exact EW|]. cbn [fst snd] in MA, MB.
    rewrite IH; auto; [|now apply is_mat_madd|now apply is_mat_madd|intros W HWi; apply HW; now right].
    cbn [ParThms.good map fst snd add_all fold_left unit_of]. rewrite <- app_assoc. reflexivity.
  - rewrite IH; auto; [|intros W HWi; apply HW; now right]. cbn [ParThms.good unit_of]. rewrite <- app_assoc. reflexivity.
Qed.

Section Jobs.
Context {SG : Sing}.

(** A process whose call is in order: its samples *)
Record good_job (ns : list neuron) (c : nat) (nm : R) (j : @pjob NumR) (X T : list (list R)) (i : nat) (k : option nat) : Prop := {
  gj_wf : wf_net (e_net (j_elm j));
  gj_usable : usable (e_net (j_elm j));
  gj_ns : s_neurons (e_net (j_elm j)) = ns;
  gj_out : s_outputs (e_net (j_elm j)) = c;
  gj_norm : s_norm (e_net (j_elm j)) = nm;
  gj_wc : is_wc (j_elm j) = false;
  gj_batch : (0 < e_batch (j_elm j))%Z;
  gj_data : data_ok (j_elm j) (j_X j) (j_T j) X T;
  gj_range : j_start j = Z.of_nat i /\ j_count j = zcount k /\ (i < length X)%nat /\ k <> Some 0%nat }.
Definition job_samples (ns : list (@neuron NumR)) (X T : list (list R)) (i : nat) (k : option nat) : list sample :=
  Spec.plain (map (hrow ns) (range_of X i k)) (range_of T i k).

Lemma job_work : forall ns c nm j X T i k, good_job ns c nm j X T i k ->
  local_work j = Ok (sub_norm (nneurons ns) nm (spec_HH (nneurons ns) nm (job_samples ns X T i k)),
                     spec_HT (nneurons ns) c (job_samples ns X T i k)).
Proof.
  intros ns c nm j X T i k [HW HU <- <- <- Hw Hb HD (E1 & E2 & Hi & Hk)]. unfold local_work. rewrite E1, E2.
  set (e0 := with_net (j_elm j) (reset (e_net (j_elm j)))).
  assert (elm_project e0 (Arr2 (s_inputs (e_net e0)) X) = Ok (map (hrow (s_neurons (e_net (j_elm j)))) X)) as EP.
  { pose proof HD as (_ & _ & _ & WX & _). unfold elm_project, check_arr. cbn [s_inputs e_net e0 with_net reset].
    rewrite ?Nat.eqb_refl. cbn [rbind]. exact (project_ok (reset (e_net (j_elm j))) X HU WX). }
  destruct (range_corr e0 (j_X j) (j_T j) X T (map (hrow (s_neurons (e_net (j_elm j)))) X) i k) as (e' & EA & EG); auto.
  { split; reflexivity. }
  rewrite EA. 
  pose proof (hp_add_data_acc e0 (fun _ => 1) (j_X j) (j_T j) X T i k [] eq_refl HU Hb HD (Nat.lt_le_incl _ _ Hi) (weights_plain e0 _ Hw)) as (s' & EA' & _ & Es & _).
  rewrite EA in EA'. apply (f_equal (fun r => fst (fst r))) in EA'. cbn [fst] in EA'.
  rewrite EG. rewrite range_of_map. rewrite EA'. cbn [e_net with_net].
  assert (getL s' = nneurons (s_neurons (e_net (j_elm j)))) as -> by (rewrite Es; reflexivity).
  assert (s_norm s' = s_norm (e_net (j_elm j))) as -> by (rewrite Es; reflexivity).
  reflexivity.
Qed.

(** the processes with their data *)
Record task := mkTask { k_job : @pjob NumR; k_X : list (list R); k_T : list (list R); k_i : nat; k_c : option nat }.
Definition good_task (ns : list neuron) (c : nat) (nm : R) (t : task) : Prop :=
  good_job ns c nm (k_job t) (k_X t) (k_T t) (k_i t) (k_c t).
Definition task_samples (ns : list neuron) (t : task) : list sample := job_samples ns (k_X t) (k_T t) (k_i t) (k_c t).
Definition task_work (t : task) : res (list (list R) * list (list R)) := local_work (k_job t).

(** the tasks for which [keep] holds *)
Fixpoint select {A} (keep : list bool) (l : list A) : list A :=
  match keep, l with
  | b :: ks, x :: r => if b then x :: select ks r else select ks r
  | _, _ => []
  end.

Lemma select_all : forall {A} (l : list A), select (repeat true (length l)) l = l.
Proof. induction l as [|x l IH]; cbn; [reflexivity|now rewrite IH]. Qed.

Definition pair_of (ns : list (@neuron NumR)) (c : nat) (nm : R) (t : task) : list (list R) * list (list R) :=
  (@sub_norm NumR (nneurons ns) nm (spec_HH (nneurons ns) nm (task_samples ns t)), spec_HT (nneurons ns) c (task_samples ns t)).

Lemma tasks_work : forall ns c nm ts, Forall (good_task ns c nm) ts -> map task_work ts = map (fun t => Ok (pair_of ns c nm t)) ts.
Proof.
  intros ns c nm ts H. induction H as [|t ts Ht _ IH]; [reflexivity|]. cbn [map]. rewrite IH. f_equal.
  exact (job_work ns c nm _ _ _ _ _ Ht).
Qed.

Lemma good_pairs : forall {A} (f : A -> list (list R) * list (list R)) l, ParThms.good (map (fun t => Ok (f t)) l) = map f l.
Proof. intros A f. induction l as [|t l IH]; [reflexivity|]. cbn [map ParThms.good]. now rewrite IH. Qed.
Lemma written_pairs : forall {A} (f : A -> list (list R) * list (list R)) w (l : list A) qs, length qs = length l ->
  written w qs (map (fun t => Ok (f t)) l) = map f (select (map w qs) l).
Proof.
  intros A f w. induction l as [|t l IH]; intros [|q qs] H; try discriminate; [reflexivity|].
  cbn [map written select]. rewrite IH by (now injection H). destruct (w q); reflexivity.
Qed.

Lemma add_all_HH : forall ns c nm ts ss, add_all (spec_HH (nneurons ns) nm ss) (map fst (map (pair_of ns c nm) ts)) =
  spec_HH (nneurons ns) nm (ss ++ concat (map (task_samples ns) ts)).
Proof.
  intros ns c nm. induction ts as [|t ts IH]; intros ss; [cbn; now rewrite app_nil_r|].
  cbn [map concat]. unfold add_all in *. cbn [fold_left fst pair_of]. rewrite add_spec_HH, IH, <- app_assoc. reflexivity.
Qed.
Lemma add_all_HT : forall ns c nm ts ss, add_all (spec_HT (nneurons ns) c ss) (map snd (map (pair_of ns c nm) ts)) =
  spec_HT (nneurons ns) c (ss ++ concat (map (task_samples ns) ts)).
Proof.
  intros ns c nm. induction ts as [|t ts IH]; intros ss; [cbn; now rewrite app_nil_r|].
  cbn [map concat]. unfold add_all in *. cbn [fold_left snd pair_of]. rewrite add_spec_HT, IH, <- app_assoc. reflexivity.
Qed.

Lemma pairs_mat : forall ns c nm ts W, In (Ok W) (map (fun t => Ok (pair_of ns c nm t)) ts) ->
  is_mat (nneurons ns) (nneurons ns) (fst W) /\ is_mat (nneurons ns) c (snd W).
Proof.
  intros ns c nm ts W H. apply in_map_iff in H. destruct H as (t & E & _). injection E as <-. cbn [fst snd pair_of].
  split; [apply is_mat_mk|rewrite spec_HT_mk; apply is_mat_mk].
Qed.
Lemma spec_mats : forall L c nm ss, is_mat L L (spec_HH L nm ss) /\ is_mat L c (spec_HT L c ss).
Proof. intros. rewrite spec_HH_mk, spec_HT_mk. split; apply is_mat_mk. Qed.

Lemma samples_good : forall ns c nm ts, Forall (good_task ns c nm) ts -> RidgeProofs.good (nneurons ns) (concat (map (task_samples ns) ts)).
Proof.
  intros ns c nm ts H s Hs. apply in_concat in Hs. destruct Hs as (l & Hl & Hs). apply in_map_iff in Hl. destruct Hl as (t & <- & Ht).
  rewrite Forall_forall in H. specialize (H t Ht). destruct H as [HW HU E1 _ _ _ _ HD (_ & _ & Hi & _)].
  pose proof HD as (_ & _ & HL & _ & _). unfold task_samples, job_samples in Hs.
  rewrite <- samples_plain in Hs by (rewrite map_length; now apply range_len).
  revert Hs. apply good_samples.
  - intros w Hw. apply in_map_iff in Hw. destruct Hw as (? & <- & _). lra.
  - intros h Hh. apply in_map_iff in Hh. destruct Hh as (x & <- & _). rewrite <- E1.
    exact (hrow_length (s_inputs (e_net (j_elm (k_job t)))) _ x (wf_groups _ HW)).
Qed.

(** solving from the files *)
Definition solves (ns : list (@neuron NumR)) (c : nat) (nm : R) (gh gt : @pfile NumR) (ss : list sample) : Prop :=
  forall e, s_neurons (e_net e) = ns -> s_outputs (e_net e) = c -> s_norm (e_net e) = nm -> s_L (e_net e) = Some (nneurons ns) ->
  exists mH mT e' B, gh = FData (nneurons ns) mH /\ gt = FData c mT /\
    hp_solve_corr e (mkFs (Some (nneurons ns, mH)) (Some (c, mT))) = (e', Ok tt) /\ s_B (e_net e') = Some B /\
    ridge_solution (nneurons ns) c nm ss B.

Lemma solves_spec : forall ns c nm ss, ns <> [] -> 0 < nm -> RidgeProofs.good (nneurons ns) ss ->
  solves ns c nm (FData (nneurons ns) (spec_HH (nneurons ns) nm ss)) (FData c (spec_HT (nneurons ns) c ss)) ss.
Proof.
  intros ns c nm ss Hns Hnm Hg e E1 E2 E3 E4.
  assert (getL (e_net e) = nneurons ns) as EL by (unfold getL; now rewrite E4).
  destruct (solve_files_any e (@mkFs NumR (Some (nneurons ns, spec_HH (nneurons ns) nm ss)) (Some (c, spec_HT (nneurons ns) c ss))) ss) as (e' & B & S1 & S2 & S3);
    rewrite ?EL, ?E1, ?E2, ?E3; auto.
  { right. cbn [f_HH f_HT]. auto. }
  { cbn [f_HH]. discriminate. }
  { congruence. }
  rewrite EL, E2, E3 in S3. do 4 eexists. split; [reflexivity|]. split; [reflexivity|]. split; [exact S1|]. split; [exact S2|exact S3].
Qed.

Definition files_of (L c : nat) (nm : R) (ss : list sample) (ps : list (@ppc NumR)) : @pst NumR :=
  @mkPst NumR (@FData NumR L (spec_HH L nm ss)) (@FData NumR c (spec_HT L c ss)) None None ps.
Definition start_pcs (n : nat) : list (@ppc NumR) := repeat CheckH n.
Lemma start_fresh : forall n, Forall fresh (start_pcs n).
Proof. intros n. apply Forall_forall. intros q Hq. apply repeat_spec in Hq. now left. Qed.

(** C26: nothing is lost, and the files are solved to the ridge solution of all data *)
Lemma parallel_from : forall ns c nm ini ss ts ps evs g,
  ns <> [] -> 0 < nm -> RidgeProofs.good (nneurons ns) ss -> Forall (good_task ns c nm) ts ->
  Forall fresh ps -> length ps = length ts -> (forall p, ~ In (Crash p) evs) ->
  @pexec NumR (nneurons ns) c ini (work_of (map task_work ts)) (files_of (nneurons ns) c nm ss ps) evs = Some g ->
  (length evs <= 15 * length ts)%nat /\
  ((forall p, @pstep NumR (nneurons ns) c ini (work_of (map task_work ts)) p g = None) ->
    pcs g = map (fun _ => Done) ts /\
    solves ns c nm (gH g) (gT g) (ss ++ concat (map (task_samples ns) ts))).
Proof.
  intros ns c nm ini ss ts ps evs g Hns Hnm Hg HT HF HL HC HE.
  pose proof (tasks_work ns c nm ts HT) as EW. rewrite EW in HE |- *.
  destruct (spec_mats (nneurons ns) c nm ss) as [M1 M2].
  assert (length ps = length (map (fun t => @Ok _ (pair_of ns c nm t)) ts)) as HL' by (now rewrite map_length).
  destruct (parallel_all (nneurons ns) c ini _ _ _ M1 M2 (pairs_mat ns c nm ts) ps evs g HF HL' HC HE) as [B1 B2].
  rewrite map_length in B1. split; [exact B1|]. intros HS. destruct (B2 HS) as (P1 & P2 & P3 & _).
  split; [rewrite P1, map_map; reflexivity|].
  rewrite good_pairs in P2, P3. rewrite add_all_HH in P2. rewrite add_all_HT in P3. rewrite P2, P3.
  apply solves_spec; auto.
  intros s Hs. apply in_app_or in Hs. destruct Hs as [Hs|Hs]; [now apply Hg|]. exact (samples_good ns c nm ts HT s Hs).
Qed.

(** C27, when one process gets through the creation before the others look *)
Lemma created_run : forall (L c : nat) (nm : R) work n,
  @pexec NumR L c (scaled_eye L nm) work (@mkPst NumR FNone FNone None None (start_pcs (S n))) (repeat (Run 0) 6) =
  Some (files_of L c nm [] (Work :: start_pcs n)).
Proof.
  intros. unfold start_pcs, files_of. rewrite <- scaled_eye_spec, <- zero_HT. reflexivity.
Qed.

Lemma pexec_app : forall (L c : nat) ini work es fs g g1, @pexec NumR L c ini work g es = Some g1 ->
  @pexec NumR L c ini work g (es ++ fs) = @pexec NumR L c ini work g1 fs.
Proof.
  intros L c ini work. induction es as [|e es IH]; intros fs g g1 H; cbn [pexec app] in *; [now injection H as ->|].
  destruct (@pfire NumR L c ini work e g); [|discriminate]. now apply IH.
Qed.

Lemma parallel_created : forall ns c nm ts evs g,
  ns <> [] -> 0 < nm -> Forall (good_task ns c nm) ts -> ts <> [] -> (forall p, ~ In (Crash p) evs) ->
  @pexec NumR (nneurons ns) c (scaled_eye (nneurons ns) nm) (work_of (map task_work ts))
     (@mkPst NumR FNone FNone None None (start_pcs (length ts))) (repeat (Run 0) 6 ++ evs) = Some g ->
  (length evs <= 15 * length ts)%nat /\
  ((forall p, @pstep NumR (nneurons ns) c (scaled_eye (nneurons ns) nm) (work_of (map task_work ts)) p g = None) ->
    pcs g = map (fun _ => Done) ts /\ solves ns c nm (gH g) (gT g) (concat (map (task_samples ns) ts))).
Proof.
  intros ns c nm ts evs g Hns Hnm HT Hne HC HE. destruct ts as [|t ts]; [congruence|]. cbn [length] in HE.
  rewrite (pexec_app _ _ _ _ _ _ _ _ (created_run _ _ _ _ _)) in HE.
  apply (parallel_from ns c nm (@scaled_eye NumR (nneurons ns) nm) [] (t :: ts) (Work :: start_pcs (length ts)) evs g); auto.
  - intros s [].
  - constructor; [right; now right|apply start_fresh].
  - cbn [length]. unfold start_pcs. now rewrite repeat_length.
Qed.

(** C28: whoever dies and wherever *)
Lemma crash_ridge : forall ns c nm ini ss ts ps evs g,
  ns <> [] -> 0 < nm -> RidgeProofs.good (nneurons ns) ss -> Forall (good_task ns c nm) ts ->
  Forall fresh ps -> length ps = length ts ->
  @pexec NumR (nneurons ns) c ini (work_of (map task_work ts)) (files_of (nneurons ns) c nm ss ps) evs = Some g ->
  (forall q, In q (pcs g) -> wroteH q = wroteT q) ->
  exists keep, length keep = length ts /\
    (forall p, nth_error (pcs g) p = Some Done -> nth_error keep p = Some true) /\
    solves ns c nm (gH g) (gT g) (ss ++ concat (map (task_samples ns) (select keep ts))).
Proof.
  intros ns c nm ini ss ts ps evs g Hns Hnm Hg HT HF HL HE HQ.
  pose proof (exec_len _ _ _ _ _ _ _ HE) as EL. cbn [pcs files_of] in EL.
  exists (map wroteH (pcs g)). split; [rewrite map_length; congruence|]. split.
  { intros p Hp. rewrite nth_error_map, Hp. reflexivity. }
  pose proof (tasks_work ns c nm ts HT) as EW. rewrite EW in HE.
  destruct (spec_mats (nneurons ns) c nm ss) as [M1 M2].
  assert (length ps = length (map (fun t => @Ok _ (pair_of ns c nm t)) ts)) as HL' by (now rewrite map_length).
  destruct (contents (nneurons ns) c ini _ _ _ M1 M2 (pairs_mat ns c nm ts) ps evs g HF HL' HE) as [P2 P3].
  rewrite written_pairs in P2, P3 by congruence.
  assert (map wroteT (pcs g) = map wroteH (pcs g)) as ET by (apply map_ext_in; intros; symmetry; now apply HQ).
  rewrite ET in P3. rewrite add_all_HH in P2. rewrite add_all_HT in P3. rewrite P2, P3.
  assert (Forall (good_task ns c nm) (select (map wroteH (pcs g)) ts)) as HT'.
  { clear -HT. generalize (map wroteH (pcs g)). induction HT as [|t ts Ht _ IH]; intros [|b k]; cbn [select]; try constructor.
    destruct b; auto. }
  apply solves_spec; auto.
  intros s Hs. apply in_app_or in Hs. destruct Hs as [Hs|Hs]; [now apply Hg|]. exact (samples_good ns c nm _ HT' s Hs).
Qed.
End Jobs.

(** C26: the files end as after calls one after the other, in the order of the list *)
Lemma parallel_calls : forall L c ini js mH mT evs g fs rs,
  is_mat L L mH -> is_mat L c mT -> Forall (job_of L c) js ->
  (forall j HH HT, In j js -> local_work j = Ok (HH, HT) -> is_mat L L HH /\ is_mat L c HT) ->
  (forall p, ~ In (Crash p) evs) ->
  @pexec NumR L c ini (work_of (map (@local_work NumR) js)) (@mkPst NumR (@FData NumR L mH) (@FData NumR c mT) None None (start_pcs (length js))) evs = Some g ->
  (forall p, @pstep NumR L c ini (work_of (map (@local_work NumR) js)) p g = None) ->
  calls (@mkFs NumR (Some (L, mH)) (Some (c, mT))) js = (fs, rs) ->
  (exists nH nT, gH g = FData L nH /\ gT g = FData c nT /\ fs = @mkFs NumR (Some (L, nH)) (Some (c, nT))) /\
  pcs g = map (fun r => match r with Ok _ => Done | Err x => Raised x end) rs.
Proof.
  intros L c ini js mH mT evs g fs rs H1 H2 HJ HW HC HE HS HR.
  assert (forall W, In (Ok W) (map (@local_work NumR) js) -> is_mat L L (fst W) /\ is_mat L c (snd W)) as HW'.
  { intros [A B] HI. apply in_map_iff in HI. destruct HI as (j & E & Hj). exact (HW j A B Hj E). }
  pose proof (calls_spec L c js mH mT H1 H2 HJ HW') as EC. rewrite HR in EC. injection EC as -> ->.
  assert (length (start_pcs (length js)) = length (map (@local_work NumR) js)) as HL by (unfold start_pcs; now rewrite repeat_length, map_length).
  destruct (parallel_all L c ini mH mT _ H1 H2 HW' (start_pcs (length js)) evs g (start_fresh _) HL HC HE) as [_ B2].
  destruct (B2 HS) as (P1 & P2 & P3 & _). split.
  - do 2 eexists. split; [exact P2|]. split; [exact P3|]. reflexivity.
  - rewrite P1. rewrite (map_map unit_of). apply map_ext. intros [W|x]; reflexivity.
Qed.
