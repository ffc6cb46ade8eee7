(** Histories of API calls on one model object (C10, C11). *)
From Verif Require Import Base Num Mat LinAlg Slfn Strs Elm Mrsr Search Mss Hpelm MatFacts SplitProofs Spec ElmFacts WfProofs.

Section History.
Context {K : Num} {SG : Sing} {BR : Brent} {SH : Shuffle}.

(** The state-changing methods of ELM / HPELM and of the network object, with
    their arguments.  (project, predict, error, confusion do not change the model.) *)
Inductive call :=
| CAddNeurons (number : Z) (func : func_arg) (W : option (nat * mat)) (B : option vec) (rW : nat -> mat) (rB : nat -> vec)
| CAddData (X T : mat)
| CTrain (X T : arr) (args : list string) (kw : kwargs)
| CSolve
| CReset
| CPrune (idx : list nat)
| CSetB (r c : nat) (B : mat)
| CSetCorr (r0 r1 : nat) (HH : mat) (t0 t1 : nat) (HT : mat)
| CLoad (m : saved)
| CHpAddData (fX fT : src) (istart : Z) (icount : option Z) (fs : option corrfs)
| CHpTrain (fX fT : src) (args : list string) (kw : kwargs) (istart icount : option Z)
| CHpSolveCorr (fs : corrfs)
| CValidationCorr (fs : corrfs) (fXv fTv : src) (Ls : list nat).

(** the model after the call, whether it returned or raised *)
Definition step (e : elm) (c : call) : elm :=
  match c with
  | CAddNeurons n f W B rW rB => fst (add_neurons e n f W B rW rB)
  | CAddData X T => fst (add_data e X T)
  | CTrain X T args kw => fst (train e X T args kw)
  | CSolve => with_net e (fst (solve (e_net e)))
  | CReset => with_net e (reset (e_net e))
  | CPrune idx => with_net e (prune (e_net e) idx)
  | CSetB r c B => with_net e (fst (set_B (e_net e) r c B))
  | CSetCorr r0 r1 HH t0 t1 HT => with_net e (fst (set_corr (e_net e) r0 r1 HH t0 t1 HT))
  | CLoad m => fst (update_from e m)
  | CHpAddData fX fT i n fs => fst (fst (hp_add_data e fX fT i n fs))
  | CHpTrain fX fT args kw i n => fst (hp_train e fX fT args kw i n)
  | CHpSolveCorr fs => fst (hp_solve_corr e fs)
  | CValidationCorr fs fX fT Ls => fst (validation_corr e fs fX fT Ls)
  end.

(** The arguments are arrays (rectangular), random matrices have the requested
    shape, files loaded contain models that were saved.  [load] into an object
    with an accelerator: only if it has the same number of inputs (see the
    refutation C10_load_refuted). *)
Definition args_ok (e : elm) (c : call) : Prop :=
  match c with
  | CAddNeurons _ _ W _ rW rB =>
      (forall c m, W = Some (c, m) -> Forall (fun r => length r = c) m) /\ rand_shapes (s_inputs (e_net e)) rW rB
  | CSetB r c B => is_mat r c B
  | CSetCorr r0 r1 HH t0 t1 HT => is_mat r0 r1 HH /\ is_mat t0 t1 HT
  | CLoad m => wf_saved m /\ (e_accel e = None \/ s_inputs (e_net e) = sv_inputs m)
  | CHpSolveCorr fs => wf_fs fs
  | CValidationCorr fs _ _ _ => wf_fs fs
  | _ => True
  end.

(** the models that can be reached from the constructor *)
Inductive reach : elm -> Prop :=
| reach_init inputs outputs cls w batch accel prec norm e :
    elm_init inputs outputs cls w batch accel prec norm = Ok e -> reach e
| reach_step e c : reach e -> args_ok e c -> reach (step e c).

Lemma step_wf : forall e c, sing_shapes -> wf_elm e -> args_ok e c -> wf_elm (step e c).
Proof.
  intros e c HS H HA. destruct c; cbn [step args_ok] in *.
  - destruct HA. now apply wf_add_neurons.
  - now apply wf_add_data.
  - now apply wf_train.
  - unfold wf_elm. cbn. now apply wf_solve.
  - unfold wf_elm. cbn. now apply wf_reset.
  - unfold wf_elm. cbn. now apply wf_prune.
  - unfold wf_elm. cbn [e_net with_net]. now apply wf_set_B.
  - destruct HA. unfold wf_elm. cbn [e_net with_net]. now apply wf_set_corr.
  - destruct HA. now apply wf_update_from.
  - now apply wf_hp_add_data.
  - now apply wf_hp_train.
  - now apply wf_hp_solve_corr.
  - now apply wf_validation_corr.
Qed.

Lemma init_wf : forall inputs outputs cls w batch accel prec norm e,
  elm_init inputs outputs cls w batch accel prec norm = Ok e ->
  wf_elm e /\ s_B (e_net e) = None /\ s_HH (e_net e) = None /\ s_HT (e_net e) = None.
Proof.
  intros inputs outputs cls w batch accel prec norm e E. unfold elm_init in E.
  destruct (negb _); [discriminate|].
  destruct w as [ws|]; [destruct (_ =? _)%nat; [|discriminate]|]; apply Ok_inj in E; subst e; cbn; auto using wf_init.
  all: split; auto; apply wf_init.
Qed.

Theorem reach_wf : forall e, sing_shapes -> reach e -> wf_net (e_net e).
Proof.
  intros e HS H. induction H as [? ? ? ? ? ? ? ? e E|e c Hr IH HA].
  - eapply init_wf; eauto.
  - now apply step_wf.
Qed.

(** A saved model is what any reachable model writes. *)
Lemma saved_wf : forall e, wf_net (e_net e) -> wf_saved (output_format e).
Proof. intros e H. split; cbn; [apply (wf_groups _ H)|apply (wf_weights _ H)]. Qed.

(** ** C11 *)
Lemma predict_none : forall e X, s_B (e_net e) = None -> exists x, elm_predict e X = Err x.
Proof.
  intros e X H. unfold elm_predict. destruct (check_arr X _); cbn [rbind]; eauto.
  unfold predict. rewrite H. eauto.
Qed.

(** A successful add_neurons removes the output weights and the accumulated data. *)
Lemma add_neurons_clears : forall e number func W B rW rB e',
  add_neurons e number func W B rW rB = (e', Ok tt) ->
  s_B (e_net e') = None /\ s_HH (e_net e') = None /\ s_HT (e_net e') = None.
Proof.
  intros e number func W B rW rB e' E. unfold add_neurons in E.
  destruct (parse_func func) as [f|]; [|discriminate]. destruct (number <? 0)%Z; [discriminate|].
  repeat match type of E with (if ?b then _ else _) = _ => destruct b; [|discriminate] end.
  injection E as <-. cbn. auto.
Qed.

Lemma prune_clears : forall s idx, s_B (prune s idx) = None /\ s_HH (prune s idx) = None /\ s_HT (prune s idx) = None.
Proof. intros. cbn. auto. Qed.

(** The calls after which there may be output weights. *)
Definition gives_weights (c : call) : bool :=
  match c with
  | CTrain _ _ _ _ | CSolve | CSetB _ _ _ | CLoad _ | CHpTrain _ _ _ _ _ _ | CHpSolveCorr _ | CValidationCorr _ _ _ _ => true
  | _ => false
  end.

Lemma add_batch_B : forall s X T wv, s_B (fst (add_batch s X T wv)) = s_B s.
Proof.
  intros. unfold add_batch.
  match goal with |- context [match ?p with Ok _ => _ | Err _ => _ end] => destruct p as [[H' T']|x] end; auto.
  match goal with |- context [match ?p with Ok _ => _ | Err _ => _ end] => destruct p end; auto.
Qed.
Lemma add_batches_B : forall e parts s, s_B (fst (add_batches e s parts)) = s_B s.
Proof.
  intros e. induction parts as [|[X T] r IH]; intros s; cbn [add_batches]; auto.
  match goal with |- context [match ?p with Ok _ => _ | Err _ => _ end] => destruct p as [wv|x] end; auto.
  pose proof (add_batch_B s X T wv) as H1. destruct (add_batch s X T wv) as [s1 [u|x]]; cbn [fst] in *; auto.
  now rewrite IH.
Qed.
Lemma add_data_B : forall e X T, s_B (e_net (fst (add_data e X T))) = s_B (e_net e).
Proof.
  intros. unfold add_data. destruct (nbatches _ _) as [nb|]; auto. cbv zeta.
  destruct (nb <=? 0)%Z; [cbn; now rewrite fill_wc_net|]. destruct (array_split X _); [|cbn; now rewrite fill_wc_net].
  destruct (array_split T _); [|cbn; now rewrite fill_wc_net].
  pose proof (add_batches_B (fill_wc e T) (combine a a0) (e_net (fill_wc e T))) as H.
  destruct (add_batches _ _ _) as [s r]. cbn [fst e_net with_net] in *. rewrite H. now rewrite fill_wc_net.
Qed.
Lemma write_fs_B : forall s fs, s_B (fst (fst (write_fs s fs))) = s_B s.
Proof.
  intros. unfold write_fs. destruct (get_corr s) as [[[HH HT]|]|]; auto.
  destruct (f_HH fs) as [[]|]; destruct (f_HT fs) as [[]|]; destruct (s_kind s); auto.
Qed.
Lemma prepare_fs_B : forall s fs, s_B (fst (fst (prepare_fs s fs))) = s_B s.
Proof.
  intros. unfold prepare_fs.
  match goal with |- context [match ?p with Ok _ => _ | Err _ => _ end] => destruct p as [f1|x] end; auto.
  destruct (f_HT f1) as [[]|]; auto. match goal with |- context [if ?b then _ else _] => destruct b end; auto.
Qed.
Lemma hp_add_data_B : forall e fX fT i n fs, s_B (e_net (fst (fst (hp_add_data e fX fT i n fs)))) = s_B (e_net e).
Proof.
  intros. unfold hp_add_data. destruct (s_neurons (e_net e)); auto.
  destruct (hp_check e fX fT) as [[X T]|]; auto.
  match goal with |- context [match ?p with pair _ _ => _ end] => destruct p as [[e0 fs0] r0] eqn:E end.
  assert (s_B (e_net e0) = s_B (e_net e)) as H0.
  { destruct fs as [f|]; [|injection E as <- <- <-; auto].
    pose proof (prepare_fs_B (e_net e) f) as P. destruct (prepare_fs (e_net e) f) as [[s f'] r].
    injection E as <- <- <-. exact P. }
  destruct r0 as [u|]; auto. destruct (nbatches _ _) as [nb|]; auto.
  match goal with |- context [add_batches ?a ?b ?c] => pose proof (add_batches_B a c b) as H1; destruct (add_batches a b c) as [s1 [u1|]] end;
    cbn [fst e_net with_net] in *; rewrite hp_fill_wc_net in H1; [|congruence].
  destruct fs0 as [f|]; cbn [fst e_net with_net]; [|congruence].
  pose proof (write_fs_B s1 f) as P. destruct (write_fs s1 f) as [[s2 f'] r]. cbn [fst e_net with_net] in *. congruence.
Qed.

Lemma step_B : forall e c, gives_weights c = false -> s_B (e_net e) = None -> s_B (e_net (step e c)) = None.
Proof.
  intros e c Hc H. destruct c; cbn [gives_weights] in Hc; try discriminate; cbn [step].
  - destruct (add_neurons e number func W B rW rB) as [e' r] eqn:E. cbn [fst].
    destruct r as [[]|x]; [eapply add_neurons_clears in E; tauto|].
    unfold add_neurons in E. destruct (parse_func func) as [f|]; [|injection E as <- _; auto].
    destruct (number <? 0)%Z; [injection E as <- _; auto|].
    repeat match type of E with (if ?b then _ else _) = _ => destruct b; [|injection E as <- _; auto] end. discriminate.
  - now rewrite add_data_B.
  - exact H.
  - cbn. auto.
  - unfold set_corr. cbn [e_net with_net]. destruct (s_L (e_net e)); auto.
    repeat match goal with |- context [if ?b then _ else _] => destruct b; auto end.
  - now rewrite hp_add_data_B.
Qed.

(** After a change of neurons and any calls that do not produce output weights,
    predict raises. *)
Theorem no_stale_weights : forall cs e X, s_B (e_net e) = None -> forallb (fun c => negb (gives_weights c)) cs = true ->
  exists x, elm_predict (fold_left step cs e) X = Err x.
Proof.
  induction cs as [|c cs IH]; intros e X H HF; cbn [fold_left].
  - now apply predict_none.
  - cbn [forallb] in HF. apply andb_prop in HF. destruct HF as [F1 F2].
    apply IH; auto. apply step_B; auto. now apply negb_true_iff.
Qed.
End History.
