(** train starts from the neurons and the settings only: nothing an earlier training left is used. *)
From Verif Require Import Base Num Mat LinAlg Slfn Strs Elm Mrsr Search Mss Hpelm.
Local Open Scope string_scope.
Local Open Scope list_scope.

Section F.
Context {K : Num} {SG : Sing} {BR : Brent} {SH : Shuffle}.
(** the same model but for what training leaves behind: output weights, sums, class weights, task and ranking *)
Definition same_setup (e e' : elm) : Prop :=
  e_batch e' = e_batch e /\ e_prec64 e' = e_prec64 e /\ e_accel e' = e_accel e /\
  s_kind (e_net e') = s_kind (e_net e) /\ s_inputs (e_net e') = s_inputs (e_net e) /\ s_outputs (e_net e') = s_outputs (e_net e) /\
  s_norm (e_net e') = s_norm (e_net e) /\ s_neurons (e_net e') = s_neurons (e_net e).

Definition eb (b : option mat) (e : elm) : elm := with_net e (with_B (e_net e) b).
Lemma add_batch_B : forall b s X T w, add_batch (with_B s b) X T w = (with_B (fst (add_batch s X T w)) b, snd (add_batch s X T w)).
Proof.
  intros b s X T w. unfold add_batch. change (project (with_B s b) X) with (project s X). destruct (rbind (project s X) _) as [[H T']|]; [|reflexivity].
  change (getL (with_B s b)) with (getL s). cbn [with_B s_HH s_HT s_norm s_kind s_outputs]. destruct (if (length T' =? length H)%nat then _ else _); reflexivity.
Qed.
Lemma add_batches_B : forall b e parts s, add_batches e (with_B s b) parts = (with_B (fst (add_batches e s parts)) b, snd (add_batches e s parts)).
Proof.
  intros b e. induction parts as [|[X0 T0] parts IH]; intros s; [reflexivity|]. cbn [add_batches]. destruct (if is_wc e then _ else _) as [w|]; [|reflexivity]. rewrite add_batch_B.
  destruct (add_batch s X0 T0 w) as [s1 [u|x]]; cbn [fst snd]; [apply IH|reflexivity].
Qed.
Lemma add_batches_eb : forall b e parts s, add_batches (eb b e) s parts = add_batches e s parts.
Proof.
  intros b e. induction parts as [|[X0 T0] parts IH]; intros s; [reflexivity|]. cbn [add_batches]. change (is_wc (eb b e)) with (is_wc e). change (e_wc (eb b e)) with (e_wc e). destruct (if is_wc e then _ else _) as [w|]; [|reflexivity].
  destruct (add_batch s X0 T0 w) as [s1 [u|x]]; auto.
Qed.
Lemma add_data_B : forall b e X T, add_data (eb b e) X T = (eb b (fst (add_data e X T)), snd (add_data e X T)).
Proof.
  intros b e X T. unfold add_data. change (e_batch (eb b e)) with (e_batch e). destruct (nbatches _ _) as [nb|]; [|reflexivity].
  assert (fill_wc (eb b e) T = eb b (fill_wc e T)) as ->. { unfold fill_wc. change (is_wc (eb b e)) with (is_wc e). change (e_wc (eb b e)) with (e_wc e). destruct (is_wc e); [destruct (e_wc e)|]; reflexivity. }
  destruct (nb <=? 0)%Z; [reflexivity|]. destruct (array_split X _) as [xs0|]; [|reflexivity]. destruct (array_split T _) as [ts|]; [|reflexivity].
  change (e_net (eb b (fill_wc e T))) with (with_B (e_net (fill_wc e T)) b). rewrite add_batches_eb, add_batches_B. destruct (add_batches _ _ _). reflexivity.
Qed.
(** the same outcome; the same model after success, the same but for the output weights after failure *)
Definition out {A} (p q : elm * res A) : Prop := snd q = snd p /\ (exists b, fst q = eb b (fst p)) /\ forall v, snd p = Ok v -> q = p.
Lemma err_out : forall {A} b e x, @out A (e, Err x) (eb b e, Err x).
Proof. intros A b e x. split; [reflexivity|]. split; [exists b; reflexivity|]. intros v E. discriminate E. Qed.
Lemma refl_out : forall {A} p, @out A p p.
Proof. intros A [[[? ? ? ? ? ? B ? ?] ? ? ? ? ? ? ?] r]. split; [reflexivity|]. split; [exists B; reflexivity|auto]. Qed.
Lemma done_out : forall er er' (v : option num), out er er' -> out (done er v) (done er' v).
Proof.
  intros [e r] [e' r'] v (H1 & H2 & H3). unfold done. cbn [fst snd] in *. subst r'. split; [reflexivity|]. split; [exact H2|]. destruct r as [u|x]; cbn [fst snd]; [|intros w E; discriminate E].
  intros w _. specialize (H3 u eq_refl). injection H3 as ->. reflexivity.
Qed.
Lemma solve_B : forall b e, out (let (s, r) := solve (e_net e) in (with_net e s, r)) (let (s, r) := solve (e_net (eb b e)) in (with_net (eb b e) s, r)).
Proof.
  intros b e. unfold solve. cbn [eb with_net e_net with_B s_HH s_HT]. destruct (s_HH (e_net e)) as [HH|]; [destruct (s_HT (e_net e)) as [HT|]|].
  - split; [reflexivity|]. split; [|intros v _; reflexivity]. eexists. reflexivity.
  - split; [reflexivity|]. split; [exists b; reflexivity|]. intros v E. discriminate E.
  - split; [reflexivity|]. split; [exists b; reflexivity|]. intros v E. discriminate E.
Qed.
Lemma refit_B : forall b e X T best, refit (eb b e) X T best = refit e X T best.
Proof. reflexivity. Qed.
Lemma train_v_B : forall b e X T Xv Tv, out (train_v e X T Xv Tv) (train_v (eb b e) X T Xv Tv).
Proof.
  intros b e X T Xv Tv. unfold train_v. rewrite add_data_B. destruct (add_data e X T) as [e1 [u|x]]; cbn [fst snd]; [|apply err_out].
  change (select_v (eb b e1) Xv Tv) with (select_v e1 Xv Tv). destruct (select_v e1 Xv Tv) as [[[k r] q]|x]; cbn [lift_err]; [|apply err_out]. rewrite refit_B. apply refl_out.
Qed.
Lemma train_loo_B : forall b e X T, out (train_loo e X T) (train_loo (eb b e) X T).
Proof.
  intros b e X T. unfold train_loo. change (project (e_net (eb b e)) X) with (project (e_net e) X). destruct (project (e_net e) X) as [H|]; cbn [lift_err]; [|apply err_out].
  rewrite add_data_B. destruct (add_data e X T) as [e1 [u|x]]; cbn [fst snd]; [|apply err_out].
  change (select_loo (eb b e1) H T) with (select_loo e1 H T). destruct (select_loo e1 H T) as [[[k r] q]|x]; cbn [lift_err]; [|apply err_out]. rewrite refit_B. apply refl_out.
Qed.
Lemma build_B : forall X T N k is_ b e L, build_folds (eb b e) X T N k is_ L = (eb b (fst (build_folds e X T N k is_ L)), snd (build_folds e X T N k is_ L)).
Proof.
  intros X T N k. induction is_ as [|i is_ IH]; intros b e L; [reflexivity|]. cbn [build_folds]. destruct (fold_parts N k i) as [[tr vl] ts].
  change (reset (e_net (eb b e))) with (with_B (reset (e_net e)) b). rewrite add_batch_B. destruct (add_batch (reset (e_net e)) (rsel X tr) (rsel T tr) None) as [s1 [u|x]]; cbn [fst snd]; [|reflexivity].
  change (with_net (eb b e) (with_B s1 b)) with (eb b (with_net e s1)). change (get_corr (with_B s1 b)) with (get_corr s1). change (project (with_B s1 b)) with (project s1). change (getL (with_B s1 b)) with (getL s1).
  change (ranking (eb b (with_net e s1))) with (ranking (with_net e s1)).
  match goal with |- context [match ?o with Ok _ => _ | Err _ => _ end] => destruct o as [[fd L1]|] end; [|reflexivity].
  rewrite IH. destruct (build_folds (with_net e s1) X T N k is_ L1) as [e2 [[fds L2]|x]]; reflexivity.
Qed.
Lemma train_cv_B : forall b e X T k, out (train_cv e X T k) (train_cv (eb b e) X T k).
Proof.
  intros b e X T k. unfold train_cv. change (getL (e_net (eb b e))) with (getL (e_net e)). rewrite build_B. destruct (build_folds e X T _ k _ _) as [e1 [[fds L]|x]]; cbn [fst snd]; [|apply err_out].
  change (select_cv (eb b e1) fds k L) with (select_cv e1 fds k L). destruct (select_cv e1 fds k L) as [[[[kk r] t] q]|x]; cbn [lift_err]; [|apply err_out]. rewrite refit_B. apply refl_out.
Qed.
Lemma train_basic_B : forall b e X T, out (train_basic e X T) (train_basic (eb b e) X T).
Proof.
  intros b e X T. unfold train_basic. rewrite add_data_B. destruct (add_data e X T) as [e1 [u|x]]; cbn [fst snd]; [|apply err_out].
  pose proof (solve_B b e1) as Q. destruct (solve (e_net e1)) as [s r], (solve (e_net (eb b e1))) as [s' r']. now apply done_out.
Qed.
Lemma parse_loop_B : forall b kw args e, parse_loop (eb b e) kw args = (eb b (fst (parse_loop e kw args)), snd (parse_loop e kw args)).
Proof.
  intros b kw. induction args as [|a args IH]; intros e; [reflexivity|]. cbn [parse_loop]. change (s_outputs (e_net (eb b e))) with (s_outputs (e_net e)).
  set (e1 := if a =? "OP" then with_op e true _ else e).
  assert ((if a =? "OP" then with_op (eb b e) true (match kw_kmax kw with Some k => Some k | None => e_kmax (eb b e) end) else eb b e) = eb b e1) as -> by (unfold e1; destruct (a =? "OP"); reflexivity).
  destruct (a =? "C"). { destruct (1 <? _)%nat; [|reflexivity]. change (with_class (eb b e1) (Some "c")) with (eb b (with_class e1 (Some "c"))). apply IH. }
  destruct (a =? "WC"). { destruct (1 <? _)%nat; [|reflexivity]. change (with_class (eb b e1) (Some "wc")) with (eb b (with_class e1 (Some "wc"))). destruct (kw_w kw) as [w|]; [|apply IH].
    destruct (length w =? _)%nat; [|reflexivity]. match goal with |- context [with_wc (eb b ?x) ?w] => change (with_wc (eb b x) w) with (eb b (with_wc x w)) end. apply IH. }
  destruct (_ || _)%bool. { destruct (1 <? _)%nat; [|reflexivity]. change (with_class (eb b e1) (Some "ml")) with (eb b (with_class e1 (Some "ml"))). apply IH. }
  destruct (a =? "R"); [change (with_class (eb b e1) None) with (eb b (with_class e1 None))|]; apply IH.
Qed.
Lemma parse_B : forall e e' args kw, same_setup e e' ->
  snd (parse_args e' args kw) = snd (parse_args e args kw) /\ s_neurons (e_net (fst (parse_args e' args kw))) = s_neurons (e_net (fst (parse_args e args kw))) /\ (snd (parse_args e args kw) = Ok tt -> exists b, fst (parse_args e' args kw) = eb b (fst (parse_args e args kw))).
Proof.
  intros [[k i o nm ns L B HH HT] ba p a cl wc op km] [[k' i' o' nm' ns' L' B' HH' HT'] ba' p' a' cl' wc' op' km'] args kw (E1 & E2 & E3 & E4 & E5 & E6 & E7 & E8). cbn in E1, E2, E3, E4, E5, E6, E7, E8. subst.
  set (e := mkElm _ ba p a cl wc op km). set (e' := mkElm _ ba p a cl' wc' op' km').
  assert (s_neurons (e_net e') = s_neurons (e_net e)) as EN by reflexivity.
  unfold parse_args. rewrite EN. destruct (s_neurons (e_net e)) as [|n1' nr]; [cbn; split; [reflexivity|split; [reflexivity|intros D; discriminate D]]|].
  change (with_wc (with_class (with_op (with_net e' (reset (e_net e'))) false None) None) None) with (eb B' (with_wc (with_class (with_op (with_net e (reset (e_net e))) false None) None) None)).
  set (e0 := with_wc (with_class (with_op (with_net e (reset (e_net e))) false None) None) None).
  destruct (negb (at_most_one (map upper args) ["V"; "CV"; "LOO"])); [cbn; split; [reflexivity|split; [reflexivity|intros D; discriminate D]]|].
  destruct (negb (at_most_one (map upper args) ["C"; "WC"; "ML"; "MC"])); [cbn; split; [reflexivity|split; [reflexivity|intros D; discriminate D]]|].
  rewrite parse_loop_B. destruct (parse_loop e0 kw (map upper args)) as [e2 [u|y]]; cbn [fst snd]; [|split; [reflexivity|split; [reflexivity|intros D; discriminate D]]].
  split; [reflexivity|]. destruct (kw_batch kw); (split; [reflexivity|]; exists B'; reflexivity).
Qed.
Definition same_outcome {A} (p q : elm * res A) : Prop :=
  snd q = snd p /\ (forall v, snd p = Ok v -> fst q = fst p) /\ s_neurons (e_net (fst q)) = s_neurons (e_net (fst p)).
Lemma out_same : forall {A} (p q : elm * res A), out p q -> same_outcome p q.
Proof. intros A q r (H1 & (b & H2) & H3). split; [exact H1|]. split; [intros v Hv; now rewrite (H3 v Hv)|]. rewrite H2. reflexivity. Qed.
Lemma same_err : forall {A} e e' x, s_neurons (e_net e') = s_neurons (e_net e) -> @same_outcome A (e, Err x) (e', Err x).
Proof. intros A e e' x H. split; [reflexivity|]. split; [intros v D; discriminate D|exact H]. Qed.
Theorem train_forgets : forall e e' X T args kw, same_setup e e' -> same_outcome (train e X T args kw) (train e' X T args kw).
Proof.
  intros e e' X T args kw HS. destruct (parse_B e e' args kw HS) as (P1 & P2 & P3). unfold train.
  assert (checkdata e' X T = checkdata e X T) as ->. { destruct HS as (_ & _ & _ & _ & E5 & E6 & _). unfold checkdata. now rewrite E5, E6. }
  destruct (checkdata e X T) as [[x t]|y]; [|apply same_err; apply HS].
  destruct (parse_args e args kw) as [e1 [[]|y]], (parse_args e' args kw) as [e1' r]; cbn [fst snd] in *; subst r; [|apply same_err; exact P2].
  destruct (P3 eq_refl) as (b & ->). apply out_same. destruct (smem "V" args).
  { destruct (kw_Xv kw) as [Xv|]; [|apply err_out]. destruct (kw_Tv kw) as [Tv|]; [|apply err_out]. change (checkdata (eb b e1) Xv Tv) with (checkdata e1 Xv Tv). destruct (checkdata e1 Xv Tv) as [v|]; cbn [lift_err]; [apply train_v_B|apply err_out]. }
  destruct (smem "CV" args). { destruct (kw_k kw) as [kk|]; [|apply err_out]. destruct (Nat.leb_spec 3 kk); [apply train_cv_B|apply err_out]. }
  destruct (smem "LOO" args); [apply train_loo_B|apply train_basic_B].
Qed.
Theorem hp_train_forgets : forall e e' fX fT args kw istart icount, same_setup e e' ->
  same_outcome (hp_train e fX fT args kw istart icount) (hp_train e' fX fT args kw istart icount).
Proof.
  intros e e' fX fT args kw istart icount HS. destruct (parse_B e e' args kw HS) as (P1 & P2 & P3). unfold hp_train.
  assert (hp_check e' fX fT = hp_check e fX fT) as ->. { destruct HS as (_ & _ & _ & _ & E5 & E6 & _). unfold hp_check. now rewrite E5, E6. }
  destruct (hp_check e fX fT) as [xt|y]; [|apply same_err; apply HS].
  destruct (parse_args e args kw) as [e1 [[]|y]], (parse_args e' args kw) as [e1' r]; cbn [fst snd] in *; subst r; [|apply same_err; exact P2].
  destruct (P3 eq_refl) as (b & ->). apply out_same. unfold hp_add_data. change (s_neurons (e_net (eb b e1))) with (s_neurons (e_net e1)). destruct (s_neurons (e_net e1)); [apply err_out|].
  change (hp_check (eb b e1) fX fT) with (hp_check e1 fX fT). destruct (hp_check e1 fX fT) as [[X T]|]; [|apply err_out].
  change (e_batch (eb b e1)) with (e_batch e1). destruct (nbatches _ _) as [nb|]; [|apply err_out].
  set (rs := ranges _ _ _ _).
  assert (hp_fill_wc (eb b e1) T rs = eb b (hp_fill_wc e1 T rs)) as ->. { unfold hp_fill_wc. change (is_wc (eb b e1)) with (is_wc e1). change (e_wc (eb b e1)) with (e_wc e1). destruct (is_wc e1); [destruct (e_wc e1)|]; reflexivity. }
  change (e_net (eb b (hp_fill_wc e1 T rs))) with (with_B (e_net (hp_fill_wc e1 T rs)) b). rewrite add_batches_eb, add_batches_B. destruct (add_batches _ _ _) as [s1 [u|x]]; cbn [fst snd]; [|exact (err_out b (with_net (hp_fill_wc e1 T rs) s1) x)].
  exact (solve_B b (with_net (hp_fill_wc e1 T rs) s1)).
Qed.
End F.
