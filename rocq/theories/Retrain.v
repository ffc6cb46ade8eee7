(** * Training does not depend on what the model was used for before *)
From Verif Require Import Base Num Mat LinAlg Slfn Strs Elm Mrsr Search Mss Hpelm.
Local Open Scope string_scope.

Section Retrain.
Context {K : Num} {SG : Sing} {BR : Brent} {SH : Shuffle}.

(** the state with other output weights *)
Definition setB (b : option mat) (e : elm) : elm := with_net e (with_B (e_net e) b).
Definition setBs {A} (b : option mat) (r : slfn * A) : slfn * A := (with_B (fst r) b, snd r).
Definition setBe {A} (b : option mat) (r : elm * A) : elm * A := (setB b (fst r), snd r).

Lemma add_batch_B : forall b s X T wc, add_batch (with_B s b) X T wc = setBs b (add_batch s X T wc).
Proof.
  intros b s X T wc. unfold add_batch. change (project (with_B s b) X) with (project s X). change (getL (with_B s b)) with (getL s).
  match goal with |- match ?p with _ => _ end = _ => destruct p as [[H T']|x] end; [|reflexivity].
  cbn [s_HH s_HT s_norm s_outputs s_kind with_B]. destruct (if (length T' =? length H)%nat then mapM (fit_cols (s_outputs s)) T' else Err ValueError); reflexivity.
Qed.
Lemma add_batches_B : forall b e parts s, add_batches (setB b e) (with_B s b) parts = setBs b (add_batches e s parts).
Proof.
  intros b e. induction parts as [|[X0 T0] r IH]; intros s; [reflexivity|]. cbn [add_batches].
  change (is_wc (setB b e)) with (is_wc e). change (e_wc (setB b e)) with (e_wc e).
  match goal with |- match ?p with _ => _ end = _ => destruct p as [wv|x] end; [|reflexivity].
  rewrite add_batch_B. destruct (add_batch s X0 T0 wv) as [s1 [[]|x]]; cbn [setBs fst snd]; [apply IH|reflexivity].
Qed.
Lemma fill_wc_B : forall b e T, fill_wc (setB b e) T = setB b (fill_wc e T).
Proof. intros b e T. unfold fill_wc. change (is_wc (setB b e)) with (is_wc e). change (e_wc (setB b e)) with (e_wc e). destruct (is_wc e); [|reflexivity]. destruct (e_wc e); reflexivity. Qed.
Lemma add_data_B : forall b e X T, add_data (setB b e) X T = setBe b (add_data e X T).
Proof.
  intros b e X T. unfold add_data. change (e_batch (setB b e)) with (e_batch e). destruct (nbatches _ _) as [nb|x]; [|reflexivity].
  rewrite fill_wc_B. destruct (nb <=? 0)%Z; [reflexivity|]. destruct (array_split X (Z.to_nat nb)) as [xs|]; [|reflexivity].
  destruct (array_split T (Z.to_nat nb)) as [ts|]; [|reflexivity].
  change (e_net (setB b (fill_wc e T))) with (with_B (e_net (fill_wc e T)) b). rewrite add_batches_B.
  destruct (add_batches (fill_wc e T) (e_net (fill_wc e T)) (combine xs ts)) as [s r]. reflexivity.
Qed.
Lemma refit_B : forall b e X T best, refit (setB b e) X T best = refit e X T best.
Proof.
  intros b e X T best. unfold refit. change (prune (e_net (setB b e)) best) with (prune (e_net e) best).
  destruct (add_batch (prune (e_net e) best) X T None) as [s1 [[]|x]]; [|reflexivity]. destruct (solve s1). reflexivity.
Qed.
Lemma select_v_B : forall b e Xv Tv, select_v (setB b e) Xv Tv = select_v e Xv Tv.
Proof. reflexivity. Qed.
Lemma select_loo_B : forall b e H T, select_loo (setB b e) H T = select_loo e H T.
Proof. reflexivity. Qed.
Lemma select_cv_B : forall b e fds k L, select_cv (setB b e) fds k L = select_cv e fds k L.
Proof. reflexivity. Qed.
Lemma build_folds_B : forall b X T N k is_ e L, build_folds (setB b e) X T N k is_ L = setBe b (build_folds e X T N k is_ L).
Proof.
  intros b X T N k. induction is_ as [|i r IH]; intros e L; [reflexivity|]. cbn [build_folds]. destruct (fold_parts N k i) as [[tr vl] ts].
  change (reset (e_net (setB b e))) with (with_B (reset (e_net e)) b). rewrite add_batch_B.
  destruct (add_batch (reset (e_net e)) (rsel X tr) (rsel T tr) None) as [s1 [[]|x]]; cbn [setBs fst snd]; [|reflexivity].
  change (with_net (setB b e) (with_B s1 b)) with (setB b (with_net e s1)).
  change (get_corr (with_B s1 b)) with (get_corr s1). change (project (with_B s1 b)) with (project s1). change (getL (with_B s1 b)) with (getL s1).
  change (ranking (setB b (with_net e s1))) with (ranking (with_net e s1)).
  match goal with |- match ?p with _ => _ end = _ => destruct p as [[fd L1]|x] end; [|reflexivity].
  rewrite IH. destruct (build_folds (with_net e s1) X T N k r L1) as [e2 [[fds L2]|x]]; reflexivity.
Qed.

(** same outcome, and the same model when training succeeds *)
Definition same_run {A} (p q : elm * res A) : Prop :=
  snd p = snd q /\ forall a, snd p = Ok a -> fst p = fst q.

Lemma same_setB_err : forall A b e x, @same_run A (setB b e, Err x) (e, Err x).
Proof. intros. split; [reflexivity|]. intros a C. discriminate. Qed.
Lemma same_refl : forall A (p : elm * res A), same_run p p.
Proof. intros. split; reflexivity. Qed.

Lemma train_v_B : forall b e X T Xv Tv, same_run (train_v (setB b e) X T Xv Tv) (train_v e X T Xv Tv).
Proof.
  intros. unfold train_v. rewrite add_data_B. destruct (add_data e X T) as [e1 [[]|x]]; cbn [setBe fst snd]; [|apply same_setB_err].
  rewrite select_v_B. unfold lift_err. destruct (select_v e1 Xv Tv) as [[[k rank] t]|x]; [|apply same_setB_err]. rewrite refit_B. apply same_refl.
Qed.
Lemma train_cv_B : forall b e X T k, same_run (train_cv (setB b e) X T k) (train_cv e X T k).
Proof.
  intros. unfold train_cv. change (getL (e_net (setB b e))) with (getL (e_net e)). rewrite build_folds_B.
  destruct (build_folds e X T (length X) k (seq 0 k) (getL (e_net e))) as [e1 [[fds L]|x]]; cbn [setBe fst snd]; [|apply same_setB_err].
  rewrite select_cv_B. unfold lift_err. destruct (select_cv e1 fds k L) as [[[[kk rank] et] t]|x]; [|apply same_setB_err]. rewrite refit_B. apply same_refl.
Qed.
Lemma train_loo_B : forall b e X T, same_run (train_loo (setB b e) X T) (train_loo e X T).
Proof.
  intros. unfold train_loo. change (project (e_net (setB b e)) X) with (project (e_net e) X). unfold lift_err at 1 3.
  destruct (project (e_net e) X) as [H|x]; [|apply same_setB_err].
  rewrite add_data_B. destruct (add_data e X T) as [e1 [[]|x]]; cbn [setBe fst snd]; [|apply same_setB_err].
  rewrite select_loo_B. unfold lift_err. destruct (select_loo e1 H T) as [[[k rank] t]|x]; [|apply same_setB_err]. rewrite refit_B. apply same_refl.
Qed.
Lemma solve_B : forall A b e (v : A), @same_run unit (let (s, r) := solve (e_net (setB b e)) in (with_net (setB b e) s, r)) (let (s, r) := solve (e_net e) in (with_net e s, r)).
Proof.
  intros A b e v. unfold solve. cbn [e_net setB with_net s_HH s_HT with_B]. destruct (s_HH (e_net e)) as [HH|]; [|split; [reflexivity|intros a C; discriminate]].
  destruct (s_HT (e_net e)) as [HT|]; [|split; [reflexivity|intros a C; discriminate]]. apply same_refl.
Qed.
Lemma train_basic_B : forall b e X T, same_run (train_basic (setB b e) X T) (train_basic e X T).
Proof.
  intros. unfold train_basic. rewrite add_data_B. destruct (add_data e X T) as [e1 [[]|x]]; cbn [setBe fst snd]; [|apply same_setB_err].
  pose proof (solve_B unit b e1 tt) as [S1 S2]. destruct (solve (e_net (setB b e1))) as [s r]. destruct (solve (e_net e1)) as [s' r'].
  cbn [fst snd] in S1, S2. subst r'. unfold done. cbn [fst snd]. destruct r as [[]|x]; split; try reflexivity; intros a C; [|discriminate]. cbn [fst]. apply (S2 tt eq_refl).
Qed.

(** What train() keeps of an existing model: everything the user configured. *)
Definition same_config (e1 e2 : elm) : Prop :=
  s_kind (e_net e1) = s_kind (e_net e2) /\ s_inputs (e_net e1) = s_inputs (e_net e2) /\ s_outputs (e_net e1) = s_outputs (e_net e2) /\
  s_norm (e_net e1) = s_norm (e_net e2) /\ s_neurons (e_net e1) = s_neurons (e_net e2) /\
  e_batch e1 = e_batch e2 /\ e_prec64 e1 = e_prec64 e2 /\ e_accel e1 = e_accel e2.

Lemma parse_loop_B : forall b kw args e, parse_loop (setB b e) kw args = setBe b (parse_loop e kw args).
Proof.
  intros b kw. induction args as [|a r IH]; intros e; [reflexivity|]. cbn [parse_loop].
  set (e1 := if a =? "OP" then _ else e). assert ((if a =? "OP" then with_op (setB b e) true (match kw_kmax kw with Some k => Some k | None => e_kmax (setB b e) end) else setB b e) = setB b e1) as -> by (unfold e1; destruct (a =? "OP"); reflexivity).
  change (s_outputs (e_net (setB b e))) with (s_outputs (e_net e)).
  destruct (a =? "C"). { destruct (1 <? s_outputs (e_net e))%nat; [|reflexivity]. apply (IH (with_class e1 (Some "c"))). }
  destruct (a =? "WC").
  { destruct (1 <? s_outputs (e_net e))%nat; [|reflexivity]. destruct (kw_w kw) as [w|]; [|apply (IH (with_class e1 (Some "wc")))].
    destruct (length w =? s_outputs (e_net e))%nat; [|reflexivity]. apply (IH (with_wc (with_class e1 (Some "wc")) (Some (map Fin w)))). }
  destruct ((a =? "ML") || (a =? "MC")). { destruct (1 <? s_outputs (e_net e))%nat; [|reflexivity]. apply (IH (with_class e1 (Some "ml"))). }
  destruct (a =? "R"); [apply (IH (with_class e1 None))|apply (IH e1)].
Qed.

Lemma parse_args_same : forall e1 e2 args kw, same_config e1 e2 ->
  snd (parse_args e1 args kw) = snd (parse_args e2 args kw) /\
  (snd (parse_args e1 args kw) = Ok tt -> fst (parse_args e1 args kw) = setB (s_B (e_net e1)) (fst (parse_args e2 args kw))).
Proof.
  intros e1 e2 args kw (C1 & C2 & C3 & C4 & C5 & C6 & C7 & C8). unfold parse_args. rewrite <- C5.
  destruct (s_neurons (e_net e1)) as [|g l] eqn:EN; [split; [reflexivity|discriminate]|].
  set (u1 := with_wc (with_class (with_op (with_net e1 (reset (e_net e1))) false None) None) None).
  set (u2 := with_wc (with_class (with_op (with_net e2 (reset (e_net e2))) false None) None) None).
  assert (u1 = setB (s_B (e_net e1)) u2) as EU.
  { unfold u1, u2, setB, reset, with_wc, with_class, with_op, with_net, with_B. cbn. rewrite C1, C2, C3, C4, <- C5, C6, C7, C8, EN. reflexivity. }
  destruct (negb _); [split; [reflexivity|discriminate]|]. destruct (negb _); [split; [reflexivity|discriminate]|].
  rewrite EU, parse_loop_B. destruct (parse_loop u2 kw (map upper args)) as [e' [[]|x]]; cbn [setBe fst snd]; [|split; [reflexivity|discriminate]].
  destruct (kw_batch kw); split; reflexivity.
Qed.

Theorem train_history : forall e1 e2 X T args kw, same_config e1 e2 ->
  same_run (train e1 X T args kw) (train e2 X T args kw).
Proof.
  intros e1 e2 X T args kw HC. unfold train.
  assert (checkdata e1 X T = checkdata e2 X T) as ED by (destruct HC as (_ & C2 & C3 & _); unfold checkdata; rewrite C2, C3; reflexivity).
  rewrite ED. destruct (checkdata e2 X T) as [[x t]|err]; [|split; [reflexivity|discriminate]].
  destruct (parse_args_same e1 e2 args kw HC) as [P1 P2].
  destruct (parse_args e1 args kw) as [u1 [[]|x1]]; destruct (parse_args e2 args kw) as [u2 [[]|x2]]; cbn [fst snd] in P1, P2; try discriminate;
    [|split; [cbn; congruence|intros a C; discriminate]].
  rewrite (P2 eq_refl). set (b := s_B (e_net e1)). clear P1 P2.
  destruct (smem "V" args).
  { destruct (kw_Xv kw) as [Xv|]; [|apply same_setB_err]. destruct (kw_Tv kw) as [Tv|]; [|apply same_setB_err].
    change (checkdata (setB b u2) Xv Tv) with (checkdata u2 Xv Tv). unfold lift_err. destruct (checkdata u2 Xv Tv) as [v|]; [|apply same_setB_err]. apply train_v_B. }
  destruct (smem "CV" args).
  { destruct (kw_k kw) as [k|]; [|apply same_setB_err]. destruct (3 <=? k)%nat; [|apply same_setB_err]. apply train_cv_B. }
  destruct (smem "LOO" args); [apply train_loo_B|apply train_basic_B].
Qed.

Lemma hp_fill_wc_B : forall b e T rs, hp_fill_wc (setB b e) T rs = setB b (hp_fill_wc e T rs).
Proof. intros b e T rs. unfold hp_fill_wc. change (is_wc (setB b e)) with (is_wc e). change (e_wc (setB b e)) with (e_wc e). destruct (is_wc e); [|reflexivity]. destruct (e_wc e); reflexivity. Qed.

Lemma hp_add_data_B : forall b e fX fT istart icount,
  hp_add_data (setB b e) fX fT istart icount None =
  (setB b (fst (fst (hp_add_data e fX fT istart icount None))), None, snd (hp_add_data e fX fT istart icount None)).
Proof.
  intros b e fX fT istart icount. unfold hp_add_data. change (s_neurons (e_net (setB b e))) with (s_neurons (e_net e)).
  change (hp_check (setB b e) fX fT) with (hp_check e fX fT).
  destruct (s_neurons (e_net e)) as [|g l]; [reflexivity|]. destruct (hp_check e fX fT) as [[X T]|x]; [|reflexivity].
  change (e_batch (setB b e)) with (e_batch e). destruct (nbatches _ _) as [nb|x]; [|reflexivity].
  rewrite hp_fill_wc_B. set (rs := ranges _ _ _ _). change (e_net (setB b (hp_fill_wc e T rs))) with (with_B (e_net (hp_fill_wc e T rs)) b).
  rewrite add_batches_B. destruct (add_batches (hp_fill_wc e T rs) (e_net (hp_fill_wc e T rs)) (hp_batches X T rs)) as [s1 [[]|x]]; reflexivity.
Qed.

Theorem hp_train_history : forall e1 e2 fX fT args kw istart icount, same_config e1 e2 ->
  same_run (hp_train e1 fX fT args kw istart icount) (hp_train e2 fX fT args kw istart icount).
Proof.
  intros e1 e2 fX fT args kw istart icount HC. unfold hp_train.
  assert (hp_check e1 fX fT = hp_check e2 fX fT) as ED by (destruct HC as (_ & C2 & C3 & _); unfold hp_check; rewrite C2, C3; reflexivity).
  rewrite ED. destruct (hp_check e2 fX fT) as [p|err]; [|split; [reflexivity|discriminate]].
  destruct (parse_args_same e1 e2 args kw HC) as [P1 P2].
  destruct (parse_args e1 args kw) as [u1 [[]|x1]]; destruct (parse_args e2 args kw) as [u2 [[]|x2]]; cbn [fst snd] in P1, P2; try discriminate;
    [|split; [cbn; congruence|intros a C; discriminate]].
  rewrite (P2 eq_refl), hp_add_data_B. set (i0 := match istart with Some i => Z.max 0 i | None => 0%Z end).
  destruct (hp_add_data u2 fX fT i0 icount None) as [[e' fs'] [[]|x]]; cbn [fst snd]; [|apply same_setB_err]. apply (solve_B unit (s_B (e_net e1)) e' tt).
Qed.
End Retrain.
