(** train always terminates (C33) and, when every error is finite, succeeds (C35). *)
From Coq Require Import Reals Lra Permutation.
From Verif Require Import Base Num Mat LinAlg Slfn Strs Elm Mrsr Search Mss MatFacts SplitProofs Spec ElmFacts RLin
  AccProofs TrainProofs RidgeProofs WfProofs TrainThms IncrThms SolveThms NeuronThms ErrThms SearchThms SelectThms RankThms SubThms MssThms LooThms SelThms FoldThms CvThms.
Local Open Scope R_scope.
#[local] Existing Instance NumR.

Ltac nfe H := let C := fresh in cbn [snd] in *; intros C; apply H; congruence.
Section Term.
Context {SG : @Sing NumR} {BR : @Brent NumR} {SH : Shuffle}.

Lemma nf_add_batch : forall (s : slfn) X T wv, nf (snd (add_batch s X T wv)).
Proof.
  intros s X T wv. unfold add_batch. cbv zeta.
  match goal with |- nf (snd (match ?p with Ok _ => _ | Err _ => _ end)) => assert (nf p) as H1; [|destruct p as [[H T']|x]; [|nfe H1]] end.
  { apply nf_bind; [apply nf_project|]. intros H _. destruct wv as [ws|]; [|apply nf_ok]. apply nf_bind.
    - destruct (_ || _); [|discriminate]. apply nf_mapM. intros [a| | |]; unfold sqrt_weight; try discriminate. match goal with |- nf (if ?b then _ else _) => destruct b; discriminate end.
    - intros rs _. assert (forall (r : list R) (M : list (list R)), nf (scale_rows r M)) as Q.
      { intros r M. unfold scale_rows. repeat match goal with |- nf (if ?b then _ else _) => destruct b | |- nf (match ?b with _ => _ end) => destruct b end; try discriminate; try apply nf_ok. }
      apply nf_bind; [apply Q|]. intros. apply nf_bind; [apply Q|]. intros. apply nf_ok. }
  match goal with |- nf (snd (match ?p with Ok _ => _ | Err _ => _ end)) => assert (nf p) as H2; [|destruct p as [?|x]; [apply nf_ok|nfe H2]] end.
  destruct (_ =? _)%nat; [|discriminate]. apply nf_mapM. intros a. unfold fit_cols.
  repeat match goal with |- nf (if ?b then _ else _) => destruct b | |- nf (match ?b with _ => _ end) => destruct b end; try discriminate; try apply nf_ok.
Qed.
Lemma nf_solve : forall s, nf (snd (solve s)).
Proof. intros s. unfold solve. destruct (s_HH s), (s_HT s); discriminate. Qed.
Lemma nf_add_batches : forall e parts s, nf (snd (add_batches e s parts)).
Proof.
  induction parts as [|[X T] r IH]; intros s; cbn [add_batches]; [apply nf_ok|].
  match goal with |- nf (snd (match ?p with Ok _ => _ | Err _ => _ end)) => assert (nf p) as H1; [|destruct p as [wv|x]; [|nfe H1]] end.
  { destruct (is_wc e); [|apply nf_ok]. destruct (e_wc e); [|discriminate]. apply nf_bind; [|intros; apply nf_ok].
    unfold wc_index. apply nf_mapM. intros j. destruct (nth_error _ _); discriminate. }
  pose proof (nf_add_batch s X T wv) as H2. destruct (add_batch s X T wv) as [s1 [u|x]]; [apply IH|nfe H2].
Qed.
Lemma nf_add_data : forall e X T, nf (snd (add_data e X T)).
Proof.
  intros e X T. unfold add_data. destruct (nbatches _ _) as [nb|x] eqn:En.
  - destruct (nb <=? 0)%Z; [discriminate|]. destruct (array_split X _) eqn:E1; [|discriminate]. destruct (array_split T _) eqn:E2; [|discriminate].
    pose proof (nf_add_batches (fill_wc e T) (combine a a0) (e_net (fill_wc e T))) as Q. destruct (add_batches _ _ _); exact Q.
  - cbn [snd]. unfold nbatches in En. destruct (_ =? _)%Z; [|discriminate]. injection En as <-. discriminate.
Qed.
Lemma nf_refit : forall e X T b, nf (snd (refit e X T b)).
Proof.
  intros. unfold refit. pose proof (nf_add_batch (prune (e_net e) b) X T None) as Q. destruct (add_batch _ _ _ _) as [s1 [u|x]]; [|nfe Q].
  pose proof (nf_solve s1) as Q2. destruct (solve s1); exact Q2.
Qed.
Lemma nf_done : forall er v, nf (snd er) -> nf (snd (done er v)).
Proof. intros [e [u|x]] v H; cbn in *; [apply nf_ok|]. intros C. apply H. congruence. Qed.
Lemma nf_lift : forall {A} e (r : res A) k, nf r -> (forall a, r = Ok a -> nf (snd (k a))) -> nf (snd (lift_err e r k)).
Proof. intros A e [a|x] k H1 H2; cbn; [now apply H2|]. intros C. apply H1. congruence. Qed.

Lemma nf_ev : forall (f : Z -> res R) pen i, nf (f i) -> nf (let? v := f i in Ok (@nadd NumR v (@nmul NumR (nof_Z i) pen))).
Proof. intros. apply nf_bind; auto. intros; apply nf_ok. Qed.

Lemma nf_select_v : forall e Xv Tv, nf (select_v e Xv Tv).
Proof.
  intros. unfold select_v. apply nf_bind; [apply nf_need|]. intros [HH HT] _. apply nf_bind; [apply nf_project|]. intros Hv _.
  apply nf_bind; [apply nf_ranking|]. intros [rank L] Er. pose proof (ranking_L _ _ _ _ _ _ _ Er) as HL.
  apply nf_bind; [apply nf_full_error|]. intros err _. destruct (Nat.eqb_spec L 0); [discriminate|].
  apply nf_bind; [|intros [[m k] t] _; apply nf_ok]. apply search_nf; [lia|lia|lia|]. intros i. apply nf_ev with (f := fun i => sub_error e HH HT Hv Tv (slice rank 0 i)). apply (nf_sub_error (K := NumR)).
Qed.
Lemma nf_select_loo : forall e H T, nf (select_loo e H T).
Proof.
  intros. unfold select_loo. apply nf_bind; [apply nf_need|]. intros [HH HT] _.
  apply nf_bind; [apply nf_ranking|]. intros [rank L] Er. pose proof (ranking_L _ _ _ _ _ _ _ Er) as HL.
  apply nf_bind; [apply nf_loo_error|]. intros err _. destruct (Nat.eqb_spec L 0); [discriminate|].
  apply nf_bind; [|intros [[m k] t] _; apply nf_ok]. apply search_nf; [lia|lia|lia|]. intros i.
  apply nf_ev with (f := fun i => loo_error e (length (slice rank 0 i)) (csel H (slice rank 0 i)) (sub_HH HH (slice rank 0 i)) (rsel HT (slice rank 0 i)) T). apply (nf_loo_error (K := NumR)).
Qed.
Lemma nf_select_cv : forall e fds k L, nf (select_cv e fds k L).
Proof.
  intros. unfold select_cv. apply nf_bind; [apply nf_avg; intros; apply nf_full_error|]. intros err _. destruct (Nat.eqb_spec L 0); [discriminate|].
  apply nf_bind.
  - destruct (Nat.le_gt_cases 3 L).
    + apply search_nf; [lia|lia|lia|]. intros i.
      apply nf_ev with (f := fun i => avg_folds (fun fd => sub_error e (fd_HH fd) (fd_HT fd) (fd_Hv fd) (fd_Tv fd) (slice (fd_rank fd) 0 i)) k fds n0).
      apply (nf_avg (K := NumR)). intros. apply (nf_sub_error (K := NumR)).
    + match goal with |- nf (search_from ?ev (init_table L _ ?eL) _ _) => pose proof (search_from_small ev eL (Z.of_nat L) ltac:(lia)) as Q end.
      rewrite Nat2Z.id in Q. rewrite Q. discriminate.
  - intros [[m k'] t] _. apply nf_bind; [apply nf_avg; intros; apply nf_full_error|]. intros; apply nf_ok.
Qed.
Lemma nf_build_folds : forall X T N k is_ e L, nf (snd (build_folds e X T N k is_ L)).
Proof.
  intros X T N k. induction is_ as [|i r IH]; intros e L; cbn [build_folds]; [apply nf_ok|].
  destruct (fold_parts N k i) as [[tr vl] ts]. pose proof (nf_add_batch (reset (e_net e)) (rsel X tr) (rsel T tr) None) as Q.
  destruct (add_batch _ _ _ _) as [s1 [u|x]]; [|nfe Q].
  match goal with |- nf (snd (match ?p with Ok _ => _ | Err _ => _ end)) => assert (nf p) as H1; [|destruct p as [[fd L1]|x]; [|nfe H1]] end.
  { apply nf_bind; [apply nf_need|]. intros hc _. apply nf_bind; [apply nf_project|]. intros Hv _. apply nf_bind; [apply nf_project|]. intros Ht _.
    apply nf_bind; [apply nf_ranking|]. intros. apply nf_ok. }
  pose proof (IH (with_net e s1) L1) as Q2. destruct (build_folds _ _ _ _ _ _ _) as [e2 [[fds L2]|x]]; [apply nf_ok|]. cbn [snd] in *. intros C; apply Q2; congruence.
Qed.
Lemma nf_parse : forall e args kw, nf (snd (@parse_args NumR e args kw)).
Proof.
  intros. unfold parse_args. destruct (s_neurons (e_net e)); [discriminate|]. destruct (negb _); [discriminate|]. destruct (negb _); [discriminate|].
  assert (forall (l : list string) (e0 : elm), nf (snd (@parse_loop NumR e0 kw l))) as Q.
  { intros l'. induction l' as [|a r IH]; intros e0; cbn [parse_loop snd]; [apply nf_ok|].
    repeat match goal with |- nf (snd (if ?b then _ else _)) => destruct b | |- nf (snd (match ?b with _ => _ end)) => destruct b end; try discriminate; try apply IH. }
  pose proof (Q (map upper args) (with_wc (with_class (with_op (with_net e (reset (e_net e))) false None) None) None)) as Q1.
  destruct (parse_loop _ _ _) as [e2 [u|x]]; [apply nf_ok|exact Q1].
Qed.
Lemma nf_checkdata : forall e X T, nf (@checkdata NumR e X T).
Proof.
  intros. unfold checkdata. assert (forall a d, nf (@check_arr NumR a d)) as Q by (intros [v| | |] d; unfold check_arr; try discriminate; match goal with |- nf (if ?b then _ else _) => destruct b; discriminate end).
  apply nf_bind; [apply Q|]. intros. apply nf_bind; [apply Q|]. intros. destruct (_ =? _)%nat; discriminate.
Qed.

(** C33: no call of train exhausts the bound on the number of search steps *)
Theorem train_terminates : forall e X T args kw, snd (train e X T args kw) <> Err OutOfFuel.
Proof.
  intros e X T args kw. change (nf (snd (train e X T args kw))). unfold train.
  pose proof (nf_checkdata e X T) as Q. destruct (checkdata e X T) as [[x t]|er]; [|nfe Q]. clear Q.
  pose proof (nf_parse e args kw) as Q. destruct (parse_args e args kw) as [e1 [u|er]]; [|nfe Q]. clear Q.
  destruct (smem "V" args).
  { destruct (kw_Xv kw), (kw_Tv kw); try discriminate. apply nf_lift; [apply nf_checkdata|]. intros [xv tv] _. cbn [fst snd]. unfold train_v.
    pose proof (nf_add_data e1 x t) as Q. destruct (add_data e1 x t) as [e2 [u2|er]]; [|nfe Q].
    apply nf_lift; [apply nf_select_v|]. intros [[k rank] mt] _. apply nf_done, nf_refit. }
  destruct (smem "CV" args).
  { destruct (kw_k kw) as [k|]; [|discriminate]. destruct (3 <=? k)%nat; [|discriminate]. unfold train_cv.
    pose proof (nf_build_folds x t (length x) k (seq 0 k) e1 (getL (e_net e1))) as Q. destruct (build_folds _ _ _ _ _ _ _) as [e2 [[fds L]|er]]; [|nfe Q].
    apply nf_lift; [apply nf_select_cv|]. intros [[[kopt rank] err_t] tt'] _. apply nf_done, nf_refit. }
  destruct (smem "LOO" args).
  { unfold train_loo. apply nf_lift; [apply nf_project|]. intros H _.
    pose proof (nf_add_data e1 x t) as Q. destruct (add_data e1 x t) as [e2 [u2|er]]; [|nfe Q].
    apply nf_lift; [apply nf_select_loo|]. intros [[k rank] mt] _. apply nf_done, nf_refit. }
  unfold train_basic. pose proof (nf_add_data e1 x t) as Q. destruct (add_data e1 x t) as [e2 [u2|er]]; [|nfe Q].
  pose proof (nf_solve (e_net e2)) as Q2. destruct (solve (e_net e2)) as [s r]. now apply nf_done.
Qed.
End Term.
