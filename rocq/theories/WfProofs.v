(** The shape invariant of the network object, preserved by every operation
    (for every scalar type). *)
From Verif Require Import Base Num Mat LinAlg Slfn Strs Elm Mrsr Search Mss Hpelm MatFacts SplitProofs.

Section Wf.
Context {K : Num} {SG : Sing}.

Definition wf_neuron (inputs : nat) (n : neuron) : Prop :=
  is_mat inputs (n_num n) (n_W n) /\ length (n_B n) = n_num n.

Definition opt_shape (r c : nat) (M : option mat) : Prop :=
  match M with None => True | Some m => is_mat r c m end.

Lemma hrow_length : forall i ns x, Forall (wf_neuron i) ns -> length (hrow ns x) = nneurons ns.
Proof.
  intros i ns x H. unfold hrow, nneurons. induction H as [|n ns [_ Hn] HF IH]; cbn [map concat list_sum fold_right]; auto.
  unfold list_sum in *. rewrite app_length, IH. unfold nrow. rewrite mkv_length, Hn. reflexivity.
Qed.

Record wf_net (s : slfn) : Prop := mkWf {
  wf_groups : Forall (wf_neuron (s_inputs s)) (s_neurons s);
  wf_types : NoDup (map n_func (s_neurons s));
  wf_count : s_L s = Some (nneurons (s_neurons s)) \/ (s_L s = None /\ s_neurons s = []);
  wf_weights : opt_shape (nneurons (s_neurons s)) (s_outputs s) (s_B s);
  wf_both : s_HH s = None <-> s_HT s = None;
  wf_HH : opt_shape (nneurons (s_neurons s)) (nneurons (s_neurons s)) (s_HH s);
  wf_HT : opt_shape (nneurons (s_neurons s)) (s_outputs s) (s_HT s) }.

(** numpy's results on singular systems have the shape of the arguments *)
Definition sing_shapes : Prop :=
  (forall n c A R, is_mat n n A -> is_mat n c R -> is_mat n c (lstsq_sing A R)) /\
  (forall n A, is_mat n n A -> is_mat n n (pinv_sing A)).

Lemma wf_getL : forall s, wf_net s -> getL s = nneurons (s_neurons s).
Proof. intros s H. unfold getL. destruct (wf_count s H) as [->|[-> ->]]; reflexivity. Qed.

Lemma wf_init : forall k i o nm, wf_net (slfn_init k i o nm).
Proof. intros. constructor; cbn; auto; try constructor; auto. Qed.

Lemma wf_reset : forall s, wf_net s -> wf_net (reset s).
Proof. intros s H. destruct H. constructor; cbn; auto. tauto. Qed.

Lemma wf_with_B : forall s b, wf_net s -> opt_shape (nneurons (s_neurons s)) (s_outputs s) b -> wf_net (with_B s b).
Proof. intros s b H Hb. destruct H. constructor; cbn; auto. Qed.
Lemma wf_with_norm : forall s b, wf_net s -> wf_net (with_norm s b).
Proof. intros s b H. destruct H. constructor; cbn; auto. Qed.
Lemma wf_with_corr : forall s hh ht, wf_net s -> is_mat (nneurons (s_neurons s)) (nneurons (s_neurons s)) hh ->
  is_mat (nneurons (s_neurons s)) (s_outputs s) ht -> wf_net (with_corr s (Some hh) (Some ht)).
Proof. intros s hh ht H Ha Hb. destruct H. constructor; cbn; auto. split; discriminate. Qed.

Lemma ftype_eqb_eq : forall f g, ftype_eqb f g = true <-> f = g.
Proof.
  intros [] []; cbn; split; intros H; try discriminate; auto.
  - apply Nat.eqb_eq in H. now subst.
  - injection H as ->. apply Nat.eqb_refl.
Qed.

Lemma merge_types : forall ns number f W B, map n_func (merge_neurons ns number f W B) =
  if existsb (fun g => ftype_eqb (n_func g) f) ns then map n_func ns else map n_func ns ++ [f].
Proof.
  induction ns as [|g r IH]; intros; cbn [merge_neurons existsb map app]; auto.
  destruct (ftype_eqb (n_func g) f) eqn:E.
  - cbn. apply ftype_eqb_eq in E. now rewrite E.
  - cbn. rewrite IH. destruct (existsb _ r); reflexivity.
Qed.
Lemma merge_nodup : forall ns number f W B, NoDup (map n_func ns) -> NoDup (map n_func (merge_neurons ns number f W B)).
Proof.
  intros. rewrite merge_types. destruct (existsb _ ns) eqn:E; auto.
  assert (~ In f (map n_func ns)).
  { intros Hin. apply in_map_iff in Hin. destruct Hin as [g [<- Hg]].
    assert (existsb (fun g0 => ftype_eqb (n_func g0) (n_func g)) ns = true); [|congruence].
    apply existsb_exists. exists g. split; auto. now apply ftype_eqb_eq. }
  clear E. induction (map n_func ns) as [|a l IHl]; cbn.
  - constructor; [intros []|constructor].
  - inversion H; subst. constructor.
    + intros Hin. apply in_app_or in Hin. destruct Hin as [|[->|[]]]; auto. apply H0; left; auto.
    + apply IHl; auto. intros Hin; apply H0; right; auto.
Qed.

Lemma is_mat_hstack : forall r c1 c2 A B, is_mat r c1 A -> is_mat r c2 B -> is_mat r (c1 + c2) (map2 (@app num) A B).
Proof.
  intros r c1 c2 A B [H1 H2] [H3 H4]. split; [rewrite map2_length; lia|].
  rewrite map2_combine. apply Forall_forall. intros x Hx. apply in_map_iff in Hx.
  destruct Hx as [[a b] [<- Hin]]. cbn. rewrite app_length.
  rewrite Forall_forall in H2, H4. rewrite H2, H4; auto; [eapply in_combine_r; eauto|eapply in_combine_l; eauto].
Qed.

Lemma merge_wf : forall i ns number f W B, Forall (wf_neuron i) ns -> is_mat i number W -> length B = number ->
  Forall (wf_neuron i) (merge_neurons ns number f W B).
Proof.
  induction ns as [|g r IH]; intros number f W B H HW HB; cbn [merge_neurons].
  - repeat constructor; auto; apply HW.
  - inversion H as [|? ? [G1 G2] Hr]; subst. destruct (ftype_eqb (n_func g) f).
    + constructor; auto. split; cbn; [now apply is_mat_hstack|rewrite app_length; lia].
    + constructor; auto. split; auto.
Qed.
Lemma merge_count : forall ns number f W B, nneurons (merge_neurons ns number f W B) = nneurons ns + number.
Proof.
  unfold nneurons. induction ns as [|g r IH]; intros; cbn [merge_neurons map].
  - cbn; lia.
  - destruct (ftype_eqb (n_func g) f); cbn [map n_num].
    + change (list_sum (n_num g + number :: map n_num r)) with (n_num g + number + list_sum (map n_num r)).
      change (list_sum (n_num g :: map n_num r)) with (n_num g + list_sum (map n_num r)). lia.
    + specialize (IH number f W B).
      change (list_sum (n_num g :: map n_num (merge_neurons r number f W B))) with
        (n_num g + list_sum (map n_num (merge_neurons r number f W B))).
      change (list_sum (n_num g :: map n_num r)) with (n_num g + list_sum (map n_num r)). lia.
Qed.

Lemma wf_add_neurons_net : forall s number f W B, wf_net s -> is_mat (s_inputs s) number W -> length B = number ->
  wf_net (slfn_add_neurons s number f W B).
Proof.
  intros s number f W B H HW HB. destruct H. constructor; cbn; auto; try tauto.
  - now apply merge_wf.
  - now apply merge_nodup.
Qed.

Lemma is_mat_csel : forall r c W ix, is_mat r c W -> is_mat r (length ix) (csel W ix).
Proof.
  intros r c W ix [H1 H2]. unfold csel. split; [now rewrite map_length|].
  rewrite Forall_map. eapply Forall_impl; [|exact H2]. intros. unfold vsel. apply map_length.
Qed.
Lemma prune_wf : forall i ns idx, Forall (wf_neuron i) ns -> Forall (wf_neuron i) (prune_neurons ns idx).
Proof.
  intros i. induction ns as [|g r IH]; intros idx H; cbn [prune_neurons]; auto.
  inversion H as [|? ? [G1 G2] Hr]; subst. constructor; auto.
  split; cbn; [eapply is_mat_csel; eauto|apply map_length].
Qed.
Lemma prune_types : forall ns idx, map n_func (prune_neurons ns idx) = map n_func ns.
Proof. induction ns; intros; cbn; auto. f_equal; auto. Qed.
Lemma wf_prune : forall s idx, wf_net s -> wf_net (prune s idx).
Proof.
  intros s idx H. destruct H. constructor; cbn; auto; try tauto.
  - now apply prune_wf.
  - rewrite prune_types; auto.
Qed.

Lemma add_HH_shape : forall k L HH H, is_mat L L HH -> is_mat L L (add_HH k L HH H).
Proof.
  intros k L HH H HM. unfold add_HH. destruct k; try apply is_mat_mk; apply is_mat_madd; auto; apply is_mat_tdot.
Qed.

Lemma wf_add_batch : forall s X T wv, wf_net s -> wf_net (fst (add_batch s X T wv)).
Proof.
  intros s X T wv H. unfold add_batch. rewrite (wf_getL s H). set (L := nneurons (s_neurons s)).
  match goal with |- context [match ?p with Ok _ => _ | Err _ => _ end] => destruct p as [[H' T']|x] end; [|auto].
  set (HH0 := match s_HH s with Some m => m | None => scaled_eye L (s_norm s) end).
  assert (is_mat L L HH0) as E1.
  { unfold HH0. pose proof (wf_HH s H) as E. destruct (s_HH s); auto. apply is_mat_scaled_eye. }
  set (HT0 := match s_HH s with
              | Some _ => match s_HT s with Some m => m | None => zero_mat L (s_outputs s) end
              | None => zero_mat L (s_outputs s) end).
  assert (is_mat L (s_outputs s) HT0) as E2.
  { unfold HT0. pose proof (wf_HT s H) as E. destruct (s_HH s); [destruct (s_HT s); auto|]; apply is_mat_mk. }
  match goal with |- context [match ?p with Ok _ => _ | Err _ => _ end] => destruct p as [T''|x] end; cbn [fst];
    apply wf_with_corr; auto using add_HH_shape.
  apply is_mat_madd; auto. apply is_mat_tdot.
Qed.

Lemma posv_shape : forall n c A R X, posv n c A R = Some X -> is_mat n c X.
Proof.
  induction n; intros c A R X E; cbn [posv] in E.
  - injection E as <-. apply is_mat_nil.
  - destruct (nltb n0 (mget A 0 0)); [|discriminate].
    match type of E with match ?p with _ => _ end = _ => destruct p as [X'|] eqn:E' end; [|discriminate].
    injection E as <-. apply is_mat_cons. split; [apply mkv_length|]. eauto.
Qed.

Lemma solve_corr_shape : forall s n HH HT, sing_shapes -> is_mat n n HH -> is_mat n (s_outputs s) HT ->
  is_mat n (s_outputs s) (solve_corr s n HH HT).
Proof.
  intros s n HH HT [S1 S2] H1 H2. unfold solve_corr, pinv, lstsq.
  destruct (s_kind s);
  repeat match goal with |- context [match ?p with Some _ => _ | None => _ end] => destruct p eqn:?E end;
  try (match goal with E : posv _ _ _ _ = Some _ |- _ => apply posv_shape in E; auto end);
  try (apply S1; auto; apply is_mat_mk).
  - pose proof (is_mat_mmul (s_outputs s) l HT) as Hp. destruct E as [E _]. now rewrite E in Hp.
  - pose proof (is_mat_mmul (s_outputs s) (pinv_sing HH) HT) as Hp. destruct (S2 _ _ H1) as [E' _]. now rewrite E' in Hp.
Qed.

Lemma wf_solve : forall s, sing_shapes -> wf_net s -> wf_net (fst (solve s)).
Proof.
  intros s HS H. unfold solve. pose proof (wf_HH s H) as E1. pose proof (wf_HT s H) as E2.
  destruct (s_HH s); [|auto]. destruct (s_HT s); [|auto]. cbn [fst].
  apply wf_with_B; auto. cbn. rewrite (wf_getL s H). apply solve_corr_shape; auto.
Qed.

Lemma wf_set_B : forall s r c B, wf_net s -> is_mat r c B -> wf_net (fst (set_B s r c B)).
Proof.
  intros s r c B H HB. unfold set_B. pose proof (wf_getL s H) as EL. unfold getL in EL.
  destruct (s_L s); auto. destruct (Nat.eqb_spec r n); auto. destruct (Nat.eqb_spec c (s_outputs s)); auto.
  cbn. apply wf_with_B; auto. subst. cbn. auto.
Qed.

Lemma wf_set_corr : forall s r0 r1 HH t0 t1 HT, wf_net s -> is_mat r0 r1 HH -> is_mat t0 t1 HT ->
  wf_net (fst (set_corr s r0 r1 HH t0 t1 HT)).
Proof.
  intros s r0 r1 HH t0 t1 HT H H1 H2. unfold set_corr. pose proof (wf_getL s H) as EL. unfold getL in EL.
  destruct (s_L s); auto.
  destruct (Nat.eqb_spec r0 r1); auto. destruct (Nat.eqb_spec r0 n); auto. destruct (Nat.eqb_spec r0 t0); auto.
  destruct (Nat.eqb_spec t1 (s_outputs s)); auto. cbn. subst. apply wf_with_corr; auto.
Qed.

(** ** ELM *)
Definition wf_elm (e : elm) : Prop := wf_net (e_net e).

Lemma wf_add_batches : forall e parts s, wf_net s -> wf_net (fst (add_batches e s parts)).
Proof.
  intros e. induction parts as [|[X T] r IH]; intros s H; cbn [add_batches]; auto.
  match goal with |- context [match ?p with Ok _ => _ | Err _ => _ end] => destruct p as [wv|x] end; auto.
  pose proof (wf_add_batch s X T wv H) as H1. destruct (add_batch s X T wv) as [s1 [u|x]]; cbn [fst] in *; auto.
Qed.

Lemma fill_wc_net' : forall e T, e_net (fill_wc e T) = e_net e.
Proof. intros. unfold fill_wc. destruct (is_wc e); auto. destruct (e_wc e); auto. Qed.

Lemma wf_add_data : forall e X T, wf_elm e -> wf_elm (fst (add_data e X T)).
Proof.
  intros e X T H. unfold add_data. destruct (nbatches _ _) as [nb|]; auto.
  assert (wf_elm (fill_wc e T)) as H1 by (unfold wf_elm; now rewrite fill_wc_net').
  destruct (nb <=? 0)%Z; auto. destruct (array_split X _); auto. destruct (array_split T _); auto.
  pose proof (wf_add_batches (fill_wc e T) (combine a a0) (e_net (fill_wc e T)) H1) as H2.
  destruct (add_batches _ _ _) as [s r]; auto.
Qed.

(** random matrices have the requested shape *)
Definition rand_shapes (inputs : nat) (rW : nat -> mat) (rB : nat -> vec) : Prop :=
  forall n, is_mat inputs n (rW n) /\ length (rB n) = n.

Lemma default_W_shape : forall f i n rW rB, rand_shapes i rW rB -> is_mat i n (default_W f i n rW).
Proof.
  intros f i n rW rB H. unfold default_W. destruct (is_lin f); [apply is_mat_mk|].
  destruct (H n) as [[H1 H2] _]. destruct (is_rbf f); [split; auto|].
  split; [now rewrite map_length|]. rewrite Forall_map. eapply Forall_impl; [|exact H2]. intros; now rewrite map_length.
Qed.

Lemma wf_add_neurons : forall e number func W B rW rB, wf_elm e ->
  (forall c m, W = Some (c, m) -> Forall (fun r => length r = c) m) ->
  rand_shapes (s_inputs (e_net e)) rW rB -> wf_elm (fst (add_neurons e number func W B rW rB)).
Proof.
  intros e number func W B rW rB H HW HR. unfold add_neurons.
  destruct (parse_func func) as [f|]; auto. destruct (number <? 0)%Z; auto.
  set (n := match W with Some _ => _ | None => _ end).
  match goal with |- context [if ?b then _ else _] => destruct b eqn:E end; auto.
  match goal with |- context [if ?b then _ else _] => destruct b eqn:E' end; auto.
  match goal with |- context [if ?b then _ else _] => destruct b eqn:E'' end; auto.
  apply andb_prop in E. destruct E as [E1 E2]. apply Nat.eqb_eq in E1, E2, E'.
  cbn [fst]. unfold wf_elm. cbn [e_net with_net]. apply wf_add_neurons_net; auto.
  destruct W as [[c m]|]; cbn [fst snd] in *.
  - split; auto. rewrite <- E2. eapply HW; reflexivity.
  - eapply default_W_shape; eauto.
Qed.

Lemma parse_loop_net : forall kw args e, e_net (fst (parse_loop e kw args)) = e_net e.
Proof.
  intros kw. induction args as [|a r IH]; intros e; cbn [parse_loop]; auto.
  set (e1 := if String.eqb a "OP" then _ else e). assert (e_net e1 = e_net e) as E1 by (unfold e1; destruct (String.eqb a "OP"); auto).
  repeat match goal with |- context [if ?b then _ else _] => destruct b end; cbn [fst]; auto;
    try (rewrite IH; cbn; auto);
    destruct (kw_w kw); try (rewrite IH; cbn; auto);
    repeat match goal with |- context [if ?b then _ else _] => destruct b end; cbn [fst]; auto; rewrite IH; cbn; auto.
Qed.

Lemma parse_args_net : forall e args kw, e_net (fst (parse_args e args kw)) = e_net e \/
  e_net (fst (parse_args e args kw)) = reset (e_net e).
Proof.
  intros. unfold parse_args. destruct (s_neurons (e_net e)); auto. right.
  destruct (negb _); auto. destruct (negb _); auto.
  pose proof (parse_loop_net kw (map upper args)
    (with_wc (with_class (with_op (with_net e (reset (e_net e))) false None) None) None)) as E.
  destruct (parse_loop _ _ _) as [e2 [u|x]]; cbn [fst] in *; auto. destruct (kw_batch kw); auto.
Qed.
Lemma wf_parse_args : forall e args kw, wf_elm e -> wf_elm (fst (parse_args e args kw)).
Proof. intros. unfold wf_elm in *. destruct (parse_args_net e args kw) as [->| ->]; auto using wf_reset. Qed.

Context {BR : Brent} {SH : Shuffle}.

Lemma wf_refit : forall e X T best, sing_shapes -> wf_elm e -> wf_elm (fst (refit e X T best)).
Proof.
  intros e X T best HS H. unfold refit.
  pose proof (wf_add_batch (prune (e_net e) best) X T None (wf_prune _ _ H)) as H1.
  destruct (add_batch _ _ _ _) as [s1 [u|x]]; cbn [fst] in *; auto.
  pose proof (wf_solve s1 HS H1). destruct (solve s1); auto.
Qed.
Lemma wf_done : forall er v, wf_elm (fst er) -> wf_elm (fst (done er v)).
Proof. intros [e r] v H; auto. Qed.

Lemma wf_lift_err : forall {A} e (r : res A) k, wf_elm e -> (forall a, r = Ok a -> wf_elm (fst (k a))) -> wf_elm (fst (lift_err e r k)).
Proof. intros A e [a|x] k H Hk; cbn; auto. Qed.

Lemma wf_train_v : forall e X T Xv Tv, sing_shapes -> wf_elm e -> wf_elm (fst (train_v e X T Xv Tv)).
Proof.
  intros e X T Xv Tv HS H. unfold train_v. pose proof (wf_add_data e X T H) as H1.
  destruct (add_data e X T) as [e1 [u|x]]; auto. apply wf_lift_err; auto.
  intros [[k rank] p] _. apply wf_done, wf_refit; auto.
Qed.

Lemma wf_build_folds : forall X T N k is_ e L, wf_elm e -> wf_elm (fst (build_folds e X T N k is_ L)).
Proof.
  intros X T N k. induction is_ as [|i r IH]; intros e L H; cbn [build_folds]; auto.
  destruct (fold_parts N k i) as [[tr vl] ts].
  pose proof (wf_add_batch (reset (e_net e)) (rsel X tr) (rsel T tr) None (wf_reset _ H)) as H1.
  destruct (add_batch _ _ _ _) as [s1 [u|x]]; cbn [fst] in *; auto.
  match goal with |- context [match ?p with Ok _ => _ | Err _ => _ end] => destruct p as [[fd L1]|x] end; auto.
  specialize (IH (with_net e s1) L1 H1).
  destruct (build_folds _ _ _ _ _ _ _) as [e2 [[fds L2]|x]]; auto.
Qed.
Lemma wf_train_cv : forall e X T k, sing_shapes -> wf_elm e -> wf_elm (fst (train_cv e X T k)).
Proof.
  intros e X T k HS H. unfold train_cv.
  pose proof (wf_build_folds X T (length X) k (seq 0 k) e (getL (e_net e)) H) as H1.
  destruct (build_folds _ _ _ _ _ _ _) as [e1 [[fds L]|x]]; auto.
  apply wf_lift_err; auto. intros [[[kopt rank] et] t] _. apply wf_done, wf_refit; auto.
Qed.
Lemma wf_train_loo : forall e X T, sing_shapes -> wf_elm e -> wf_elm (fst (train_loo e X T)).
Proof.
  intros e X T HS H. unfold train_loo. apply wf_lift_err; auto. intros Hm _.
  pose proof (wf_add_data e X T H) as H1. destruct (add_data e X T) as [e1 [u|x]]; auto.
  apply wf_lift_err; auto. intros [[k rank] t] _. apply wf_done, wf_refit; auto.
Qed.
Lemma wf_train_basic : forall e X T, sing_shapes -> wf_elm e -> wf_elm (fst (train_basic e X T)).
Proof.
  intros e X T HS H. unfold train_basic. pose proof (wf_add_data e X T H) as H1.
  destruct (add_data e X T) as [e1 [u|x]]; auto. pose proof (wf_solve (e_net e1) HS H1).
  destruct (solve (e_net e1)) as [s r]. auto.
Qed.

Lemma wf_train : forall e X T args kw, sing_shapes -> wf_elm e -> wf_elm (fst (train e X T args kw)).
Proof.
  intros e X T args kw HS H. unfold train. destruct (checkdata e X T) as [[x t]|]; auto.
  pose proof (wf_parse_args e args kw H) as H1.
  destruct (parse_args e args kw) as [e1 [u|err]]; cbn [fst] in *; auto.
  destruct (smem "V" args).
  { destruct (kw_Xv kw); auto. destruct (kw_Tv kw); auto. apply wf_lift_err; auto. intros; now apply wf_train_v. }
  destruct (smem "CV" args).
  { destruct (kw_k kw); auto. destruct (3 <=? n)%nat; auto. now apply wf_train_cv. }
  destruct (smem "LOO" args); [now apply wf_train_loo|now apply wf_train_basic].
Qed.

(** a saved model that came from a well-formed one *)
Definition wf_saved (m : saved) : Prop :=
  Forall (wf_neuron (sv_inputs m)) (sv_neurons m) /\
  opt_shape (nneurons (sv_neurons m)) (sv_outputs m) (sv_B m).

Lemma wf_load_neurons : forall ns s, wf_net s -> Forall (wf_neuron (s_inputs s)) ns -> wf_net (fst (load_neurons s ns)).
Proof.
  induction ns as [|n r IH]; intros s H Hn; cbn [load_neurons]; auto.
  destruct (can_merge _ _ _); auto. inversion Hn as [|? ? [H1 H2] H3]; subst. apply IH; [now apply wf_add_neurons_net|exact H3].
Qed.

Lemma set_B_outputs : forall s r c B, s_outputs (fst (set_B s r c B)) = s_outputs s.
Proof. intros. unfold set_B. destruct (s_L s); auto. destruct (r =? n)%nat; auto. destruct (c =? s_outputs s)%nat; auto. Qed.

Lemma wf_update_from : forall e m, wf_elm e -> wf_saved m ->
  (e_accel e = None \/ s_inputs (e_net e) = sv_inputs m) -> wf_elm (fst (update_from e m)).
Proof.
  intros e m H [M1 M2] Ha. unfold update_from.
  set (s0 := match e_accel e with None => _ | Some _ => _ end).
  assert (wf_net s0 /\ s_inputs s0 = sv_inputs m) as [H0 Hi].
  { unfold s0. destruct (e_accel e); [|split; [apply wf_init|reflexivity]].
    destruct Ha as [Ha|Ha]; [discriminate|]. split; auto. }
  assert (wf_net (fst (load_neurons s0 (sv_neurons m)))) as H1'.
  { apply wf_load_neurons; auto. now rewrite Hi. }
  destruct (load_neurons s0 (sv_neurons m)) as [s1 [u|x]]; auto. cbn [fst] in *.
  pose proof (wf_with_norm s1 (sv_norm m) H1') as H1. clear H1'.
  destruct (sv_B m) as [B|]; auto.
  assert (is_mat (length B) (sv_outputs m) B) as HB. { destruct M2 as [E1 E2]. split; auto. }
  pose proof (wf_set_B _ (length B) (sv_outputs m) B H1 HB) as H2.
  destruct (set_B _ _ _ _) as [s2 r]; auto.
Qed.

(** ** HPELM *)
Lemma hp_fill_wc_net : forall e T rs, e_net (hp_fill_wc e T rs) = e_net e.
Proof. intros. unfold hp_fill_wc. destruct (is_wc e); auto. destruct (e_wc e); auto. Qed.

Lemma get_corr_shape : forall s HH HT, wf_net s -> get_corr s = Ok (Some (HH, HT)) ->
  is_mat (nneurons (s_neurons s)) (nneurons (s_neurons s)) HH /\ is_mat (nneurons (s_neurons s)) (s_outputs s) HT.
Proof.
  intros s HH HT H E. unfold get_corr in E. pose proof (wf_HH s H) as E1. pose proof (wf_HT s H) as E2.
  rewrite (wf_getL s H) in E.
  destruct (s_HH s) as [hh|]; [|destruct (s_kind s); discriminate].
  destruct (s_HT s) as [ht|]; [|destruct (s_kind s); discriminate]. cbn in E1, E2.
  injection E as <- <-. split; auto. destruct (s_kind s); auto; apply is_mat_mk.
Qed.

Lemma wf_write_fs : forall s fs, wf_net s -> wf_net (fst (fst (write_fs s fs))).
Proof.
  intros s fs H. unfold write_fs. destruct (get_corr s) as [[[HH HT]|]|x] eqn:E; auto.
  destruct (get_corr_shape s HH HT H E) as [H1 H2].
  assert (wf_net (match s_kind s with Basic => with_corr s (Some (sub_norm (getL s) (s_norm s) HH)) (s_HT s) | _ => s end)) as Hs.
  { destruct (s_kind s); auto. pose proof (wf_HT s H) as E2.
    unfold get_corr in E. destruct (s_HH s) eqn:EH; [|destruct (s_kind s); discriminate].
    destruct (s_HT s); [|destruct (s_kind s); discriminate].
    apply wf_with_corr; auto. rewrite (wf_getL s H). apply is_mat_mk. }
  destruct (f_HH fs) as [[w m]|]; auto. destruct (f_HT fs) as [[w' m']|]; auto.
Qed.

Lemma wf_prepare_fs : forall s fs, wf_net s -> wf_net (fst (fst (prepare_fs s fs))).
Proof.
  intros s fs H. unfold prepare_fs.
  match goal with |- context [match ?p with Ok _ => _ | Err _ => _ end] => destruct p as [f1|x] end; cbn [fst]; auto using wf_reset.
  destruct (f_HT f1) as [[w m]|]; [|cbn [fst]; auto using wf_reset].
  match goal with |- context [if ?b then _ else _] => destruct b end; cbn [fst]; auto using wf_reset.
Qed.

Lemma wf_hp_add_data : forall e fX fT i c fs, wf_elm e -> wf_elm (fst (fst (hp_add_data e fX fT i c fs))).
Proof.
  intros e fX fT i c fs H. unfold hp_add_data. destruct (s_neurons (e_net e)); auto.
  destruct (hp_check e fX fT) as [[X T]|x]; auto.
  match goal with |- context [match ?p with pair _ _ => _ end] => destruct p as [[e0 fs0] r0] eqn:E end.
  assert (wf_elm e0) as H0.
  { destruct fs as [f|]; [|congruence]. pose proof (wf_prepare_fs (e_net e) f H) as Hp.
    destruct (prepare_fs (e_net e) f) as [[s f'] r]. injection E as <- _ _. exact Hp. }
  destruct r0; auto. destruct (nbatches _ _) as [nb|]; auto.
  set (rs := ranges _ _ _ _).
  pose proof (wf_add_batches (hp_fill_wc e0 T rs) (hp_batches X T rs) (e_net (hp_fill_wc e0 T rs))) as Hb.
  rewrite hp_fill_wc_net in *. specialize (Hb H0).
  destruct (add_batches _ _ _) as [s1 [u|x]]; cbn [fst] in *; auto.
  destruct fs0 as [f|]; auto.
  pose proof (wf_write_fs s1 f Hb). destruct (write_fs s1 f) as [[s2 f'] r]; auto.
Qed.

Lemma wf_hp_train : forall e fX fT args kw i c, sing_shapes -> wf_elm e -> wf_elm (fst (hp_train e fX fT args kw i c)).
Proof.
  intros e fX fT args kw i c HS H. unfold hp_train. destruct (hp_check e fX fT); auto.
  pose proof (wf_parse_args e args kw H) as H1.
  destruct (parse_args e args kw) as [e1 [u|err]]; cbn [fst] in *; auto.
  set (i0 := match i with Some _ => _ | None => _ end).
  pose proof (wf_hp_add_data e1 fX fT i0 c None H1) as H2.
  destruct (hp_add_data _ _ _ _ _ _) as [[e2 fs] [v|x]]; cbn [fst] in *; auto.
  pose proof (wf_solve (e_net e2) HS H2). destruct (solve (e_net e2)); auto.
Qed.

Definition wf_fs (fs : corrfs) : Prop :=
  (forall c m, f_HH fs = Some (c, m) -> Forall (fun r => length r = c) m) /\
  (forall c m, f_HT fs = Some (c, m) -> Forall (fun r => length r = c) m).

Lemma checkcorr_shape : forall e fs HH HT, wf_elm e -> wf_fs fs -> checkcorr e fs = Ok (HH, HT) ->
  is_mat (nneurons (s_neurons (e_net e))) (nneurons (s_neurons (e_net e))) HH /\
  is_mat (nneurons (s_neurons (e_net e))) (s_outputs (e_net e)) HT.
Proof.
  intros e fs HH HT H [F1 F2] E. unfold checkcorr in E.
  destruct (f_HH fs) as [[w m]|]; [|discriminate]. destruct (f_HT fs) as [[w' m']|]; [|discriminate].
  rewrite (wf_getL _ H) in E. destruct (s_neurons (e_net e)) eqn:En; [discriminate|]. rewrite <- En in *.
  destruct ((length m =? _)%nat && (w =? _)%nat) eqn:E1; [|discriminate].
  destruct ((length m' =? _)%nat && (w' =? _)%nat) eqn:E2; [|discriminate].
  apply andb_prop in E1, E2. destruct E1 as [A1 A2], E2 as [A3 A4]. apply Nat.eqb_eq in A1, A2, A3, A4.
  injection E as <- <-. split; split; auto; [rewrite <- A2|rewrite <- A4]; auto.
Qed.

Lemma wf_hp_solve_corr : forall e fs, sing_shapes -> wf_elm e -> wf_fs fs -> wf_elm (fst (hp_solve_corr e fs)).
Proof.
  intros e fs HS H HF. unfold hp_solve_corr. destruct (checkcorr e fs) as [[HH HT]|] eqn:E; auto.
  destruct (checkcorr_shape e fs HH HT H HF E) as [H1 H2]. rewrite (wf_getL _ H).
  pose proof (solve_corr_shape (e_net e) _ HH HT HS H1 H2) as HB.
  set (B := solve_corr _ _ _ _) in *.
  pose proof (wf_set_B (e_net e) (length B) (s_outputs (e_net e)) B H (conj eq_refl (proj2 HB))) as H3.
  destruct (set_B _ _ _ _) as [s r]; auto.
Qed.

Lemma vc_update_keep : forall e Tb Hb w N cd cd', vc_update e Tb Hb w N cd = Ok cd' ->
  cd_l cd' = cd_l cd /\ cd_B cd' = cd_B cd.
Proof.
  intros e Tb Hb w N cd cd' E. unfold vc_update in E.
  destruct (hp_error_ _ _ _ _ _ _ _ _); cbn [rbind] in E; [|discriminate].
  destruct (match e_class e with Some _ => _ | None => _ end); cbn [rbind] in E; [|discriminate].
  injection E as <-. auto.
Qed.

Lemma mapM_keep : forall {A} (f : A -> res A) (P : A -> A -> Prop) l l',
  (forall a b, f a = Ok b -> P a b) -> mapM f l = Ok l' -> Forall2 P l l'.
Proof.
  intros A f P l; induction l as [|a l IH]; intros l' Hf E; cbn [mapM] in E.
  - injection E as <-. constructor.
  - destruct (f a) eqn:Ea; cbn in E; [|discriminate]. destruct (mapM f l) eqn:El; cbn in E; [|discriminate].
    injection E as <-. constructor; auto.
Qed.

Lemma vc_loop_keep : forall e X T rs cds cds', vc_loop e X T rs cds = Ok cds' ->
  Forall2 (fun a b => cd_l b = cd_l a /\ cd_B b = cd_B a) cds cds'.
Proof.
  intros e X T. induction rs as [|ab r IH]; intros cds cds' E; cbn [vc_loop] in E.
  - injection E as <-. induction cds; constructor; auto.
  - destruct (project _ _) as [Hb|]; cbn [rbind] in E; [|discriminate].
    destruct (mapM _ cds) as [c1|] eqn:E1; cbn [rbind] in E; [|discriminate].
    apply IH in E. apply mapM_keep with (P := fun a b => cd_l b = cd_l a /\ cd_B b = cd_B a) in E1.
    + clear IH. revert cds' E. induction E1 as [|a b l l' [P1 P2] HF IHF]; intros cds' E; inversion E; subst; constructor.
      * destruct H1. split; congruence.
      * auto.
    + intros a b Eab. eapply vc_update_keep; eauto.
Qed.

Lemma Forall_nth_default : forall {A} (P : A -> Prop) l k d, Forall P l -> P d -> P (nth k l d).
Proof. intros A P l; induction l; intros [|k] d H Hd; cbn; auto; inversion H; auto. Qed.

Lemma wf_validation_corr : forall e fs fX fT Ls, sing_shapes -> wf_elm e -> wf_fs fs ->
  wf_elm (fst (validation_corr e fs fX fT Ls)).
Proof.
  intros e fs fX fT Ls HS H HF. unfold validation_corr. destruct (hp_check e fX fT) as [[X T]|]; auto.
  destruct (checkcorr e fs) as [[HH HT]|] eqn:E; auto.
  destruct (checkcorr_shape e fs HH HT H HF E) as [H1 H2].
  destruct (let? nb := _ in _) as [cds|] eqn:Ev; auto. destruct cds as [|c0 cr] eqn:Ec; auto. rewrite <- Ec in *.
  set (best := nth _ _ c0).
  assert (Forall (fun cd => Forall (fun r => length r = s_outputs (e_net e)) (cd_B cd)) cds) as HB.
  { destruct (nbatches _ _); cbn [rbind] in Ev; [|discriminate]. apply vc_loop_keep in Ev.
    apply Forall_forall. intros cd Hin.
    assert (exists l, cd_B cd = cd_B (vc_cand e HH HT l)) as [l ->].
    { clear -Ev Hin. remember (map (vc_cand e HH HT) Ls) as cs. revert Ls Heqcs.
      induction Ev as [|a b l l' [P1 P2] HF IHF]; intros Ls Heq; [destruct Hin|].
      destruct Ls as [|l0 Ls]; [discriminate|]. cbn in Heq. injection Heq as -> ->.
      destruct Hin as [<-|Hin]; eauto. }
    cbn. rewrite (wf_getL _ H).
    assert (is_mat (Nat.min l (nneurons (s_neurons (e_net e)))) (s_outputs (e_net e))
      (solve_corr (e_net e) (Nat.min l (nneurons (s_neurons (e_net e)))) (head_HH l HH) (firstn l HT))) as [_ Hr]; auto.
    apply solve_corr_shape; auto.
    - unfold head_HH. destruct H1 as [A1 A2]. split; [now rewrite map_length, firstn_length, A1|].
      rewrite Forall_map. eapply Forall_impl; [|apply Forall_firstn; exact A2]. cbn. intros r Hr. now rewrite firstn_length, Hr.
    - destruct H2 as [A1 A2]. split; [now rewrite firstn_length, A1|]. now apply Forall_firstn. }
  assert (Forall (fun r => length r = s_outputs (e_net e)) (cd_B best)) as Hb.
  { unfold best. apply (Forall_nth_default (fun cd => Forall (fun r => length r = s_outputs (e_net e)) (cd_B cd))); auto.
    rewrite Ec in HB. inversion HB; auto. }
  pose proof (wf_set_B (prune (e_net e) (seq 0 (cd_l best))) (length (cd_B best)) (s_outputs (e_net e)) (cd_B best)
    (wf_prune _ _ H) (conj eq_refl Hb)) as H3.
  rewrite Ec in *. change (s_outputs (prune (e_net e) (seq 0 (cd_l best)))) with (s_outputs (e_net e)).
  destruct (set_B _ _ _ _) as [s2 r]. auto.
Qed.
End Wf.
