(** A change of the inputs that is compensated in the neurons: training in every arithmetic. *)
From Verif Require Import Base Num Mat LinAlg Slfn Strs Elm Mrsr Search Mss MatFacts FoldThms.
Local Open Scope string_scope.
Local Open Scope list_scope.

Section C.
Context {K : Num} {SG : Sing} {BR : Brent} {SH : Shuffle}.
(** [d], [d']: old and new number of inputs; [psi]: the new sample; [gw], [gb]: new weights and bias of a neuron *)
Variables (d d' : nat) (psi : vec -> vec) (gw : ftype -> vec -> num -> vec) (gb : ftype -> vec -> num -> num).
Hypothesis Hpsi : forall x, length x = d -> length (psi x) = d'.
Hypothesis Hgw : forall f w b, length w = d -> length (gw f w b) = d'.

Definition move_group (n : neuron) : neuron :=
  mkNeuron (n_num n) (n_func n)
    (mk d' (length (n_B n)) (fun i j => vget (gw (n_func n) (mcol (n_W n) j) (vget (n_B n) j)) i))
    (mkv (length (n_B n)) (fun j => gb (n_func n) (mcol (n_W n) j) (vget (n_B n) j))).
Definition move_net (s : slfn) : slfn :=
  mkSlfn (s_kind s) d' (s_outputs s) (s_norm s) (map move_group (s_neurons s)) (s_L s) (s_B s) (s_HH s) (s_HT s).
Definition move (e : elm) : elm := with_net e (move_net (e_net e)).

(** the neurons take [d] inputs and keep their value on the samples of [P] *)
Variable P : vec -> Prop.
Hypothesis HPd : forall x, P x -> length x = d.
Definition fits (n : neuron) : Prop := length (n_B n) = n_num n /\ length (n_W n) = d.
Definition keeps (n : neuron) : Prop := forall x j, P x -> (j < n_num n)%nat ->
  act (n_func n) (psi x) (gw (n_func n) (mcol (n_W n) j) (vget (n_B n) j)) (gb (n_func n) (mcol (n_W n) j) (vget (n_B n) j)) = act (n_func n) x (mcol (n_W n) j) (vget (n_B n) j).
Definition okn (s : slfn) : Prop := s_inputs s = d /\ Forall (fun n => fits n /\ keeps n) (s_neurons s).

Lemma vget_mkv' : forall c f j, (j < c)%nat -> vget (mkv c f) j = f j.
Proof. intros c f j H. unfold vget, mkv. rewrite (nth_indep _ n0 (f 0%nat)) by (rewrite map_length, seq_length; lia). rewrite map_nth, seq_nth by lia. reflexivity. Qed.
Lemma mkv_vget : forall v c, length v = c -> mkv c (vget v) = v.
Proof.
  intros v c H. subst c. unfold mkv, vget. apply nth_ext with (d := n0) (d' := n0); [now rewrite map_length, seq_length|]. intros i Hi. rewrite map_length, seq_length in Hi.
  rewrite (nth_indep _ n0 ((fun j => nth j v n0) 0%nat)) by (rewrite map_length, seq_length; lia). rewrite (map_nth (fun j => nth j v n0)), seq_nth by lia. reflexivity.
Qed.
Lemma mcol_mk : forall r c f j, (j < c)%nat -> mcol (mk r c f) j = mkv r (fun i => f i j).
Proof. intros r c f j H. unfold mcol, mk. rewrite map_map. unfold mkv at 2. apply map_ext. intros i. now apply vget_mkv'. Qed.
Lemma mcol_length : forall W j, length (mcol W j) = length W.
Proof. intros. unfold mcol. apply map_length. Qed.
Lemma mcol_move : forall n j, fits n -> (j < n_num n)%nat -> mcol (n_W (move_group n)) j = gw (n_func n) (mcol (n_W n) j) (vget (n_B n) j).
Proof. intros n j [H1 H2] Hj. unfold move_group. cbn [n_W]. rewrite mcol_mk by lia. apply mkv_vget. apply Hgw. rewrite mcol_length. exact H2. Qed.
Lemma nrow_move : forall n x, fits n -> keeps n -> P x -> nrow (move_group n) (psi x) = nrow n x.
Proof.
  intros n x HF HK Hx. unfold nrow. change (n_func (move_group n)) with (n_func n). assert (length (n_B (move_group n)) = length (n_B n)) as -> by (cbn; unfold mkv; now rewrite map_length, seq_length).
  apply map_ext_in. intros j Hj. apply in_seq in Hj. assert (j < n_num n)%nat as Hj' by (destruct HF; lia). rewrite (mcol_move n j HF Hj').
  unfold move_group at 1. cbn [n_B]. rewrite vget_mkv' by lia. now apply HK.
Qed.
Lemma hrow_move : forall ns x, Forall (fun n => fits n /\ keeps n) ns -> P x -> hrow (map move_group ns) (psi x) = hrow ns x.
Proof.
  intros ns x H Hx. unfold hrow. f_equal. rewrite map_map. apply map_ext_in. intros n Hn. rewrite Forall_forall in H. destruct (H n Hn). now apply nrow_move.
Qed.
Definition valid (X : mat) : Prop := Forall P X.
Lemma project_move : forall s X, okn s -> valid X -> project (move_net s) (map psi X) = project s X.
Proof.
  intros s X [Hi HF] HX. unfold project. cbn [move_net s_neurons s_inputs]. destruct (s_neurons s) as [|n0' ns0] eqn:En; [reflexivity|]. rewrite <- En in *. destruct (map move_group (s_neurons s)) as [|m ms] eqn:Em; [rewrite En in Em; discriminate|]. rewrite <- Em. clear m ms Em.
  assert (existsb (fun n => is_ufunc (n_func n)) (map move_group (s_neurons s)) = existsb (fun n => is_ufunc (n_func n)) (s_neurons s)) as ->.
  { clear. induction (s_neurons s) as [|n ns IH]; [reflexivity|]. cbn [map existsb]. now rewrite IH. }
  destruct (existsb _ _) eqn:EU; [reflexivity|].
  assert (forall ns, Forall (fun n => fits n /\ keeps n) ns -> existsb (fun n => is_ufunc (n_func n)) ns = false -> existsb (bad_group d) ns = false /\ existsb (bad_group d') (map move_group ns) = false) as G.
  { induction ns as [|n ns IH]; intros F U; [split; reflexivity|]. inversion F as [|? ? [[_ H1] _] F']; subst. cbn [existsb map] in *. apply orb_false_elim in U as [U1 U2]. destruct (IH F' U2) as [-> ->]. unfold bad_group.
    change (n_func (move_group n)) with (n_func n). rewrite U1. assert (length (n_W (move_group n)) = d') as -> by (cbn; unfold mk; now rewrite map_length, seq_length). rewrite H1, !Nat.eqb_refl. split; reflexivity. }
  destruct (G _ HF EU) as [G1 G2]. rewrite Hi, G1, G2.
  assert (forallb (fun x => length x =? d)%nat X = true) as ->. { apply forallb_forall. intros x Hx. apply Nat.eqb_eq, HPd. unfold valid in HX. rewrite Forall_forall in HX. auto. }
  assert (forallb (fun x => length x =? d')%nat (map psi X) = true) as ->.
  { apply forallb_forall. intros x Hx. apply in_map_iff in Hx as (y & <- & Hy). apply Nat.eqb_eq, Hpsi, HPd. unfold valid in HX. rewrite Forall_forall in HX. auto. }
  f_equal. rewrite map_map. apply map_ext_in. intros x Hx. unfold valid in HX. rewrite Forall_forall in HX. apply hrow_move; auto.
Qed.

(** ** pruning *)
Lemma mcol_csel : forall W ix j, (j < length ix)%nat -> mcol (csel W ix) j = mcol W (nth j ix 0%nat).
Proof.
  intros W ix j Hj. unfold mcol, csel. rewrite map_map. apply map_ext. intros row. unfold vsel, vget at 1. rewrite (nth_indep _ n0 (vget row 0%nat)) by now rewrite map_length. apply map_nth.
Qed.
Lemma vget_vsel : forall v ix j, (j < length ix)%nat -> vget (vsel v ix) j = vget v (nth j ix 0%nat).
Proof. intros v ix j Hj. unfold vsel, vget at 1. rewrite (nth_indep _ n0 (vget v 0%nat)) by now rewrite map_length. apply map_nth. Qed.
Lemma map_seq_nth : forall {A} (g : nat -> A) ix, map (fun a => g (nth a ix 0%nat)) (seq 0 (length ix)) = map g ix.
Proof. intros A g ix. induction ix as [|i ix IH]; [reflexivity|]. cbn [length seq map nth]. f_equal. rewrite <- seq_shift, map_map. exact IH. Qed.
Lemma move_pick : forall n ix, fits n -> (forall i, In i ix -> (i < n_num n)%nat) ->
  mkNeuron (length ix) (n_func n) (csel (n_W (move_group n)) ix) (vsel (n_B (move_group n)) ix) = move_group (mkNeuron (length ix) (n_func n) (csel (n_W n) ix) (vsel (n_B n) ix)).
Proof.
  intros n ix [H1 H2] Hi. unfold move_group. cbn [n_W n_B n_func n_num]. assert (length (vsel (n_B n) ix) = length ix) as -> by (unfold vsel; apply map_length). f_equal.
  - unfold csel at 1, mk. rewrite map_map. apply map_ext. intros i. unfold vsel at 1.
    transitivity (map (fun j => vget (gw (n_func n) (mcol (n_W n) j) (vget (n_B n) j)) i) ix).
    + apply map_ext_in. intros j Hj. rewrite vget_mkv' by (rewrite H1; now apply Hi). reflexivity.
    + rewrite <- map_seq_nth. unfold mkv. apply map_ext_in. intros a Ha. apply in_seq in Ha. rewrite mcol_csel, vget_vsel by lia. reflexivity.
  - unfold vsel at 1. transitivity (map (fun j => gb (n_func n) (mcol (n_W n) j) (vget (n_B n) j)) ix).
    + apply map_ext_in. intros j Hj. rewrite vget_mkv' by (rewrite H1; now apply Hi). reflexivity.
    + rewrite <- map_seq_nth. unfold mkv. apply map_ext_in. intros a Ha. apply in_seq in Ha. rewrite mcol_csel, vget_vsel by lia. reflexivity.
Qed.
Lemma prune_neurons_move : forall ns ix, Forall (fun n => fits n /\ keeps n) ns -> prune_neurons (map move_group ns) ix = map move_group (prune_neurons ns ix).
Proof.
  induction ns as [|n ns IH]; intros ix F; [reflexivity|]. inversion F as [|? ? [H1 H2] F']; subst. cbn [map prune_neurons]. rewrite <- IH by exact F'. change (n_num (move_group n)) with (n_num n). change (n_func (move_group n)) with (n_func n). f_equal.
  apply move_pick; [exact H1|]. intros i Hi. apply filter_In, proj2, Nat.ltb_lt in Hi. exact Hi.
Qed.
Lemma prune_neurons_ok : forall ns ix, Forall (fun n => fits n /\ keeps n) ns -> Forall (fun n => fits n /\ keeps n) (prune_neurons ns ix).
Proof.
  induction ns as [|n ns IH]; intros ix F; [constructor|]. inversion F as [|? ? [[H1 H2] H3] F']; subst. cbn [prune_neurons]. set (ix1 := filter (fun i => (i <? n_num n)%nat) ix). constructor; [|apply IH; exact F']. split.
  - split; cbn [n_B n_num n_W]; [unfold vsel; apply map_length|unfold csel; now rewrite map_length].
  - intros x j Hx Hj. cbn [n_B n_num n_W n_func] in *. rewrite mcol_csel, vget_vsel by exact Hj. apply H3; [exact Hx|].
    assert (In (nth j ix1 0%nat) ix1) as Q by (apply nth_In; exact Hj). apply filter_In, proj2, Nat.ltb_lt in Q. exact Q.
Qed.
Lemma nneurons_move : forall ns, nneurons (map move_group ns) = nneurons ns.
Proof. intros ns. unfold nneurons. rewrite map_map. reflexivity. Qed.
Lemma reset_move : forall s, reset (move_net s) = move_net (reset s).
Proof. intros s. unfold reset, move_net. cbn [s_kind s_inputs s_outputs s_norm s_neurons s_L s_B]. now rewrite nneurons_move. Qed.
Lemma prune_move : forall s ix, okn s -> prune (move_net s) ix = move_net (prune s ix).
Proof. intros s ix [_ F]. unfold prune. cbn [move_net s_neurons]. rewrite prune_neurons_move by exact F. unfold with_B, reset, with_neurons, move_net. cbn [s_kind s_inputs s_outputs s_norm s_neurons s_L s_B s_HH s_HT]. now rewrite nneurons_move. Qed.
Lemma prune_ok : forall s ix, okn s -> okn (prune s ix).
Proof. intros s ix [H F]. split; [exact H|]. now apply prune_neurons_ok. Qed.

(** ** training *)
Lemma add_batch_move : forall s X T w, okn s -> valid X -> add_batch (move_net s) (map psi X) T w = (move_net (fst (add_batch s X T w)), snd (add_batch s X T w)).
Proof.
  intros s X T w HO HX. unfold add_batch. rewrite project_move by auto. destruct (rbind (project s X) _) as [[H T']|]; [|reflexivity].
  change (getL (move_net s)) with (getL s). cbn [move_net s_HH s_HT s_norm s_kind s_outputs]. destruct (if (length T' =? length H)%nat then _ else _); reflexivity.
Qed.
Lemma add_batch_ok : forall s X T w, okn s -> okn (fst (add_batch s X T w)).
Proof. intros s X T w [H F]. unfold add_batch. destruct (rbind (project s X) _) as [[H' T']|]; [|split; assumption]. destruct (if (length T' =? length H')%nat then _ else _); split; assumption. Qed.
Lemma add_batches_move : forall e parts s, okn s -> Forall (fun p => valid (fst p)) parts ->
  add_batches (move e) (move_net s) (map (fun p => (map psi (fst p), snd p)) parts) = (move_net (fst (add_batches e s parts)), snd (add_batches e s parts)) /\ okn (fst (add_batches e s parts)).
Proof.
  intros e. induction parts as [|[X0 T0] parts IH]; intros s HO HV; [split; [reflexivity|exact HO]|]. inversion HV; subst. cbn [map fst snd add_batches].
  change (is_wc (move e)) with (is_wc e). change (e_wc (move e)) with (e_wc e). destruct (if is_wc e then _ else _) as [w|]; [|split; [reflexivity|exact HO]]. rewrite add_batch_move by auto.
  pose proof (add_batch_ok s X0 T0 w HO) as HO1. destruct (add_batch s X0 T0 w) as [s1 [u|x]]; cbn [fst snd] in *; [apply IH; auto|split; [reflexivity|exact HO1]].
Qed.

Lemma cut_map : forall {A B} (f : A -> B) sizes l, cut sizes (map f l) = map (map f) (cut sizes l).
Proof. intros A B f. induction sizes as [|z zs IH]; intros l; [reflexivity|]. cbn [cut map]. now rewrite firstn_map, skipn_map, IH. Qed.
Lemma cut_valid : forall sizes X, valid X -> Forall valid (cut sizes X).
Proof.
  induction sizes as [|z zs IH]; intros X HX; [constructor|]. cbn [cut]. constructor.
  - unfold valid in *. rewrite Forall_forall in *. intros x Hx. apply HX. rewrite <- (firstn_skipn z X). apply in_or_app. now left.
  - apply IH. unfold valid in *. rewrite Forall_forall in *. intros x Hx. apply HX. rewrite <- (firstn_skipn z X). apply in_or_app. now right.
Qed.
Lemma combine_map_l : forall {A B C} (f : A -> B) (l : list A) (m : list C), combine (map f l) m = map (fun p => (f (fst p), snd p)) (combine l m).
Proof. intros A B C f. induction l as [|a l IH]; intros [|b m]; [reflexivity..|]. cbn. now rewrite IH. Qed.
Definition ok (e : elm) : Prop := okn (e_net e).
Lemma add_data_move : forall e X T, ok e -> valid X ->
  add_data (move e) (map psi X) T = (move (fst (add_data e X T)), snd (add_data e X T)) /\ ok (fst (add_data e X T)).
Proof.
  intros e X T HO HX. unfold add_data. rewrite map_length. change (e_batch (move e)) with (e_batch e). destruct (nbatches _ _) as [nb|]; [|split; [reflexivity|exact HO]].
  assert (fill_wc (move e) T = move (fill_wc e T)) as ->. { unfold fill_wc. change (is_wc (move e)) with (is_wc e). change (e_wc (move e)) with (e_wc e). destruct (is_wc e); [destruct (e_wc e)|]; reflexivity. }
  assert (ok (fill_wc e T)) as HO1. { unfold fill_wc. destruct (is_wc e); [destruct (e_wc e)|]; exact HO. }
  destruct (nb <=? 0)%Z; [split; [reflexivity|exact HO1]|]. unfold array_split. destruct (Z.to_nat nb =? 0)%nat; [split; [reflexivity|exact HO1]|].
  rewrite map_length, cut_map, combine_map_l. change (e_net (move (fill_wc e T))) with (move_net (e_net (fill_wc e T))).
  edestruct (add_batches_move (fill_wc e T)) as [Q1 Q2]; [exact HO1| |rewrite Q1; clear Q1; destruct (add_batches (fill_wc e T) (e_net (fill_wc e T)) _) as [s1 r1]; split; [reflexivity|exact Q2]].
  apply Forall_forall. intros [a b] Hab. apply in_combine_l in Hab. pose proof (cut_valid (split_sizes (length X) (Z.to_nat nb)) X HX) as Q. rewrite Forall_forall in Q. now apply Q.
Qed.
Definition both {A} (p q : elm * res A) : Prop := q = (move (fst p), snd p) /\ ok (fst p).
Lemma solve_move : forall s, solve (move_net s) = (move_net (fst (solve s)), snd (solve s)).
Proof. intros s. unfold solve. cbn [move_net s_HH s_HT]. destruct (s_HH s); [destruct (s_HT s)|]; reflexivity. Qed.
Lemma solve_ok : forall s, okn s -> okn (fst (solve s)).
Proof. intros s [H F]. unfold solve. destruct (s_HH s); [destruct (s_HT s)|]; split; assumption. Qed.
Lemma refit_move : forall e X T best, ok e -> valid X -> both (refit e X T best) (refit (move e) (map psi X) T best).
Proof.
  intros e X T best HO HX. unfold refit. change (e_net (move e)) with (move_net (e_net e)). rewrite prune_move by exact HO. pose proof (prune_ok _ best HO) as HO1. rewrite add_batch_move by auto.
  pose proof (add_batch_ok (prune (e_net e) best) X T None HO1) as HO2.
  destruct (add_batch (prune (e_net e) best) X T None) as [s1 [u|x]]; cbn [fst snd] in *; [|split; [reflexivity|exact HO2]]. rewrite solve_move. pose proof (solve_ok s1 HO2) as HO3. destruct (solve s1). split; [reflexivity|exact HO3].
Qed.
Lemma done_move : forall p q v, both p q -> both (done p v) (done q v).
Proof. intros p q v [H H1]. subst q. split; [reflexivity|exact H1]. Qed.
Lemma both_err : forall {A} e x, ok e -> @both A (e, Err x) (move e, Err x).
Proof. intros A e x H. split; [reflexivity|exact H]. Qed.
Lemma train_v_move : forall e X T Xv Tv, ok e -> valid X -> valid Xv -> both (train_v e X T Xv Tv) (train_v (move e) (map psi X) T (map psi Xv) Tv).
Proof.
  intros e X T Xv Tv HO HX HXv. unfold train_v. destruct (add_data_move e X T HO HX) as [-> HO1]. destruct (add_data e X T) as [e1 [u|x]]; cbn [fst snd] in *; [|now apply both_err].
  assert (select_v (move e1) (map psi Xv) Tv = select_v e1 Xv Tv) as ->. { unfold select_v. change (e_net (move e1)) with (move_net (e_net e1)). rewrite project_move by auto. reflexivity. }
  destruct (select_v e1 Xv Tv) as [[[k r] q]|x]; cbn [lift_err]; [|now apply both_err]. apply done_move. now apply refit_move.
Qed.
Lemma train_loo_move : forall e X T, ok e -> valid X -> both (train_loo e X T) (train_loo (move e) (map psi X) T).
Proof.
  intros e X T HO HX. unfold train_loo. change (e_net (move e)) with (move_net (e_net e)). rewrite project_move by auto. destruct (project (e_net e) X) as [H|]; cbn [lift_err]; [|now apply both_err].
  destruct (add_data_move e X T HO HX) as [-> HO1]. destruct (add_data e X T) as [e1 [u|x]]; cbn [fst snd] in *; [|now apply both_err].
  change (select_loo (move e1) H T) with (select_loo e1 H T). destruct (select_loo e1 H T) as [[[k r] q]|x]; cbn [lift_err]; [|now apply both_err]. apply done_move. now apply refit_move.
Qed.
Lemma train_basic_move : forall e X T, ok e -> valid X -> both (train_basic e X T) (train_basic (move e) (map psi X) T).
Proof.
  intros e X T HO HX. unfold train_basic. destruct (add_data_move e X T HO HX) as [-> HO1]. destruct (add_data e X T) as [e1 [u|x]]; cbn [fst snd] in *; [|now apply both_err].
  change (e_net (move e1)) with (move_net (e_net e1)). rewrite solve_move. pose proof (solve_ok (e_net e1) HO1) as HO2. destruct (solve (e_net e1)). split; [reflexivity|exact HO2].
Qed.
Lemma rsel_map : forall X ix, (forall i, In i ix -> (i < length X)%nat) -> rsel (map psi X) ix = map psi (rsel X ix).
Proof.
  intros X ix H. unfold rsel. rewrite map_map. apply map_ext_in. intros i Hi. rewrite (nth_indep _ [] (psi [])) by (rewrite map_length; auto). apply map_nth.
Qed.
Lemma rsel_valid : forall X ix, valid X -> (forall i, In i ix -> (i < length X)%nat) -> valid (rsel X ix).
Proof. intros X ix HX H. unfold valid in *. rewrite Forall_forall in *. intros x Hx. unfold rsel in Hx. apply in_map_iff in Hx as (i & <- & Hi). apply HX, nth_In. auto. Qed.
Lemma reset_ok : forall s, okn s -> okn (reset s).
Proof. intros s [H1 H2]. split; assumption. Qed.
Lemma build_move : forall X T k, valid X -> (2 <= k)%nat -> forall is_ e L, ok e -> (forall i, In i is_ -> (i < k)%nat) ->
  build_folds (move e) (map psi X) T (length X) k is_ L = (move (fst (build_folds e X T (length X) k is_ L)), snd (build_folds e X T (length X) k is_ L)) /\ ok (fst (build_folds e X T (length X) k is_ L)).
Proof.
  intros X T k HX Hk. induction is_ as [|i is_ IH]; intros e L HO Hi; [split; [reflexivity|exact HO]|]. cbn [build_folds].
  assert (forall n, In n (train_part (fold_parts (length X) k i)) \/ In n (val_part (fold_parts (length X) k i)) \/ In n (test_part (fold_parts (length X) k i)) -> (n < length X)%nat) as Hin.
  { intros n. apply fold_parts_in; [exact Hk|]. apply Hi. now left. }
  destruct (fold_parts (length X) k i) as [[tr vl] ts]. unfold train_part, val_part, test_part in Hin. cbn [fst snd] in Hin.
  assert (forall n, In n tr -> (n < length X)%nat) as I1 by auto. assert (forall n, In n vl -> (n < length X)%nat) as I2 by auto. assert (forall n, In n ts -> (n < length X)%nat) as I3 by auto.
  rewrite !rsel_map by assumption. change (e_net (move e)) with (move_net (e_net e)). rewrite reset_move, add_batch_move; [|now apply reset_ok|now apply rsel_valid].
  pose proof (add_batch_ok (reset (e_net e)) (rsel X tr) (rsel T tr) None (reset_ok _ HO)) as HO1.
  destruct (add_batch (reset (e_net e)) (rsel X tr) (rsel T tr) None) as [s1 [u|x]]; cbn [fst snd] in *; [|split; [reflexivity|exact HO1]].
  rewrite !project_move by (try exact HO1; now apply rsel_valid). change (with_net (move e) (move_net s1)) with (move (with_net e s1)). change (get_corr (move_net s1)) with (get_corr s1). change (getL (move_net s1)) with (getL s1).
  change (ranking (move (with_net e s1))) with (ranking (with_net e s1)).
  match goal with |- context [match ?o with Ok _ => _ | Err _ => _ end] => destruct o as [[fd L1]|] end; [|split; [reflexivity|exact HO1]].
  destruct (IH (with_net e s1) L1 HO1) as [Q1 Q2]; [intros j Hj; apply Hi; now right|]. rewrite Q1. destruct (build_folds (with_net e s1) X T (length X) k is_ L1) as [e2 [[fds L2]|x]]; (split; [reflexivity|exact Q2]).
Qed.
Lemma train_cv_move : forall e X T k, ok e -> valid X -> (2 <= k)%nat -> both (train_cv e X T k) (train_cv (move e) (map psi X) T k).
Proof.
  intros e X T k HO HX Hk. unfold train_cv. rewrite map_length. change (getL (e_net (move e))) with (getL (e_net e)). destruct (build_move X T k HX Hk (seq 0 k) e (getL (e_net e)) HO) as [-> HO1]; [intros i Hi; apply in_seq in Hi; lia|].
  destruct (build_folds e X T _ k _ _) as [e1 [[fds L]|x]]; cbn [fst snd] in *; [|now apply both_err].
  change (select_cv (move e1) fds k L) with (select_cv e1 fds k L). destruct (select_cv e1 fds k L) as [[[[kk r] t] q]|x]; cbn [lift_err]; [|now apply both_err]. apply done_move. now apply refit_move.
Qed.
Definition move_arr (a : arr) : arr := match a with Arr2 c m => Arr2 d' (map psi m) | _ => a end.
Definition move_kw (kw : kwargs) : kwargs := mkKw (kw_w kw) (kw_kmax kw) (kw_batch kw) (kw_k kw) (option_map move_arr (kw_Xv kw)) (kw_Tv kw).
(** validation inputs, if given, are [d] columns of valid samples *)
Definition kw_ok (kw : kwargs) : Prop := match kw_Xv kw with None => True | Some a => exists X, a = Arr2 d X /\ valid X end.
Lemma parse_loop_move : forall kw args e, parse_loop (move e) (move_kw kw) args = (move (fst (parse_loop e kw args)), snd (parse_loop e kw args)) /\ e_net (fst (parse_loop e kw args)) = e_net e.
Proof.
  intros kw. induction args as [|a args IH]; intros e; [split; reflexivity|]. cbn [parse_loop]. change (s_outputs (e_net (move e))) with (s_outputs (e_net e)). change (kw_kmax (move_kw kw)) with (kw_kmax kw). change (kw_w (move_kw kw)) with (kw_w kw).
  set (e1 := if a =? "OP" then with_op e true _ else e).
  assert ((if a =? "OP" then with_op (move e) true (match kw_kmax kw with Some k => Some k | None => e_kmax (move e) end) else move e) = move e1) as -> by (unfold e1; destruct (a =? "OP"); reflexivity).
  assert (e_net e1 = e_net e) as EN by (unfold e1; destruct (a =? "OP"); reflexivity). rewrite <- EN. clearbody e1. clear EN.
  destruct (a =? "C"). { destruct (1 <? _)%nat; [|split; reflexivity]. exact (IH (with_class e1 (Some "c"))). }
  destruct (a =? "WC"). { destruct (1 <? _)%nat; [|split; reflexivity]. destruct (kw_w kw) as [w|]; [|exact (IH (with_class e1 (Some "wc")))].
    destruct (length w =? _)%nat; [|split; reflexivity]. exact (IH (with_wc (with_class e1 (Some "wc")) (Some (map Fin w)))). }
  destruct (_ || _)%bool. { destruct (1 <? _)%nat; [|split; reflexivity]. exact (IH (with_class e1 (Some "ml"))). }
  destruct (a =? "R"); [exact (IH (with_class e1 None))|exact (IH e1)].
Qed.
Lemma parse_move : forall e args kw, ok e -> parse_args (move e) args (move_kw kw) = (move (fst (parse_args e args kw)), snd (parse_args e args kw)) /\ ok (fst (parse_args e args kw)).
Proof.
  intros e args kw HO. unfold parse_args. change (s_neurons (e_net (move e))) with (map move_group (s_neurons (e_net e))). destruct (s_neurons (e_net e)) as [|n1' nr] eqn:EN; cbn [map]; [split; [reflexivity|exact HO]|].
  change (e_net (move e)) with (move_net (e_net e)). rewrite reset_move.
  set (e0 := with_wc (with_class (with_op (with_net e (reset (e_net e))) false None) None) None).
  change (with_wc (with_class (with_op (with_net (move e) (move_net (reset (e_net e)))) false None) None) None) with (move e0).
  assert (ok e0) as HO0 by (apply reset_ok; exact HO).
  destruct (negb (at_most_one (map upper args) ["V"; "CV"; "LOO"])); [split; [reflexivity|exact HO0]|].
  destruct (negb (at_most_one (map upper args) ["C"; "WC"; "ML"; "MC"])); [split; [reflexivity|exact HO0]|].
  destruct (parse_loop_move kw (map upper args) e0) as [-> Q]. unfold ok in HO0. rewrite <- Q in HO0. change (kw_batch (move_kw kw)) with (kw_batch kw). destruct (parse_loop e0 kw (map upper args)) as [e2 [u|y]]; cbn [fst snd] in *; [|split; [reflexivity|exact HO0]].
  destruct (kw_batch kw); (split; [reflexivity|exact HO0]).
Qed.
Definition paired (X : mat) (c : nat) (T : arr) : res mat := let? t := check_arr T c in if (length X =? length t)%nat then Ok t else Err AssertionError.
Lemma check_old : forall e X T, s_inputs (e_net e) = d -> checkdata e (Arr2 d X) T = (let? t := paired X (s_outputs (e_net e)) T in Ok (X, t)).
Proof. intros e X T H. unfold checkdata, paired, check_arr at 1. rewrite H, Nat.eqb_refl. cbn [rbind]. destruct (check_arr T _) as [t|]; cbn [rbind]; [|reflexivity]. destruct (_ =? _)%nat; reflexivity. Qed.
Lemma check_new : forall e X T, checkdata (move e) (Arr2 d' (map psi X)) T = (let? t := paired X (s_outputs (e_net e)) T in Ok (map psi X, t)).
Proof. intros e X T. unfold checkdata, paired, check_arr at 1. change (s_inputs (e_net (move e))) with d'. change (s_outputs (e_net (move e))) with (s_outputs (e_net e)). rewrite Nat.eqb_refl. cbn [rbind]. destruct (check_arr T _) as [t|]; cbn [rbind]; [|reflexivity]. rewrite map_length. destruct (_ =? _)%nat; reflexivity. Qed.
Theorem train_move : forall e X T args kw, ok e -> valid X -> kw_ok kw ->
  both (train e (Arr2 d X) T args kw) (train (move e) (Arr2 d' (map psi X)) T args (move_kw kw)).
Proof.
  intros e X T args kw HO HX HK. unfold train.
  rewrite check_new, (check_old e X T (proj1 HO)). destruct (paired X _ T) as [t|x]; cbn [rbind]; [|now apply both_err].
  destruct (parse_move e args kw HO) as [-> HO1]. destruct (parse_args e args kw) as [e1 [u|x]]; cbn [fst snd] in *; [|now apply both_err].
  destruct (smem "V" args).
  { cbn [move_kw kw_Xv kw_Tv]. unfold kw_ok in HK. destruct (kw_Xv kw) as [a|]; cbn [option_map]; [|now apply both_err]. destruct HK as (Xv & -> & HXv). cbn [move_arr]. destruct (kw_Tv kw) as [Tv|]; [|now apply both_err].
    rewrite check_new, (check_old e1 Xv Tv (proj1 HO1)). destruct (paired Xv _ Tv) as [tv|x]; cbn [rbind lift_err fst snd]; [|now apply both_err]. now apply train_v_move. }
  destruct (smem "CV" args). { change (kw_k (move_kw kw)) with (kw_k kw). destruct (kw_k kw) as [kk|]; [|now apply both_err]. destruct (Nat.leb_spec 3 kk); [|now apply both_err]. apply train_cv_move; auto. lia. }
  destruct (smem "LOO" args); [now apply train_loo_move|now apply train_basic_move].
Qed.
Theorem predict_move : forall e X, ok e -> valid X -> elm_predict (move e) (Arr2 d' (map psi X)) = elm_predict e (Arr2 d X).
Proof.
  intros e X HO HX. unfold elm_predict, check_arr. rewrite (proj1 HO). change (s_inputs (e_net (move e))) with d'. rewrite !Nat.eqb_refl. cbn [rbind]. change (e_net (move e)) with (move_net (e_net e)). unfold predict.
  change (s_B (move_net (e_net e))) with (s_B (e_net e)). destruct (s_B (e_net e)); [|reflexivity]. rewrite project_move by auto. reflexivity.
Qed.
Theorem elm_project_move : forall e X, ok e -> valid X -> elm_project (move e) (Arr2 d' (map psi X)) = elm_project e (Arr2 d X).
Proof.
  intros e X HO HX. unfold elm_project, check_arr. rewrite (proj1 HO). change (s_inputs (e_net (move e))) with d'. rewrite !Nat.eqb_refl. cbn [rbind]. change (e_net (move e)) with (move_net (e_net e)). now apply project_move.
Qed.

(** ** adding neurons *)
Definition move_W (f : ftype) (W : mat) (B : vec) : mat := mk d' (length B) (fun i j => vget (gw f (mcol W j) (vget B j)) i).
Definition move_B (f : ftype) (W : mat) (B : vec) : vec := mkv (length B) (fun j => gb f (mcol W j) (vget B j)).
Definition rect (n : neuron) : Prop := fits n /\ Forall (fun r => length r = n_num n) (n_W n).
Lemma mkv_app : forall a b f, mkv (a + b) f = mkv a f ++ mkv b (fun j => f (a + j)%nat).
Proof. intros a b f. unfold mkv. rewrite seq_app, map_app. f_equal. cbn [plus]. rewrite <- (Nat.add_0_r a) at 1. generalize 0%nat as k. induction b as [|b IH]; intros k; [reflexivity|]. cbn [seq map]. f_equal. replace (S (a + k)) with (a + S k)%nat by lia. apply IH. Qed.
Lemma map2_maps : forall {A B C D} (h : A -> B -> C) (f : D -> A) (g : D -> B) l, map2 h (map f l) (map g l) = map (fun x => h (f x) (g x)) l.
Proof. intros A B C D h f g. induction l as [|x l IH]; [reflexivity|]. cbn. now rewrite IH. Qed.
Lemma mcol_app_l : forall W0 W a j, length W0 = length W -> Forall (fun r => length r = a) W0 -> (j < a)%nat -> mcol (map2 (@app num) W0 W) j = mcol W0 j.
Proof.
  induction W0 as [|r W0 IH]; intros [|r' W] a j HL HF Hj; try discriminate HL; [reflexivity|]. inversion HF; subst. cbn [map2]. unfold mcol in *. cbn [map]. f_equal; [|apply (IH W (length r)); auto]. unfold vget. now apply app_nth1.
Qed.
Lemma mcol_app_r : forall W0 W a j, length W0 = length W -> Forall (fun r => length r = a) W0 -> mcol (map2 (@app num) W0 W) (a + j) = mcol W j.
Proof.
  induction W0 as [|r W0 IH]; intros [|r' W] a j HL HF; try discriminate HL; [reflexivity|]. inversion HF; subst. cbn [map2]. unfold mcol in *. cbn [map]. f_equal; [|apply (IH W (length r)); auto]. unfold vget. rewrite app_nth2 by lia. f_equal. lia.
Qed.
Lemma move_merge : forall W0 B0 W B f m, length W0 = length W -> Forall (fun r => length r = length B0) W0 ->
  move_group (mkNeuron m f (map2 (@app num) W0 W) (B0 ++ B)) = mkNeuron m f (map2 (@app num) (move_W f W0 B0) (move_W f W B)) (move_B f W0 B0 ++ move_B f W B).
Proof.
  intros W0 B0 W B f m HL HF. unfold move_group, move_W, move_B. cbn [n_num n_func n_W n_B]. rewrite app_length. f_equal.
  - unfold mk. rewrite map2_maps. apply map_ext. intros i. rewrite mkv_app. f_equal; unfold mkv; apply map_ext_in; intros j Hj; apply in_seq in Hj.
    + rewrite (mcol_app_l W0 W (length B0)) by (auto; lia). unfold vget at 2 4. rewrite app_nth1 by lia. reflexivity.
    + rewrite (mcol_app_r W0 W (length B0)) by auto. unfold vget at 2 4. rewrite app_nth2 by lia. do 2 f_equal. f_equal. lia.
  - rewrite mkv_app. f_equal; unfold mkv; apply map_ext_in; intros j Hj; apply in_seq in Hj.
    + rewrite (mcol_app_l W0 W (length B0)) by (auto; lia). unfold vget at 1 2. rewrite app_nth1 by lia. reflexivity.
    + rewrite (mcol_app_r W0 W (length B0)) by auto. unfold vget at 1 2. rewrite app_nth2 by lia. do 2 f_equal. lia.
Qed.
Lemma merge_move : forall ns m f W B, Forall rect ns -> length W = d -> map move_group (merge_neurons ns m f W B) = merge_neurons (map move_group ns) m f (move_W f W B) (move_B f W B).
Proof.
  induction ns as [|n ns IH]; intros m f W B HR HW; [reflexivity|]. inversion HR as [|? ? [[H1 H2] H3] HR']; subst. cbn [merge_neurons map]. change (n_func (move_group n)) with (n_func n).
  destruct (ftype_eqb (n_func n) f) eqn:E; cbn [map]; [|now rewrite IH]. f_equal.
  assert (n_func n = f) as Ef. { revert E. clear. destruct (n_func n), f; cbn; intros E; try discriminate E; try reflexivity. apply Nat.eqb_eq in E. now subst. }
  subst f. rewrite move_merge; [reflexivity|congruence|]. rewrite H1. exact H3.
Qed.
Lemma slfn_add_move : forall s m f W B, Forall rect (s_neurons s) -> length W = d -> slfn_add_neurons (move_net s) m f (move_W f W B) (move_B f W B) = move_net (slfn_add_neurons s m f W B).
Proof.
  intros s m f W B HR HW. unfold slfn_add_neurons. change (s_neurons (move_net s)) with (map move_group (s_neurons s)). rewrite <- merge_move by auto. unfold with_B, reset, with_neurons, move_net. cbn [s_kind s_inputs s_outputs s_norm s_neurons s_L s_B s_HH s_HT]. now rewrite nneurons_move.
Qed.
Theorem add_neurons_move : forall e func f W B rW rB, s_inputs (e_net e) = d -> Forall rect (s_neurons (e_net e)) -> parse_func func = Some f -> length W = d ->
  add_neurons (move e) (Z.of_nat (length B)) func (Some (length B, move_W f W B)) (Some (move_B f W B)) rW rB
  = (move (fst (add_neurons e (Z.of_nat (length B)) func (Some (length B, W)) (Some B) rW rB)), Ok tt)
  /\ snd (add_neurons e (Z.of_nat (length B)) func (Some (length B, W)) (Some B) rW rB) = Ok tt
  /\ s_neurons (e_net (fst (add_neurons e (Z.of_nat (length B)) func (Some (length B, W)) (Some B) rW rB))) = merge_neurons (s_neurons (e_net e)) (length B) f W B.
Proof.
  intros e func f W B rW rB Hi HR Hf HW. unfold add_neurons. rewrite Hf. assert ((Z.of_nat (length B) <? 0)%Z = false) as -> by (apply Z.ltb_ge; lia). rewrite Nat2Z.id. cbn [fst snd].
  change (s_inputs (e_net (move e))) with d'. rewrite Hi, HW. assert (length (move_W f W B) = d') as -> by (unfold move_W, mk; now rewrite map_length, seq_length). assert (length (move_B f W B) = length B) as -> by (unfold move_B, mkv; now rewrite map_length, seq_length).
  rewrite !Nat.eqb_refl. cbn [andb]. change (s_neurons (e_net (move e))) with (map move_group (s_neurons (e_net e))).
  assert (can_merge (s_neurons (e_net e)) f W = true) as ->.
  { unfold can_merge. destruct (find _ _) as [g|] eqn:E; [|reflexivity]. apply find_some in E as [E _]. rewrite Forall_forall in HR. destruct (HR g E) as [[_ Q] _]. rewrite Q, HW. apply Nat.eqb_refl. }
  assert (can_merge (map move_group (s_neurons (e_net e))) f (move_W f W B) = true) as ->.
  { unfold can_merge. destruct (find _ _) as [g|] eqn:E; [|reflexivity]. apply find_some in E as [E _]. apply in_map_iff in E as (n & <- & _). unfold move_W. cbn [move_group n_W]. unfold mk. rewrite !map_length, !seq_length. apply Nat.eqb_refl. }
  cbn [fst snd]. split; [|split; reflexivity]. f_equal. unfold move. cbn [with_net e_net]. rewrite slfn_add_move by auto. reflexivity.
Qed.
End C.
