(** * Exact8: the keyword arguments of train (batch, kmax, w, k, Xv, Tv) *)
From Coq Require Import Reals Lra Lia List Permutation.
From Verif Require Import Base Num Mat MatFacts LinAlg Slfn Strs Elm Mrsr Search Mss Hpelm ElmFacts WfProofs TrainThms SolveThms NeuronThms ErrThms ArgThms FeatureThms RankThms MssThms SelThms Exact6 Retrain Spec.
Local Open Scope string_scope.
Local Open Scope list_scope.

Section Any.
Context {K : Num} {SG : Sing} {BR : Brent} {SH : Shuffle}.

(** ** batch *)
Definition drop_batch (kw : kwargs) : kwargs := mkKw (kw_w kw) (kw_kmax kw) None (kw_k kw) (kw_Xv kw) (kw_Tv kw).

Lemma parse_loop_batch : forall b kw args e,
  parse_loop (with_batch e b) (drop_batch kw) args = (with_batch (fst (parse_loop e kw args)) b, snd (parse_loop e kw args)).
Proof.
  intros b kw. induction args as [|a r IH]; intros e; [reflexivity|]. cbn [parse_loop].
  change (s_outputs (e_net (with_batch e b))) with (s_outputs (e_net e)). change (kw_w (drop_batch kw)) with (kw_w kw). change (kw_kmax (drop_batch kw)) with (kw_kmax kw).
  set (e1 := if a =? "OP" then _ else e).
  assert ((if a =? "OP" then with_op (with_batch e b) true (match kw_kmax kw with Some k => Some k | None => e_kmax (with_batch e b) end) else with_batch e b) = with_batch e1 b) as -> by (unfold e1; destruct (a =? "OP"); reflexivity).
  destruct (a =? "C"). { destruct (1 <? s_outputs (e_net e))%nat; [|reflexivity]. apply (IH (with_class e1 (Some "c"))). }
  destruct (a =? "WC").
  { destruct (1 <? s_outputs (e_net e))%nat; [|reflexivity]. destruct (kw_w kw) as [w|]; [|apply (IH (with_class e1 (Some "wc")))].
    destruct (length w =? s_outputs (e_net e))%nat; [|reflexivity]. apply (IH (with_wc (with_class e1 (Some "wc")) (Some (map Fin w)))). }
  destruct ((a =? "ML") || (a =? "MC")). { destruct (1 <? s_outputs (e_net e))%nat; [|reflexivity]. apply (IH (with_class e1 (Some "ml"))). }
  destruct (a =? "R"); [apply (IH (with_class e1 None))|apply (IH e1)].
Qed.

Lemma parse_args_batch : forall e args kw b, kw_batch kw = Some b ->
  same_run (parse_args e args kw) (parse_args (with_batch e b) args (drop_batch kw)).
Proof.
  intros e args kw b Hb. unfold parse_args. change (s_neurons (e_net (with_batch e b))) with (s_neurons (e_net e)).
  destruct (s_neurons (e_net e)) as [|g l]; [split; [reflexivity|discriminate]|].
  destruct (negb (at_most_one _ ["V"; _; _])); [split; [reflexivity|discriminate]|].
  destruct (negb _); [split; [reflexivity|discriminate]|].
  set (u := with_wc (with_class (with_op (with_net e (reset (e_net e))) false None) None) None).
  change (with_wc (with_class (with_op (with_net (with_batch e b) (reset (e_net (with_batch e b)))) false None) None) None) with (with_batch u b).
  rewrite parse_loop_batch. rewrite Hb. cbn [kw_batch drop_batch].
  destruct (parse_loop u kw (map upper args)) as [e2 [[]|x]]; cbn [fst snd]; split; try reflexivity. discriminate.
Qed.

Theorem train_batch : forall e X T args kw b, kw_batch kw = Some b ->
  same_run (train e X T args kw) (train (with_batch e b) X T args (drop_batch kw)).
Proof.
  intros e X T args kw b Hb. unfold train. change (checkdata (with_batch e b) X T) with (checkdata e X T).
  destruct (checkdata e X T) as [[x t]|err]; [|split; [reflexivity|discriminate]].
  destruct (parse_args_batch e args kw b Hb) as [P1 P2].
  destruct (parse_args e args kw) as [u1 [[]|x1]]; destruct (parse_args (with_batch e b) args (drop_batch kw)) as [u2 [[]|x2]]; cbn [fst snd] in P1, P2; try discriminate;
    [|split; [cbn; congruence|intros a C; discriminate]].
  rewrite <- (P2 tt eq_refl). apply same_refl.
Qed.

Theorem hp_train_batch : forall e fX fT args kw istart icount b, kw_batch kw = Some b ->
  same_run (hp_train e fX fT args kw istart icount) (hp_train (with_batch e b) fX fT args (drop_batch kw) istart icount).
Proof.
  intros e fX fT args kw istart icount b Hb. unfold hp_train. change (hp_check (with_batch e b) fX fT) with (hp_check e fX fT).
  destruct (hp_check e fX fT) as [u|err]; [|split; [reflexivity|discriminate]].
  destruct (parse_args_batch e args kw b Hb) as [P1 P2].
  destruct (parse_args e args kw) as [u1 [[]|x1]]; destruct (parse_args (with_batch e b) args (drop_batch kw)) as [u2 [[]|x2]]; cbn [fst snd] in P1, P2; try discriminate;
    [|split; [cbn; congruence|intros a C; discriminate]].
  rewrite <- (P2 tt eq_refl). apply same_refl.
Qed.

(** ** keywords that play no role *)
Lemma parse_loop_ignored : forall kw kw' args e, (In "OP" args -> kw_kmax kw' = kw_kmax kw) -> (In "WC" args -> kw_w kw' = kw_w kw) ->
  parse_loop e kw' args = parse_loop e kw args.
Proof.
  intros kw kw'. induction args as [|a r IH]; intros e HO HW; [reflexivity|]. cbn [parse_loop].
  assert (forall e0, parse_loop e0 kw' r = parse_loop e0 kw r) as IH' by (intros; apply IH; intros; [apply HO|apply HW]; cbn; auto).
  assert ((if a =? "OP" then with_op e true (match kw_kmax kw' with Some k => Some k | None => e_kmax e end) else e) =
          (if a =? "OP" then with_op e true (match kw_kmax kw with Some k => Some k | None => e_kmax e end) else e)) as ->.
  { destruct (a =? "OP") eqn:E; [|reflexivity]. apply String.eqb_eq in E. rewrite HO by (cbn; auto). reflexivity. }
  destruct (a =? "WC") eqn:E. 2: rewrite !IH'; reflexivity.
  apply String.eqb_eq in E. rewrite HW by (cbn; auto). destruct (kw_w kw); rewrite !IH'; reflexivity.
Qed.

Lemma parse_args_ignored : forall e args kw kw', kw_batch kw' = kw_batch kw -> (asked "OP" args -> kw_kmax kw' = kw_kmax kw) -> (asked "WC" args -> kw_w kw' = kw_w kw) ->
  parse_args e args kw' = parse_args e args kw.
Proof.
  intros e args kw kw' Hb HO HW. unfold parse_args. destruct (s_neurons (e_net e)); [reflexivity|].
  destruct (negb _); [reflexivity|]. destruct (negb _); [reflexivity|]. rewrite !asked_in in *.
  rewrite (parse_loop_ignored kw kw') by auto. rewrite Hb. reflexivity.
Qed.

Theorem train_ignored : forall e X T args kw kw', kw_batch kw' = kw_batch kw ->
  (asked "OP" args -> kw_kmax kw' = kw_kmax kw) -> (asked "WC" args -> kw_w kw' = kw_w kw) ->
  (In "CV" args -> kw_k kw' = kw_k kw) -> (In "V" args -> kw_Xv kw' = kw_Xv kw /\ kw_Tv kw' = kw_Tv kw) ->
  train e X T args kw' = train e X T args kw.
Proof.
  intros e X T args kw kw' Hb HO HW HC HV. unfold train. destruct (checkdata e X T) as [[x t]|]; [|reflexivity].
  rewrite (parse_args_ignored e args kw kw') by auto. destruct (parse_args e args kw) as [e1 [[]|err]]; [|reflexivity].
  destruct (smem "V" args) eqn:EV. { apply smem_in in EV. destruct (HV EV) as [-> ->]. reflexivity. }
  destruct (smem "CV" args) eqn:EC; [|reflexivity]. apply smem_in in EC. rewrite (HC EC). reflexivity.
Qed.

Theorem hp_train_ignored : forall e fX fT args kw kw' istart icount, kw_batch kw' = kw_batch kw -> (asked "WC" args -> kw_w kw' = kw_w kw) ->
  (asked "OP" args -> kw_kmax kw' = kw_kmax kw) ->
  hp_train e fX fT args kw' istart icount = hp_train e fX fT args kw istart icount.
Proof.
  intros e fX fT args kw kw' istart icount Hb HW HO. unfold hp_train. destruct (hp_check e fX fT); [|reflexivity].
  rewrite (parse_args_ignored e args kw kw') by auto. reflexivity.
Qed.

(** ** kmax *)
Lemma prune_le : forall ns idx, nneurons (prune_neurons ns idx) <= length idx.
Proof.
  unfold nneurons. induction ns as [|g r IH]; intros idx; cbn [prune_neurons map list_sum fold_right n_num]; [lia|].
  specialize (IH (map (fun i => i - n_num g) (filter (fun i => (n_num g <=? i)%nat) idx))). rewrite map_length in IH.
  change (length (filter (fun i => (i <? n_num g)%nat) idx) + list_sum (map n_num (prune_neurons r (map (fun i => i - n_num g) (filter (fun i => (n_num g <=? i)%nat) idx)))) <= length idx).
  assert (length (filter (fun i => (i <? n_num g)%nat) idx) + length (filter (fun i => (n_num g <=? i)%nat) idx) = length idx); [|lia].
  clear. induction idx as [|a l IH]; [reflexivity|]. cbn [filter]. destruct (Nat.ltb_spec a (n_num g)), (Nat.leb_spec (n_num g) a); cbn [length]; lia.
Qed.

Lemma slice_le : forall A (l : list A) i j, length (slice l i j) <= length l.
Proof. intros. unfold slice. rewrite firstn_length, skipn_length. lia. Qed.

Lemma refit_le : forall e X T best, nneurons (s_neurons (e_net (fst (refit e X T best)))) <= length best.
Proof.
  intros. unfold refit. pose proof (add_batch_neurons (prune (e_net e) best) X T None) as H.
  destruct (add_batch (prune (e_net e) best) X T None) as [s1 [u|x]]; cbn [fst] in H.
  - pose proof (solve_neurons s1) as H2. destruct (solve s1) as [s2 r]. cbn [fst e_net with_net] in *. rewrite H2, H. apply prune_le.
  - cbn [fst e_net with_net]. rewrite H. apply prune_le.
Qed.

Lemma ranking_le : forall e i N H T rank L k, e_op e = true -> e_kmax e = Some k -> ranking e i N H T = Ok (rank, L) ->
  L = Nat.min k N /\ length rank <= Nat.max 1 k.
Proof.
  intros e i N H T rank L k Ho Hk E. unfold ranking in E. rewrite Ho, Hk in E.
  destruct (s_outputs (e_net e) <? 10)%nat.
  - destruct (mrsr _ _ _ _ _) as [r|] eqn:Er; cbn [rbind] in E; [|discriminate]. injection E as <- <-. split; [reflexivity|].
    destruct (mrsr_lists _ _ _ _ _ _ Er) as (A & B & C & _). rewrite C. lia.
  - destruct (mrsr2 _ _ _ _ _) as [r|] eqn:Er; cbn [rbind] in E; [|discriminate]. injection E as <- <-. split; [reflexivity|].
    destruct (mrsr2_lists _ _ _ _ _ _ Er) as (A & B & C & _). rewrite C. lia.
Qed.

Lemma add_data_opts : forall e X T, e_op (fst (add_data e X T)) = e_op e /\ e_kmax (fst (add_data e X T)) = e_kmax e.
Proof.
  intros. assert (e_op (fill_wc e T) = e_op e /\ e_kmax (fill_wc e T) = e_kmax e) as F by (unfold fill_wc; destruct (is_wc e), (e_wc e); split; reflexivity).
  unfold add_data. destruct (nbatches _ _) as [nb|]; auto. cbv zeta.
  destruct (nb <=? 0)%Z; [exact F|]. destruct (array_split X _); [|exact F]. destruct (array_split T _); [|exact F].
  destruct (add_batches _ _ _) as [s r]. exact F.
Qed.

Lemma done_le : forall er v e' w n, done er v = (e', Ok w) -> nneurons (s_neurons (e_net (fst er))) <= n -> nneurons (s_neurons (e_net e')) <= n.
Proof. intros er v e' w n E H. unfold done in E. destruct er as [a [u|x]]; cbn [fst snd] in *; [injection E as <- _; exact H|discriminate]. Qed.

Lemma build_folds_le : forall k0 X T N k is_ e L e2 fds L2, e_op e = true -> e_kmax e = Some k0 ->
  build_folds e X T N k is_ L = (e2, Ok (fds, L2)) ->
  Forall (fun fd => length (fd_rank fd) <= Nat.max 1 k0) fds /\ (is_ <> [] -> L2 <= k0) /\ length fds = length is_.
Proof.
  intros k0 X T N k. induction is_ as [|i r IH]; intros e L e2 fds L2 Ho Hk E; cbn [build_folds] in E.
  - injection E as <- <- <-. split; [constructor|]. split; [congruence|reflexivity].
  - destruct (fold_parts N k i) as [[tr vl] ts]. destruct (add_batch _ _ _ _) as [s1 [u|x]]; [|discriminate].
    destruct (need_corr (get_corr s1)) as [hc|]; cbn [rbind] in E; [|discriminate].
    destruct (project s1 (rsel X vl)) as [Hv|]; cbn [rbind] in E; [|discriminate].
    destruct (project s1 (rsel X ts)) as [Ht|]; cbn [rbind] in E; [|discriminate].
    destruct (ranking _ _ _ _ _) as [[rank L1]|] eqn:Er; cbn [rbind fst snd] in E; [|discriminate].
    apply (ranking_le _ _ _ _ _ _ _ k0) in Er as [EL Hr]; auto.
    destruct (build_folds (with_net e s1) X T N k r L1) as [e3 [[fds3 L3]|]] eqn:Eb; [|discriminate].
    injection E as <- <- <-. assert (Eb' := Eb). apply IH in Eb as (F1 & F2 & F3); auto.
    split; [constructor; auto|]. split; [|cbn [length]; now rewrite F3]. intros _.
    destruct r as [|j r]; [|apply F2; discriminate]. cbn [build_folds] in Eb'. injection Eb' as _ _ <-. subst L1. apply Nat.le_min_l.
Qed.

Lemma train_v_le : forall e X T Xv Tv k e' v, e_op e = true -> e_kmax e = Some k -> train_v e X T Xv Tv = (e', Ok v) ->
  nneurons (s_neurons (e_net e')) <= k.
Proof.
  intros e X T Xv Tv k e' v Ho Hk E. unfold train_v in E. pose proof (add_data_opts e X T) as [A1 A2].
  destruct (add_data e X T) as [e1 [u|x]]; [|discriminate]. cbn [fst] in *. rewrite Ho in A1. rewrite Hk in A2.
  destruct (select_v e1 Xv Tv) as [[[ko rank] mt]|] eqn:Es; cbn [lift_err] in E; [|discriminate].
  apply (done_le _ _ _ _ k) in E; auto. eapply Nat.le_trans; [apply refit_le|]. eapply Nat.le_trans; [apply slice_le|].
  unfold select_v in Es. destruct (need_corr _) as [[HH HT]|]; cbn [rbind] in Es; [|discriminate].
  destruct (project _ _) as [Hv|]; cbn [rbind] in Es; [|discriminate].
  destruct (ranking _ _ _ _ _) as [[rk L]|] eqn:Er; cbn [rbind] in Es; [|discriminate].
  apply (ranking_le _ _ _ _ _ _ _ k) in Er as [EL Hr]; auto.
  destruct (full_error _ _ _ _ _); cbn [rbind] in Es; [|discriminate].
  destruct (Nat.eqb_spec L 0) as [|HL]; [discriminate|].
  destruct (search_from _ _ _ _) as [[[m k1] t]|]; cbn [rbind] in Es; [|discriminate]. injection Es as <- <- <-. lia.
Qed.

Lemma train_loo_le : forall e X T k e' v, e_op e = true -> e_kmax e = Some k -> train_loo e X T = (e', Ok v) ->
  nneurons (s_neurons (e_net e')) <= k.
Proof.
  intros e X T k e' v Ho Hk E. unfold train_loo in E. destruct (project (e_net e) X) as [H|]; cbn [lift_err] in E; [|discriminate].
  pose proof (add_data_opts e X T) as [A1 A2].
  destruct (add_data e X T) as [e1 [u|x]]; [|discriminate]. cbn [fst] in *. rewrite Ho in A1. rewrite Hk in A2.
  destruct (select_loo e1 H T) as [[[ko rank] mt]|] eqn:Es; cbn [lift_err] in E; [|discriminate].
  apply (done_le _ _ _ _ k) in E; auto. eapply Nat.le_trans; [apply refit_le|]. eapply Nat.le_trans; [apply slice_le|].
  unfold select_loo in Es. destruct (need_corr _) as [[HH HT]|]; cbn [rbind] in Es; [|discriminate].
  destruct (ranking _ _ _ _ _) as [[rk L]|] eqn:Er; cbn [rbind] in Es; [|discriminate].
  apply (ranking_le _ _ _ _ _ _ _ k) in Er as [EL Hr]; auto.
  destruct (loo_error _ _ _ _ _ _); cbn [rbind] in Es; [|discriminate].
  destruct (Nat.eqb_spec L 0) as [|HL]; [discriminate|].
  destruct (search_from _ _ _ _) as [[[m k1] t]|]; cbn [rbind] in Es; [|discriminate]. injection Es as <- <- <-. lia.
Qed.

Lemma train_cv_le : forall e X T n k e' v, n <> 0 -> e_op e = true -> e_kmax e = Some k -> train_cv e X T n = (e', Ok v) ->
  nneurons (s_neurons (e_net e')) <= k.
Proof.
  intros e X T n k e' v Hn Ho Hk E. unfold train_cv in E.
  destruct (build_folds _ _ _ _ _ _ _) as [e1 [[fds L]|]] eqn:Eb; [|discriminate].
  destruct (build_folds_le k _ _ _ _ _ _ _ _ _ _ Ho Hk Eb) as (F1 & F2 & F3).
  assert (L <= k) as HLk. { apply F2. destruct n; [congruence|discriminate]. }
  destruct (select_cv _ _ _ _) as [[[[ko rank] et] tb]|] eqn:Es; cbn [lift_err] in E; [|discriminate].
  apply (done_le _ _ _ _ k) in E; auto. eapply Nat.le_trans; [apply refit_le|]. eapply Nat.le_trans; [apply slice_le|].
  unfold select_cv in Es. destruct (avg_folds _ _ _ _); cbn [rbind] in Es; [|discriminate].
  destruct (Nat.eqb_spec L 0) as [|HL]; [discriminate|].
  destruct (search_from _ _ _ _) as [[[m k1] t]|]; cbn [rbind] in Es; [|discriminate].
  destruct (avg_folds _ _ _ _); cbn [rbind] in Es; [|discriminate]. injection Es as <- <- <- <-.
  rewrite seq_length in F3. destruct fds as [|fd fds] using rev_ind; [cbn in F3; congruence|]. rewrite last_last.
  apply Forall_app in F1 as [_ F1]. inversion F1; subst. lia.
Qed.

Theorem train_kmax : forall e X T args kw k e' v, asked "OP" args -> kw_kmax kw = Some k ->
  In "V" args \/ In "CV" args \/ In "LOO" args ->
  train e X T args kw = (e', Ok v) -> nneurons (s_neurons (e_net e')) <= k.
Proof.
  intros e X T args kw k e' v HO Hk HS E. unfold train in E. destruct (checkdata e X T) as [[x t]|]; [|discriminate].
  destruct (parse_args e args kw) as [e1 [[]|err]] eqn:HP; [|discriminate].
  assert (valid_args e args kw) as HV by (apply parse_iff; eauto).
  rewrite (proj1 (parse_result e args kw) HV) in HP. injection HP as HP.
  assert (e_op e1 = true) as Ho. { rewrite <- HP. unfold parsed. cbn [e_op]. now apply asked_smem. }
  assert (e_kmax e1 = Some k) as Hk1. { rewrite <- HP. unfold parsed. cbn [e_kmax]. rewrite (proj2 (asked_smem "OP" args) HO). exact Hk. }
  destruct (smem "V" args) eqn:EV.
  { destruct (kw_Xv kw) as [xv|]; [|discriminate]. destruct (kw_Tv kw) as [tv|]; [|discriminate].
    destruct (checkdata e1 xv tv) as [[a b]|]; cbn [lift_err fst snd] in E; [|discriminate]. eapply train_v_le; eauto. }
  destruct (smem "CV" args) eqn:EC.
  { destruct (kw_k kw) as [n|]; [|discriminate]. destruct (Nat.leb_spec 3 n); [|discriminate]. eapply (train_cv_le _ _ _ n); eauto. lia. }
  destruct (smem "LOO" args) eqn:EL. { eapply train_loo_le; eauto. }
  exfalso. destruct HS as [HS|[HS|HS]]; apply smem_in in HS; congruence.
Qed.

(** ** the task *)
Lemma is_wc_iff : forall e : elm, is_wc e = true <-> e_class e = Some "wc".
Proof.
  intros e. unfold is_wc. destruct (e_class e) as [c|]; split; try discriminate.
  - intros H. apply String.eqb_eq in H. now rewrite H.
  - intros [= ->]. reflexivity.
Qed.
Lemma last_class_not_wc : forall args c, ~ In "WC" args -> c <> Some "wc" -> last_class args c <> Some "wc".
Proof.
  induction args as [|a r IH]; intros c HN Hc; [exact Hc|]. unfold last_class. cbn [fold_left]. change (fold_left _ r ?x) with (last_class r x).
  assert ((a =? "WC") = false) as EW. { apply String.eqb_neq. intros ->. apply HN. cbn. auto. }
  rewrite EW. apply IH; [intros C; apply HN; cbn; auto|].
  destruct (a =? "C"); [discriminate|]. destruct ((a =? "ML") || (a =? "MC")); [discriminate|]. destruct (a =? "R"); [discriminate|exact Hc].
Qed.
End Any.

Section Reals.
#[local] Existing Instance NumR.
Local Open Scope R_scope.
Context {SG : Sing} {BR : Brent} {SH : Shuffle}.

(** sample weights that a call train(X, T, *args, **kw) asks for; [c] outputs *)
Inductive call_weights (c : nat) (args : list string) (kw : kwargs) (T : list (list R)) : list R -> Prop :=
| CW_plain : ~ asked "WC" args -> wide c T -> call_weights c args kw T (repeat 1 (length T))
| CW_given : forall ws ks, asked "WC" args -> ~ asked "R" args -> kw_w kw = Some ws -> (forall w, In w ws -> 0 <= w) ->
    Forall2 (has_class c) T ks -> call_weights c args kw T (map (fun k => nth k ws 0) ks)
| CW_auto : forall ks, asked "WC" args -> ~ asked "R" args -> kw_w kw = None ->
    Forall2 (has_class c) T ks -> call_weights c args kw T (map (auto_weight ks) ks).

Lemma call_wide : forall c args kw T ws, call_weights c args kw T ws -> wide c T.
Proof. intros c args kw T ws [HN HW|ws' ks _ _ _ _ HF|ks _ _ _ HF]; auto; eapply classes_wide; eauto. Qed.

Lemma call_weighting : forall e args kw T ws e1, call_weights (s_outputs (e_net e)) args kw T ws ->
  parse_args e args kw = (e1, Ok tt) -> weighting e1 T ws.
Proof.
  intros e args kw T ws e1 HC HP. assert (valid_args e args kw) as HV by (apply parse_iff; eauto).
  assert (HP' := HP). rewrite (proj1 (parse_result e args kw) HV) in HP'. injection HP' as HP'.
  assert (s_outputs (e_net e1) = s_outputs (e_net e)) as Eo by (rewrite (parse_args_ok _ _ _ _ HP); reflexivity).
  destruct HC as [HN HW|ws ks HA HR Ew Hpos HF|ks HA HR Ew HF].
  - apply W_plain. destruct (is_wc e1) eqn:E; [|reflexivity]. apply is_wc_iff in E. exfalso. rewrite <- HP' in E. unfold parsed in E. cbn [e_class] in E.
    apply (last_class_not_wc (map upper args) None) in E; auto; [|discriminate]. now rewrite <- asked_in.
  - destruct (parse_type _ _ _ _ HP HR) as (_ & A & _ & _ & B). rewrite (proj2 (asked_smem "WC" args) HA), Ew in B.
    apply W_given; auto; rewrite ?Eo; auto; [now apply is_wc_iff, A|]. destruct HV as (_ & _ & _ & _ & HV). auto.
  - destruct (parse_type _ _ _ _ HP HR) as (_ & A & _ & _ & B). rewrite (proj2 (asked_smem "WC" args) HA), Ew in B.
    apply W_auto; auto; rewrite ?Eo; auto. now apply is_wc_iff, A.
Qed.

Theorem train_call : forall e X T H args kw ws,
  wf_net (e_net e) -> 0 < s_norm (e_net e) -> valid_args e args kw ->
  ~ In "V" args -> ~ In "CV" args -> ~ In "LOO" args ->
  (0 < match kw_batch kw with Some b => b | None => e_batch e end)%Z ->
  X <> [] -> length X = length T -> call_weights (s_outputs (e_net e)) args kw T ws ->
  elm_project e (Arr2 (s_inputs (e_net e)) X) = Ok H ->
  exists e' B, train e (Arr2 (s_inputs (e_net e)) X) (Arr2 (s_outputs (e_net e)) T) args kw = (e', Ok None) /\
    s_B (e_net e') = Some B /\ s_neurons (e_net e') = s_neurons (e_net e) /\
    ridge_solution (nneurons (s_neurons (e_net e))) (s_outputs (e_net e)) (s_norm (e_net e)) (samples ws H T) B.
Proof.
  intros e X T H args kw ws HW Hn HV NV NC NL Hb HX HL HC HPr.
  pose proof (proj1 (parse_result e args kw) HV) as HP. pose proof (call_weighting _ _ _ _ _ _ HC HP) as Hws.
  pose proof (call_wide _ _ _ _ _ HC) as WT.
  assert (forall k, ~ In k args -> smem k args = false) as Q. { intros k Hk. destruct (smem k args) eqn:E; [|reflexivity]. apply smem_in in E. contradiction. }
  destruct (elm_project_inv _ _ _ HPr) as (HU & WX & ->).
  assert (s_outputs (e_net (parsed e args kw)) = s_outputs (e_net e)) as Eo by reflexivity.
  destruct (weighting_ok _ T ws Hws ltac:(rewrite Eo; exact WT)) as (g & -> & G & _).
  eapply train_core; eauto.
Qed.
End Reals.

(** ** What the neuron names stand for *)
Definition neuron_names : list (string * ftype) :=
  [("lin", Lin); ("sigm", Sigm); ("tanh", Tanh); ("rbf_l1", RbfL1); ("rbf_l2", RbfL2); ("rbf_linf", RbfLinf)].
Lemma parse_names : forall name f, parse_func (FName name) = Some f <-> In (name, f) neuron_names.
Proof.
  intros name f. split.
  - cbn [parse_func]. intros E.
    repeat match type of E with context [match ?p with _ => _ end] => destruct p; try discriminate end; injection E as <-; cbn; tauto.
  - intros H. cbn in H. repeat destruct H as [H|H]; try contradiction; injection H as <- <-; reflexivity.
Qed.
Section Names.
#[local] Existing Instance NumR.
Local Open Scope R_scope.
Context {SG : Sing}.
Theorem named_features : forall e number name c W B rW rB e' X, wf_net (e_net e) ->
  (s_neurons (e_net e) = [] \/ usable (e_net e)) -> Forall (fun r => length r = c) W ->
  add_neurons e number (FName name) (Some (c, W)) (Some B) rW rB = (e', Ok tt) ->
  wide (s_inputs (e_net e)) X ->
  exists H k f, elm_project e' (Arr2 (s_inputs (e_net e)) X) = Ok H /\ length H = length X /\ In (name, f) neuron_names /\
    forall i j, (i < length X)%nat -> (j < Z.to_nat number)%nat ->
      neuron_value (s_inputs (e_net e)) f (nth i X []) (map (fun row => nth j row 0) W) (nth j B 0) (nth (k + j) (nth i H []) 0).
Proof.
  intros e number name c W B rW rB e' X HW HU HWc E WX. set (d := s_inputs (e_net e)) in *.
  assert (add_neurons e number (FName name) (Some (c, W)) (Some B) (fun n => mk d n (fun _ _ => 0)) (fun n => mkv n (fun _ => 0)) = (e', Ok tt)) as E' by (rewrite <- E; reflexivity).
  assert (forall c0 m, Some (c, W) = Some (c0, m) -> Forall (fun r => length r = c0) m) as HS by (intros c0 m [= <- <-]; exact HWc).
  assert (rand_shapes d (fun n => mk d n (fun _ _ => 0)) (fun n => mkv n (fun _ => 0))) as HR by (intros n; split; [apply is_mat_mk|apply mkv_length]).
  destruct (add_neurons_features e number (FName name) (Some (c, W)) (Some B) _ _ e' HW HS HR E') as (f & n & W' & B' & k & Ef & En & EW & EB & LW & FW & LB & _ & _ & _ & Hk & _ & HF).
  assert (W' = W) as -> by (eapply EW; reflexivity). assert (B' = B) as -> by (apply EB; reflexivity).
  apply parse_names in Ef. assert (is_ufunc f = false) as Hu. { cbn in Ef. repeat destruct Ef as [Ef|Ef]; try contradiction; injection Ef as _ <-; reflexivity. }
  destruct (HF Hu) as [H1 H2]. clear HF.
  assert (forall x j, length x = d -> (j < n)%nat -> neuron_value d f x (map (fun row => nth j row 0) W) (nth j B 0) (nth j (new_features f W B n x) 0)) as Q.
  { intros x j Hx Hj. unfold new_features. rewrite nth_map_lt with (da := 0%nat) by (rewrite seq_length; auto). rewrite seq_nth by auto. apply act_value; auto. now rewrite map_length. }
  subst n. destruct HU as [HU|HU].
  - exists (map (new_features f W B (Z.to_nat number)) X), 0%nat, f. split; [apply H2; auto|]. split; [apply map_length|]. split; [exact Ef|].
    intros i j Hi Hj. rewrite nth_map_lt with (da := []) by auto. apply Q; auto.
    unfold wide in WX. rewrite Forall_forall in WX. apply WX, nth_In. auto.
  - assert (elm_project e (Arr2 d X) = Ok (map (hrow (s_neurons (e_net e))) X)) as EP. { apply elm_project_arr. now apply project_ok. }
    destruct (H1 _ _ _ EP) as (H' & EP' & EH). exists H', k, f. split; [exact EP'|].
    assert (H' = map (fun x => firstn k (hrow (s_neurons (e_net e)) x) ++ new_features f W B (Z.to_nat number) x ++ skipn k (hrow (s_neurons (e_net e)) x)) X) as EH'.
    { rewrite EH. clear. induction X as [|x X IH]; [reflexivity|]. cbn [map map2]. now rewrite IH. }
    split; [rewrite EH'; apply map_length|]. split; [exact Ef|]. intros i j Hi Hj.
    rewrite EH'. rewrite nth_map_lt with (da := []) by auto.
    assert (length (nth i X []) = d) as Hx. { unfold wide in WX. rewrite Forall_forall in WX. apply WX, nth_In. auto. }
    set (h := hrow (s_neurons (e_net e)) (nth i X [])).
    assert (length h = getL (e_net e)) as Lh. { rewrite (wf_getL _ HW). exact (hrow_length (s_inputs (e_net e)) (s_neurons (e_net e)) _ (wf_groups _ HW)). }
    rewrite app_nth2; rewrite firstn_length, Lh, Nat.min_l by auto; [|lia]. replace (k + j - k)%nat with j by lia.
    rewrite app_nth1 by (unfold new_features; rewrite map_length, seq_length; auto). apply Q; auto.
Qed.
End Names.
