(** Training with targets in another unit. *)
From Coq Require Import Reals Lra.
From Verif Require Import Base Num Mat LinAlg Slfn Strs Elm Mrsr Search Mss MatFacts RLin SelectThms TrainThms Scale ScaleSearch ScaleErr ScaleRank.
Local Open Scope string_scope.
Local Open Scope list_scope.
Local Open Scope R_scope.
#[local] Existing Instance NumR.

Lemma map_pair_combine : forall {A B C D} (g : A -> C) (h : B -> D) l m, combine (map g l) (map h m) = map (fun p => (g (fst p), h (snd p))) (combine l m).
Proof. intros A B C D g h. induction l as [|a l IH]; intros [|b m]; cbn; auto. now rewrite IH. Qed.
Lemma cut_map : forall {A B} (g : A -> B) sz l, cut sz (map g l) = map (map g) (cut sz l).
Proof. intros A B g. induction sz as [|s sz IH]; intros l; cbn [cut map]; auto. rewrite firstn_map, skipn_map, IH. reflexivity. Qed.
Lemma array_split_map : forall {A B} (g : A -> B) l k, array_split (map g l) k = rmap (map (map g)) (array_split l k).
Proof. intros A B g l k. unfold array_split. destruct (k =? 0)%nat; [reflexivity|]. cbn [rmap rbind]. now rewrite map_length, cut_map. Qed.
Lemma mapM_rmap : forall {A B A' B'} (f : A -> res B) (f' : A' -> res B') (g : A -> A') (h : B -> B'), (forall a, f' (g a) = rmap h (f a)) -> forall l, mapM f' (map g l) = rmap (map h) (mapM f l).
Proof.
  intros A B A' B' f f' g h H. induction l as [|a l IH]; cbn [map mapM]; [reflexivity|]. rewrite H. destruct (f a) as [b|]; cbn [rmap rbind]; [|reflexivity]. unfold rmap in IH. rewrite IH.
  destruct (mapM f l); reflexivity.
Qed.

Section C.
Variable c : R.
Hypothesis Hc : c <> 0.
(** the same network with H'T in the other unit and the output matrix [b] *)
Definition sn (b : option (list (list R))) (s : @slfn NumR) : @slfn NumR :=
  mkSlfn (s_kind s) (s_inputs s) (s_outputs s) (s_norm s) (s_neurons s) (s_L s) b (s_HH s) (option_map (sc c) (s_HT s)).
Definition se (b : option (list (list R))) (e : @elm NumR) : @elm NumR := with_net e (sn b (e_net e)).
Definition sarr (a : @arr NumR) : @arr NumR := match a with Arr1 v => @Arr1 NumR (sv c v) | Arr2 n m => @Arr2 NumR n (sc c m) | x => x end.
Definition skw (kw : @kwargs NumR) : @kwargs NumR := mkKw (kw_w kw) (kw_kmax kw) (kw_batch kw) (kw_k kw) (kw_Xv kw) (option_map sarr (kw_Tv kw)).

Lemma check_sc : forall a d, @check_arr NumR (sarr a) d = rmap (sc c) (@check_arr NumR a d).
Proof. intros [v|n m| |] d; cbn; auto; [destruct d as [|[|d]]|destruct (n =? d)%nat]; cbn; auto. f_equal. unfold sc, sv. cbn [num NumR]. rewrite !map_map. reflexivity. Qed.
Lemma checkdata_sc : forall e X T, @checkdata NumR e X (sarr T) = rmap (fun p => (fst p, sc c (snd p))) (@checkdata NumR e X T).
Proof.
  intros e X T. unfold checkdata. destruct (check_arr X _) as [x|]; [|reflexivity]. cbn [rbind]. rewrite check_sc. destruct (check_arr T _) as [t|]; [|reflexivity]. cbn [rbind rmap].
  pose proof (sc_length c t) as Q. cbn [num NumR] in *. rewrite Q. destruct (_ =? _)%nat; reflexivity.
Qed.

Lemma fit_sc : forall o r, @fit_cols NumR o (sv c r) = rmap (sv c) (@fit_cols NumR o r).
Proof.
  intros o r. unfold fit_cols. pose proof (sv_length c r) as Q. cbn [num NumR] in *. rewrite Q. destruct (length r =? o)%nat; [reflexivity|].
  destruct r as [|t [|u r]]; cbn; auto. f_equal. unfold sv. induction o as [|o IH]; cbn; auto. now rewrite IH.
Qed.
Definition tail (s : @slfn NumR) HH1 HT0 (H T : list (list R)) : @slfn NumR * res unit :=
  match (if (length T =? length H)%nat then mapM (@fit_cols NumR (s_outputs s)) T else Err ValueError) with
  | Ok T2 => (with_corr s (Some HH1) (Some (@madd NumR HT0 (@tdot NumR (getL s) (s_outputs s) H T2))), Ok tt)
  | Err e => (with_corr s (Some HH1) (Some HT0), Err e)
  end.
Lemma tail_sc : forall b s HH1 HT0 H T, tail (sn b s) HH1 (sc c HT0) H (sc c T) = (sn b (fst (tail s HH1 HT0 H T)), snd (tail s HH1 HT0 H T)).
Proof.
  intros b s HH1 HT0 H T. unfold tail. change (getL (sn b s)) with (getL s). cbn [sn s_outputs]. rewrite sc_length. destruct (length T =? length H)%nat; [|reflexivity].
  pose proof (mapM_rmap (@fit_cols NumR (s_outputs s)) (@fit_cols NumR (s_outputs s)) (sv c) (sv c) (fit_sc (s_outputs s)) T) as Q. unfold sc at 1. cbn [num NumR] in *. rewrite Q. clear Q.
  destruct (mapM _ T) as [T2|]; cbn [rmap rbind fst snd]; [|reflexivity]. f_equal. unfold sn, with_corr. cbn. f_equal. f_equal. change (map (sv c) T2) with (sc c T2). rewrite tdot_sc_r. apply madd_sc.
Qed.
Lemma add_batch_sc : forall b s X T, @add_batch NumR (sn b s) X (sc c T) None = (sn b (fst (@add_batch NumR s X T None)), snd (@add_batch NumR s X T None)).
Proof.
  intros b s X T. unfold add_batch. change (project (sn b s) X) with (project s X). destruct (project s X) as [H|]; [|reflexivity]. cbn [rbind].
  pose proof (tail_sc b s) as G. unfold tail in G. change (getL (sn b s)) with (getL s) in *. cbn [sn s_HH s_HT s_norm s_kind s_outputs] in *.
  destruct (s_HH s) as [hh|]; [destruct (s_HT s) as [ht|]|]; cbn [option_map]; [apply G| |]; (etransitivity; [|apply G]); rewrite zero_sc; reflexivity.
Qed.
Lemma add_batches_sc : forall b e parts s, is_wc e = false ->
  @add_batches NumR e (sn b s) (map (fun p => (fst p, sc c (snd p))) parts) = (sn b (fst (@add_batches NumR e s parts)), snd (@add_batches NumR e s parts)).
Proof.
  intros b e parts. induction parts as [|[X0 T0] parts IH]; intros s Hw; [reflexivity|]. cbn [map add_batches fst snd]. rewrite Hw. rewrite add_batch_sc.
  destruct (add_batch s X0 T0 None) as [s1 [u|x]]; cbn [fst snd]; [now apply IH|reflexivity].
Qed.
Lemma add_data_sc : forall b e X T, is_wc e = false -> @add_data NumR (se b e) X (sc c T) = (se b (fst (@add_data NumR e X T)), snd (@add_data NumR e X T)).
Proof.
  intros b e X T Hw. unfold add_data. change (e_batch (se b e)) with (e_batch e). destruct (nbatches _ _) as [nb|]; [|reflexivity].
  unfold fill_wc. change (is_wc (se b e)) with (is_wc e). rewrite Hw. destruct (nb <=? 0)%Z; [reflexivity|].
  unfold sc at 1. rewrite array_split_map. cbn [num NumR]. destruct (@array_split (list R) X (Z.to_nat nb)) as [xs0|]; [|reflexivity]. destruct (@array_split (list R) T (Z.to_nat nb)) as [ts|]; [|reflexivity]. cbn [rmap rbind].
  pose proof (map_pair_combine (fun x : list (list R) => x) (sc c) xs0 ts) as Q. rewrite map_id in Q. change (map (map (sv c)) ts) with (map (sc c) ts). cbn [num NumR] in *. rewrite Q. clear Q.
  change (e_net (se b e)) with (sn b (e_net e)).
  assert (forall s p, @add_batches NumR (se b e) s p = @add_batches NumR e s p) as G.
  { intros s p. revert s. induction p as [|[x0 t0] p IH]; intros s; cbn [add_batches]; [reflexivity|]. change (is_wc (se b e)) with (is_wc e). rewrite Hw. destruct (add_batch s x0 t0 None) as [s1 [u|x]]; auto. }
  rewrite G, add_batches_sc by auto. destruct (add_batches e (e_net e) _) as [s r]. reflexivity.
Qed.

Section S.
Context {SG : @Sing NumR} {BR : @Brent NumR} {SH : Shuffle}.
Hypothesis HS : lstsq_linear c (SG := SG).

Lemma get_corr_sc : forall b s, @get_corr NumR (sn b s) = rmap (option_map (fun p => (fst p, sc c (snd p)))) (@get_corr NumR s).
Proof. intros b s. unfold get_corr. cbn [sn s_HH s_HT s_kind]. change (getL (sn b s)) with (getL s). destruct (s_HH s), (s_HT s), (s_kind s); reflexivity. Qed.
Lemma need_corr_sc : forall b s, need_corr (@get_corr NumR (sn b s)) = rmap (fun p => (fst p, sc c (snd p))) (need_corr (@get_corr NumR s)).
Proof. intros b s. rewrite get_corr_sc. destruct (get_corr s) as [[p|]|]; reflexivity. Qed.
Lemma solve_sc : forall b s, let r := @solve NumR SG s in @solve NumR SG (sn b s) =
  (sn (match snd r with Ok _ => option_map (sc c) (s_B (fst r)) | Err _ => b end) (fst r), snd r).
Proof.
  intros b s. cbv zeta. unfold solve. cbn [sn s_HH s_HT]. destruct (s_HH s) as [HH|]; [|reflexivity]. destruct (s_HT s) as [HT|]; [|reflexivity]. cbn [option_map fst snd with_B s_B]. f_equal.
  unfold sn, with_B. cbn. f_equal. f_equal. change (getL (sn b s)) with (getL s). exact (solve_corr_sc c HS s (getL s) HH HT).
Qed.

(** ** errors *)
Variable e0 : @elm NumR.
Hypothesis Ht : task_ok c (e_class e0).
Hypothesis Hop : e_op e0 = true -> 0 < c /\ (lu_linear c (SG := SG)) /\ brent_scale c (BR := BR).
Let f := fac c (e_class e0).
Lemma f_pos : 0 < f. Proof. apply fac_pos. exact Hc. Qed.
Definition like (e : @elm NumR) : Prop := e_class e = e_class e0 /\ e_op e = e_op e0.
Lemma like_ok : forall e, like e -> task_ok c (e_class e) /\ fac c (e_class e) = f /\ weights_nn e /\ is_wc e = false.
Proof.
  intros e [H _]. rewrite H. split; [exact Ht|]. split; [reflexivity|]. assert (is_wc e = false) as W. { unfold is_wc. rewrite H. destruct Ht as [->|[-> _]]; reflexivity. }
  split; [|exact W]. intros Q. rewrite W in Q. discriminate.
Qed.
Definition mul (x y : R) : Prop := 0 <= x /\ y = f * x.
Lemma alike_nn : forall (x y : res R), y = rmap (Rmult f) x -> (forall v, x = Ok v -> 0 <= v) -> alike mul x y.
Proof. intros [a|u] y -> H; cbn; [split; auto|reflexivity]. Qed.
Lemma fin_sc : forall (x y : res (@xnum NumR)), y = rmap (xs f) x -> rbind y (@xfin NumR) = rmap (Rmult f) (rbind x (@xfin NumR)).
Proof. intros [a|u] y ->; cbn [rmap rbind]; [apply xs_fin|reflexivity]. Qed.
Lemma sub_error_sc : forall b e HH HT Hv Tv ix, like e -> alike mul (sub_error e HH HT Hv Tv ix) (sub_error (se b e) HH (sc c HT) Hv (sc c Tv) ix).
Proof.
  intros b e HH HT Hv Tv ix He. destruct (like_ok e He) as (H1 & H2 & H3 & H4). apply alike_nn; [|intros v; now apply sub_error_nn].
  unfold sub_error. apply fin_sc. rewrite rsel_sc. change (e_net (se b e)) with (sn b (e_net e)). cbn [sn s_outputs].
  change (solve_corr (sn b (e_net e))) with (solve_corr (e_net e)). rewrite (solve_corr_sc c HS), mmul_sc. rewrite <- H2. exact (error_sc c Hc e _ _ H1).
Qed.
Lemma full_error_sc : forall b e HH HT Hv Tv, like e -> alike mul (full_error e HH HT Hv Tv) (full_error (se b e) HH (sc c HT) Hv (sc c Tv)).
Proof.
  intros b e HH HT Hv Tv He. destruct (like_ok e He) as (H1 & H2 & H3 & H4). apply alike_nn; [|intros v; now apply full_error_nn].
  unfold full_error. apply fin_sc. change (e_net (se b e)) with (sn b (e_net e)). cbn [sn s_outputs]. change (getL (sn b (e_net e))) with (getL (e_net e)).
  change (solve_corr (sn b (e_net e))) with (solve_corr (e_net e)). rewrite (solve_corr_sc c HS), mmul_sc. rewrite <- H2. exact (error_sc c Hc e _ _ H1).
Qed.
Lemma loo_error_sc : forall b e n H HH HT T, like e -> alike mul (loo_error e n H HH HT T) (loo_error (se b e) n H HH (sc c HT) (sc c T)).
Proof.
  intros b e n H HH HT T He. destruct (like_ok e He) as (H1 & H2 & H3 & H4). apply alike_nn; [|intros v; now apply loo_error_nn].
  unfold loo_error. destruct (inv n HH) as [P|]; [|reflexivity]. cbn [rbind]. apply fin_sc. change (e_net (se b e)) with (sn b (e_net e)). cbn [sn s_outputs].
  rewrite !mmul_sc. rewrite <- H2. exact (press_sc c Hc e _ _ _ H1).
Qed.
Lemma ranking_sc : forall b e i L H T, like e -> ranking (se b e) i L H (sc c T) = ranking e i L H T.
Proof.
  intros b e i L H T [He1 He2]. unfold ranking. change (e_op (se b e)) with (e_op e). change (e_kmax (se b e)) with (e_kmax e). change (s_outputs (e_net (se b e))) with (s_outputs (e_net e)).
  destruct (e_op e) eqn:E; [|reflexivity]. rewrite <- He2 in Hop. destruct (Hop eq_refl) as (Hp & HL & HB). destruct (_ <? 10)%nat; [now rewrite (mrsr_sc c Hp)|now rewrite (mrsr2_sc c Hp HB HL)].
Qed.

(** ** the three selections *)
Lemma pen_sc : forall err L, @penalty_of NumR (f * err) L = f * @penalty_of NumR err L.
Proof. intros err L. unfold penalty_of. cbn. unfold Rdiv. ring. Qed.
Lemma step_mul : forall (x y : res R) (w p : R), alike mul x y -> 0 <= w -> 0 <= p ->
  alike mul (let? v := x in Ok (@nadd NumR v (nmul w p))) (let? v := y in Ok (@nadd NumR v (nmul w (f * p)))).
Proof. intros [a|u] [b|v] w p H Hw Hp; cbn in *; auto. destruct H as [H ->]. split; [nra|ring]. Qed.
Lemma nof_nn : forall n, 0 <= @nof_nat NumR n.
Proof. intros n. rewrite nof_nat_INR. apply pos_INR. Qed.
Lemma first_nn : forall err L, 0 <= err -> (L =? 0)%nat = false -> 0 <= @nadd NumR err (nmul (nof_nat L) (penalty_of err L)) /\ 0 <= @penalty_of NumR err L.
Proof. intros err L H HL. apply Nat.eqb_neq in HL. assert (0 <= @penalty_of NumR err L) as P by (apply penalty_nn; [exact H|lia]). split; [|exact P]. pose proof (nof_nn L) as Q. cbn [nadd nmul NumR]. nra. Qed.

Lemma select_v_sc : forall b e Xv Tv, like e -> alike (fun a a' => fst a' = fst a) (select_v e Xv Tv) (select_v (se b e) Xv (sc c Tv)).
Proof.
  intros b e Xv Tv He. unfold select_v. change (e_net (se b e)) with (sn b (e_net e)). rewrite need_corr_sc. destruct (need_corr (get_corr (e_net e))) as [[HH HT]|]; [|reflexivity]. cbn [rmap rbind fst snd].
  change (project (sn b (e_net e)) Xv) with (project (e_net e) Xv). destruct (project (e_net e) Xv) as [Hv|]; [|reflexivity]. cbn [rbind]. change (getL (sn b (e_net e))) with (getL (e_net e)).
  rewrite ranking_sc by auto. destruct (ranking e 0 _ Hv Tv) as [[rank L]|]; [|reflexivity]. cbn [rbind].
  eapply alike_bind; [apply full_error_sc; exact He|]. intros err err' [H0 ->]. destruct (L =? 0)%nat eqn:EL; [reflexivity|].
  destruct (first_nn err L H0 EL) as [F1 F2]. rewrite pen_sc. eapply (alike_bind (found f)).
  - assert (@nadd NumR (f * err) (nmul (nof_nat L) (f * penalty_of err L)) = f * @nadd NumR err (nmul (nof_nat L) (penalty_of err L))) as -> by (cbn; ring).
    apply (search_from_rel f f_pos); [|apply init_rel; first [exact f_pos|exact F1]]. intros i. apply step_mul; [now apply sub_error_sc|apply nof_nn|exact F2].
  - intros [[m k] t] [[m' k'] t'] (G1 & G2 & G3). cbn in *. now subst.
Qed.
Lemma select_loo_sc : forall b e H T, like e -> alike (fun a a' => fst a' = fst a) (select_loo e H T) (select_loo (se b e) H (sc c T)).
Proof.
  intros b e H T He. unfold select_loo. change (e_net (se b e)) with (sn b (e_net e)). rewrite need_corr_sc. destruct (need_corr (get_corr (e_net e))) as [[HH HT]|]; [|reflexivity]. cbn [rmap rbind fst snd].
  change (getL (sn b (e_net e))) with (getL (e_net e)).
  rewrite ranking_sc by auto. destruct (ranking e 0 _ H T) as [[rank L]|]; [|reflexivity]. cbn [rbind].
  eapply alike_bind; [apply loo_error_sc; exact He|]. intros err err' [H0 ->]. destruct (L =? 0)%nat eqn:EL; [reflexivity|].
  destruct (first_nn err L H0 EL) as [F1 F2]. rewrite pen_sc. eapply (alike_bind (found f)).
  - assert (@nadd NumR (f * err) (nmul (nof_nat L) (f * penalty_of err L)) = f * @nadd NumR err (nmul (nof_nat L) (penalty_of err L))) as -> by (cbn; ring).
    apply (search_from_rel f f_pos); [|apply init_rel; first [exact f_pos|exact F1]]. intros i. apply step_mul; [rewrite rsel_sc; now apply loo_error_sc|apply nof_nn|exact F2].
  - intros [[m k] t] [[m' k'] t'] (G1 & G2 & G3). cbn in *. now subst.
Qed.

Definition sfd (fd : @fold_data NumR) : @fold_data NumR :=
  mkFold (fd_HH fd) (sc c (fd_HT fd)) (fd_Hv fd) (sc c (fd_Tv fd)) (fd_Ht fd) (sc c (fd_Tt fd)) (fd_rank fd).
Lemma avg_sc : forall g g' k, (forall fd, alike mul (g fd) (g' (sfd fd))) -> forall fds acc, 0 <= acc -> alike mul (avg_folds g k fds acc) (avg_folds g' k (map sfd fds) (f * acc)).
Proof.
  intros g g' k H. induction fds as [|fd fds IH]; intros acc Ha; cbn [map avg_folds]; [split; auto|].
  eapply alike_bind; [apply H|]. intros x y [Hx ->].
  assert (@nadd NumR (f * acc) (ndiv (f * x) (nof_nat k)) = f * @nadd NumR acc (ndiv x (nof_nat k))) as -> by (cbn; unfold Rdiv; ring).
  apply IH. cbn [nadd ndiv NumR]. pose proof (nof_nn k) as Q. destruct (Req_dec (@nof_nat NumR k) 0) as [E|E].
  - rewrite E. unfold Rdiv. rewrite Rinv_0. lra.
  - assert (0 <= x / @nof_nat NumR k) by (apply Rmult_le_pos; [exact Hx|]; left; apply Rinv_0_lt_compat; cbn in *; lra). lra.
Qed.
Lemma avg_sc0 : forall g g' k, (forall fd, alike mul (g fd) (g' (sfd fd))) -> forall fds, alike mul (avg_folds g k fds n0) (avg_folds g' k (map sfd fds) n0).
Proof. intros g g' k H fds. pose proof (avg_sc g g' k H fds 0 (Rle_refl 0)) as Q. rewrite Rmult_0_r in Q. exact Q. Qed.
Lemma select_cv_sc : forall b e fds k L, like e -> alike (fun a a' => fst (fst a') = fst (fst a) /\ snd (fst a') = f * snd (fst a)) (select_cv e fds k L) (select_cv (se b e) (map sfd fds) k L).
Proof.
  intros b e fds k L He. unfold select_cv. eapply alike_bind; [apply (avg_sc0 (fun fd => full_error e (fd_HH fd) (fd_HT fd) (fd_Hv fd) (fd_Tv fd))); intros fd; apply full_error_sc; exact He|].
  intros err err' [H0 ->]. destruct (L =? 0)%nat eqn:EL; [reflexivity|]. destruct (first_nn err L H0 EL) as [F1 F2]. rewrite pen_sc. eapply (alike_bind (found f)).
  - assert (@nadd NumR (f * err) (nmul (nof_nat L) (f * penalty_of err L)) = f * @nadd NumR err (nmul (nof_nat L) (penalty_of err L))) as -> by (cbn; ring).
    apply (search_from_rel f f_pos); [|apply init_rel; first [exact f_pos|exact F1]]. intros i. apply step_mul; [|apply nof_nn|exact F2].
    apply (avg_sc0 (fun fd => sub_error e (fd_HH fd) (fd_HT fd) (fd_Hv fd) (fd_Tv fd) (slice (fd_rank fd) 0 i))). intros fd. now apply sub_error_sc.
  - intros [[m kk] t] [[m' k'] t'] (G1 & G2 & G3). cbn in G2. subst kk.
    eapply alike_bind; [apply (avg_sc0 (fun fd => full_error e (fd_HH fd) (fd_HT fd) (fd_Ht fd) (fd_Tt fd))); intros fd; apply full_error_sc; exact He|].
    intros t0 t0' [_ ->]. cbn. split; [|reflexivity]. f_equal.
    assert (forall d d' l, fd_rank d' = fd_rank d -> fd_rank (last (map sfd l) d') = fd_rank (last l d)) as G.
    { intros d d' l Hd. induction l as [|x l IH]; [exact Hd|]. destruct l; [reflexivity|exact IH]. }
    apply G. reflexivity.
Qed.
Lemma build_sc : forall X T N k is_ b e L, like e ->
  build_folds (se b e) X (sc c T) N k is_ L = (se b (fst (build_folds e X T N k is_ L)), rmap (fun p => (map sfd (fst p), snd p)) (snd (build_folds e X T N k is_ L))).
Proof.
  intros X T N k. induction is_ as [|i is_ IH]; intros b e L He; [reflexivity|]. cbn [build_folds]. destruct (fold_parts N k i) as [[tr vl] ts].
  change (reset (e_net (se b e))) with (sn b (reset (e_net e))). rewrite !rsel_sc, add_batch_sc. destruct (@add_batch NumR (reset (e_net e)) (@rsel NumR X tr) (@rsel NumR T tr) None) as [s1 [u|x]]; cbn [fst snd]; [|reflexivity].
  change (with_net (se b e) (sn b s1)) with (se b (with_net e s1)). rewrite need_corr_sc. destruct (need_corr (get_corr s1)) as [hc|]; [|reflexivity]. cbn [rmap rbind fst snd].
  change (project (sn b s1)) with (project s1). destruct (project s1 (rsel X vl)) as [Hv|]; [|reflexivity]. cbn [rbind]. destruct (project s1 (rsel X ts)) as [Hs|]; [|reflexivity]. cbn [rbind].
  change (getL (sn b s1)) with (getL s1). rewrite ranking_sc by exact He. destruct (ranking _ i _ Hv _) as [[rk L1]|]; [|reflexivity]. cbn [rbind fst snd].
  rewrite IH by exact He. destruct (build_folds (with_net e s1) X T N k is_ L1) as [e2 [[fds L2]|x]]; reflexivity.
Qed.

(** ** training *)
Definition out (p q : @elm NumR * res (option R)) : Prop :=
  exists b, fst q = se b (fst p) /\ match snd p, snd q with
    | Ok v, Ok v' => v' = option_map (Rmult f) v /\ b = option_map (sc c) (s_B (e_net (fst p)))
    | Err x, Err y => x = y
    | _, _ => False end.
Lemma refit_sc : forall b e X T best v v', v' = option_map (Rmult f) v -> out (done (refit e X T best) v) (done (refit (se b e) X (sc c T) best) v').
Proof.
  intros b e X T best v v' Hv. unfold refit. change (prune (e_net (se b e)) best) with (sn None (prune (e_net e) best)). rewrite add_batch_sc.
  destruct (add_batch (prune (e_net e) best) X T None) as [s1 [u|x]]; cbn [fst snd]; [|exists None; split; reflexivity].
  rewrite solve_sc. destruct (solve s1) as [s2 [u'|x]]; cbn [fst snd done].
  - exists (option_map (sc c) (s_B s2)). cbn. auto.
  - exists None. cbn. auto.
Qed.
Lemma err_out : forall b e x, out (e, Err x) (se b e, Err x).
Proof. intros b e x. exists b. split; reflexivity. Qed.
Lemma like_data : forall e X T, like e -> like (fst (@add_data NumR e X T)).
Proof.
  intros e X T He. destruct (like_ok e He) as (_ & _ & _ & W). unfold add_data. destruct (nbatches _ _); [|exact He]. unfold fill_wc. rewrite W. destruct (_ <=? 0)%Z; [exact He|].
  destruct (array_split X _); [|exact He]. destruct (array_split T _); [|exact He]. destruct (add_batches _ _ _). exact He.
Qed.
Lemma like_build : forall X T N k is_ e L, like e -> like (fst (build_folds e X T N k is_ L)).
Proof.
  intros X T N k. induction is_ as [|i is_ IH]; intros e L He; [exact He|]. cbn [build_folds]. destruct (fold_parts N k i) as [[tr vl] ts].
  destruct (add_batch _ _ _ _) as [s1 [u|x]]; [|exact He]. match goal with |- context [match ?o with Ok _ => _ | Err _ => _ end] => destruct o as [[fd L1]|] end; [|exact He].
  specialize (IH (with_net e s1) L1 He). destruct (build_folds (with_net e s1) X T N k is_ L1) as [e2 [[fds L2]|x]]; exact IH.
Qed.
Lemma train_v_sc : forall b e X T Xv Tv, like e -> out (train_v e X T Xv Tv) (train_v (se b e) X (sc c T) Xv (sc c Tv)).
Proof.
  intros b e X T Xv Tv He. unfold train_v. rewrite add_data_sc by apply (like_ok e He). pose proof (like_data e X T He) as H1. destruct (add_data e X T) as [e1 [u|x]]; cbn [fst snd] in *; [|apply err_out].
  pose proof (select_v_sc b e1 Xv Tv H1) as A. destruct (select_v e1 Xv Tv) as [[[k rank] q]|x], (select_v (se b e1) Xv (sc c Tv)) as [[[k' rank'] q']|y]; cbn in A; try contradiction; cbn [lift_err].
  - injection A as -> ->. now apply refit_sc.
  - subst. apply err_out.
Qed.
Lemma train_loo_sc : forall b e X T, like e -> out (train_loo e X T) (train_loo (se b e) X (sc c T)).
Proof.
  intros b e X T He. unfold train_loo. change (project (e_net (se b e)) X) with (project (e_net e) X). destruct (project (e_net e) X) as [H|]; [|apply err_out]. cbn [lift_err].
  rewrite add_data_sc by apply (like_ok e He). pose proof (like_data e X T He) as H1. destruct (add_data e X T) as [e1 [u|x]]; cbn [fst snd] in *; [|apply err_out].
  pose proof (select_loo_sc b e1 H T H1) as A. destruct (select_loo e1 H T) as [[[k rank] q]|x], (select_loo (se b e1) H (sc c T)) as [[[k' rank'] q']|y]; cbn in A; try contradiction; cbn [lift_err].
  - injection A as -> ->. now apply refit_sc.
  - subst. apply err_out.
Qed.
Lemma train_cv_sc : forall b e X T k, like e -> out (train_cv e X T k) (train_cv (se b e) X (sc c T) k).
Proof.
  intros b e X T k He. unfold train_cv. change (getL (e_net (se b e))) with (getL (e_net e)). rewrite build_sc by exact He. pose proof (like_build X T (length X) k (seq 0 k) e (getL (e_net e)) He) as H1.
  destruct (build_folds e X T _ k _ _) as [e1 [[fds L]|x]]; cbn [fst snd rmap rbind] in *; [|apply err_out].
  pose proof (select_cv_sc b e1 fds k L H1) as A. destruct (select_cv e1 fds k L) as [[[[kk rank] t] q]|x], (select_cv (se b e1) (map sfd fds) k L) as [[[[k' rank'] t'] q']|y]; cbn in A; try contradiction; cbn [lift_err].
  - destruct A as [A1 A2]. injection A1 as -> ->. subst. now apply refit_sc.
  - subst. apply err_out.
Qed.
Lemma train_basic_sc : forall b e X T, like e -> out (train_basic e X T) (train_basic (se b e) X (sc c T)).
Proof.
  intros b e X T He. unfold train_basic. rewrite add_data_sc by apply (like_ok e He). destruct (add_data e X T) as [e1 [u|x]]; cbn [fst snd] in *; [|apply err_out].
  change (e_net (se b e1)) with (sn b (e_net e1)). rewrite solve_sc. destruct (solve (e_net e1)) as [s2 [u'|x]]; cbn [fst snd done].
  - exists (option_map (sc c) (s_B s2)). cbn. auto.
  - exists b. cbn. auto.
Qed.
End S.

(** ** the arguments *)
Definition no_class (args : list string) : Prop := forall a, In a (map upper args) -> ~ In a ["WC"; "ML"; "MC"].
Lemma parse_loop_sc : forall b kw args e, @parse_loop NumR (se b e) (skw kw) args = (se b (fst (@parse_loop NumR e kw args)), snd (@parse_loop NumR e kw args)).
Proof.
  intros b kw. induction args as [|a args IH]; intros e; [reflexivity|]. cbn [parse_loop]. change (s_outputs (e_net (se b e))) with (s_outputs (e_net e)). cbn [skw kw_kmax kw_w].
  set (e1 := if a =? "OP" then with_op e true _ else e).
  assert ((if a =? "OP" then with_op (se b e) true (match kw_kmax kw with Some k => Some k | None => e_kmax (se b e) end) else se b e) = se b e1) as -> by (unfold e1; destruct (a =? "OP"); reflexivity).
  destruct (a =? "C"). { destruct (1 <? _)%nat; [|reflexivity]. change (with_class (se b e1) (Some "c")) with (se b (with_class e1 (Some "c"))). apply IH. }
  destruct (a =? "WC"). { destruct (1 <? _)%nat; [|reflexivity]. change (with_class (se b e1) (Some "wc")) with (se b (with_class e1 (Some "wc"))). destruct (kw_w kw) as [w|]; [|apply IH].
    destruct (length w =? _)%nat; [|reflexivity]. match goal with |- context [with_wc (se b ?x) ?w] => change (with_wc (se b x) w) with (se b (with_wc x w)) end. apply IH. }
  destruct (_ || _)%bool. { destruct (1 <? _)%nat; [|reflexivity]. change (with_class (se b e1) (Some "ml")) with (se b (with_class e1 (Some "ml"))). apply IH. }
  destruct (a =? "R"); [change (with_class (se b e1) None) with (se b (with_class e1 None))|]; apply IH.
Qed.
Lemma parse_class : forall kw args (Cl : Prop) (Op : Prop) e, (forall a, In a args -> ~ In a ["WC"; "ML"; "MC"]) -> (In "C" args -> Cl) -> (In "OP" args -> Op) ->
  (e_class e = None \/ (e_class e = Some "c" /\ Cl)) -> (e_op e = true -> Op) ->
  let e1 := fst (@parse_loop NumR e kw args) in (e_class e1 = None \/ (e_class e1 = Some "c" /\ Cl)) /\ (e_op e1 = true -> Op).
Proof.
  intros kw. induction args as [|a args IH]; intros Cl Op e H1 H2 H3 H4 H5; [cbn; auto|]. cbv zeta. cbn [parse_loop].
  set (e1 := if a =? "OP" then with_op e true _ else e).
  assert (e_class e1 = e_class e) as C1 by (unfold e1; destruct (a =? "OP"); reflexivity).
  assert (e_op e1 = true -> Op) as C2. { unfold e1. destruct (a =? "OP") eqn:E; [intros _; apply H3; left; now apply String.eqb_eq in E|exact H5]. }
  assert (forall e2, (e_class e2 = None \/ (e_class e2 = Some "c" /\ Cl)) -> (e_op e2 = true -> Op) -> let e3 := fst (@parse_loop NumR e2 kw args) in (e_class e3 = None \/ (e_class e3 = Some "c" /\ Cl)) /\ (e_op e3 = true -> Op)) as G.
  { intros e2 G1 G2. apply (IH Cl Op e2); auto; intros; [apply H1; now right|apply H2; now right|apply H3; now right]. }
  assert (~ In a ["WC"; "ML"; "MC"]) as N by (apply H1; now left).
  rewrite <- C1 in H4.
  destruct (a =? "C") eqn:EC. { destruct (1 <? _)%nat; [|cbn [fst]; auto]. apply G; [|exact C2]. right. split; [reflexivity|]. apply H2. left. now apply String.eqb_eq in EC. }
  destruct (a =? "WC") eqn:EW; [apply String.eqb_eq in EW; subst; exfalso; apply N; cbn; auto|].
  destruct (a =? "ML") eqn:EM; [apply String.eqb_eq in EM; subst; exfalso; apply N; cbn; auto|].
  destruct (a =? "MC") eqn:EN; [apply String.eqb_eq in EN; subst; exfalso; apply N; cbn; auto|]. cbn [orb].
  destruct (a =? "R"); apply G; auto.
Qed.
Section K.
Context {SG : @Sing NumR} {BR : @Brent NumR} {SH : Shuffle}.
Lemma add_data_class : forall e X T, is_wc e = false -> e_class (fst (@add_data NumR e X T)) = e_class e.
Proof.
  intros e X T W. unfold add_data. destruct (nbatches _ _); [|reflexivity]. unfold fill_wc. rewrite W. destruct (_ <=? 0)%Z; [reflexivity|].
  destruct (array_split X _); [|reflexivity]. destruct (array_split T _); [|reflexivity]. destruct (add_batches _ _ _). reflexivity.
Qed.
Lemma refit_class : forall e X T best v, e_class (fst (done (@refit NumR SG e X T best) v)) = e_class e.
Proof. intros e X T best v. unfold refit. destruct (add_batch _ _ _ _) as [s1 [u|x]]; [|reflexivity]. destruct (solve s1). reflexivity. Qed.
Lemma train_v_class : forall e X T Xv Tv, is_wc e = false -> e_class (fst (train_v e X T Xv Tv)) = e_class e.
Proof.
  intros e X T Xv Tv W. unfold train_v. pose proof (add_data_class e X T W) as Q. destruct (add_data e X T) as [e1 [u|x]]; cbn [fst] in *; [|exact Q]. destruct (select_v e1 Xv Tv) as [[[k r] q]|]; cbn [lift_err]; [|exact Q]. now rewrite refit_class.
Qed.
Lemma train_loo_class : forall e X T, is_wc e = false -> e_class (fst (train_loo e X T)) = e_class e.
Proof.
  intros e X T W. unfold train_loo. destruct (project _ X) as [H|]; [|reflexivity]. cbn [lift_err]. pose proof (add_data_class e X T W) as Q. destruct (add_data e X T) as [e1 [u|x]]; cbn [fst] in *; [|exact Q].
  destruct (select_loo e1 H T) as [[[k r] q]|]; cbn [lift_err]; [|exact Q]. now rewrite refit_class.
Qed.
Lemma train_basic_class : forall e X T, is_wc e = false -> e_class (fst (@train_basic NumR SG e X T)) = e_class e.
Proof.
  intros e X T W. unfold train_basic. pose proof (add_data_class e X T W) as Q. destruct (add_data e X T) as [e1 [u|x]]; cbn [fst] in *; [|exact Q]. destruct (solve _). exact Q.
Qed.
Lemma build_class : forall X T N k is_ e L, e_class (fst (build_folds e X T N k is_ L)) = e_class e.
Proof.
  intros X T N k. induction is_ as [|i is_ IH]; intros e L; [reflexivity|]. cbn [build_folds]. destruct (fold_parts N k i) as [[tr vl] ts].
  destruct (add_batch _ _ _ _) as [s1 [u|x]]; [|reflexivity]. match goal with |- context [match ?o with Ok _ => _ | Err _ => _ end] => destruct o as [[fd L1]|] end; [|reflexivity].
  specialize (IH (with_net e s1) L1). destruct (build_folds (with_net e s1) X T N k is_ L1) as [e2 [[fds L2]|x]]; exact IH.
Qed.
Lemma train_cv_class : forall e X T k, e_class (fst (train_cv e X T k)) = e_class e.
Proof.
  intros e X T k. unfold train_cv. pose proof (build_class X T (length X) k (seq 0 k) e (getL (e_net e))) as Q. destruct (build_folds e X T _ k _ _) as [e1 [[fds L]|x]]; cbn [fst] in *; [|exact Q].
  destruct (select_cv e1 fds k L) as [[[[kk r] t] q]|]; cbn [lift_err]; [|exact Q]. now rewrite refit_class.
Qed.
End K.
Section T.
Context {SG : @Sing NumR} {BR : @Brent NumR} {SH : Shuffle}.
Theorem train_sc : forall e X T args kw, lstsq_linear c (SG := SG) -> no_class args ->
  (In "C" (map upper args) -> 0 < c) ->
  (In "OP" (map upper args) -> 0 < c /\ lu_linear c (SG := SG) /\ brent_scale c (BR := BR)) ->
  let p := train e X T args kw in let q := train e X (sarr T) args (skw kw) in
  match snd p, snd q with
  | Ok v, Ok v' => v' = option_map (Rmult (fac c (e_class (fst p)))) v /\ fst q = se (option_map (sc c) (s_B (e_net (fst p)))) (fst p)
  | Err x, Err y => x = y
  | _, _ => False end.
Proof.
  intros e X T args kw HS HN HC HO. cbv zeta. unfold train. rewrite checkdata_sc. destruct (checkdata e X T) as [[x t]|]; [|reflexivity]. cbn [rmap rbind fst snd].
  unfold parse_args. destruct (s_neurons (e_net e)) as [|n0' ns]; [reflexivity|].
  set (e0 := with_wc _ None).
  destruct (negb (at_most_one (map upper args) ["V"; "CV"; "LOO"])); [reflexivity|]. destruct (negb (at_most_one (map upper args) ["C"; "WC"; "ML"; "MC"])); [reflexivity|].
  pose proof (parse_loop_sc (s_B (e_net e)) kw (map upper args) e0) as Q. change (se (s_B (e_net e)) e0) with e0 in Q. rewrite Q. clear Q.
  pose proof (parse_class kw (map upper args) (0 < c) (0 < c /\ lu_linear c (SG := SG) /\ brent_scale c (BR := BR)) e0 HN HC HO (or_introl eq_refl)) as [P1 P2]; [intros A; discriminate A|].
  destruct (parse_loop e0 kw (map upper args)) as [e2 [u|y]]; cbn [fst snd] in *; [|reflexivity].
  cbn [skw kw_batch kw_Xv kw_Tv kw_k]. set (b := s_B (e_net e)).
  set (e1 := match kw_batch kw with Some z => with_batch e2 z | None => e2 end).
  assert (match kw_batch kw with Some z => with_batch (se b e2) z | None => se b e2 end = se b e1) as -> by (unfold e1; destruct (kw_batch kw); reflexivity).
  assert (e_class e1 = e_class e2) as K1 by (unfold e1; destruct (kw_batch kw); reflexivity). assert (e_op e1 = e_op e2) as K2 by (unfold e1; destruct (kw_batch kw); reflexivity).
  rewrite <- K1 in P1. rewrite <- K2 in P2. clearbody e1. clear K1 K2 e2.
  assert (like e1 e1) as L1 by (split; reflexivity).
  assert (forall p q, out e1 p q -> e_class (fst p) = e_class e1 -> match snd p, snd q with
    | Ok v, Ok v' => v' = option_map (Rmult (fac c (e_class (fst p)))) v /\ fst q = se (option_map (sc c) (s_B (e_net (fst p)))) (fst p)
    | Err x, Err y => x = y
    | _, _ => False end) as FIN.
  { intros [p1 p2] [q1 q2] (b' & B1 & B2) B3. cbn [fst snd] in *. destruct p2, q2; auto. destruct B2 as [-> ->]. now rewrite B3. }
  assert (task_ok c (e_class e1)) as T1 by exact P1.
  destruct (smem "V" args).
  { destruct (kw_Xv kw) as [Xv|]; [|reflexivity]. destruct (kw_Tv kw) as [Tv|]; [|reflexivity]. cbn [option_map].
    change (checkdata (se b e1) Xv (sarr Tv)) with (checkdata e1 Xv (sarr Tv)). rewrite checkdata_sc. destruct (checkdata e1 Xv Tv) as [[xv tv]|]; [|reflexivity]. cbn [rmap rbind lift_err fst snd].
    apply FIN; [now apply train_v_sc|apply train_v_class; exact (proj2 (proj2 (proj2 (like_ok e1 T1 e1 L1))))]. }
  destruct (smem "CV" args).
  { destruct (kw_k kw) as [k|]; [|reflexivity]. destruct (Nat.leb_spec 3 k); [|reflexivity]. apply FIN; [now apply train_cv_sc|apply train_cv_class]. }
  destruct (smem "LOO" args); (apply FIN; [first [now apply train_loo_sc|now apply train_basic_sc]|]).
  - apply train_loo_class; exact (proj2 (proj2 (proj2 (like_ok e1 T1 e1 L1)))).
  - apply train_basic_class; exact (proj2 (proj2 (proj2 (like_ok e1 T1 e1 L1)))).
Qed.
End T.
End C.
