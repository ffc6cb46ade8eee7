(** Structure selection: the search inside 'V', 'CV' and 'LOO' (C33-C35; reals). *)
From Coq Require Import Reals Lra Permutation.
From Verif Require Import Base Num Mat LinAlg Slfn Strs Elm Mrsr Search Mss MatFacts Spec RLin TrainThms ErrThms SearchThms SearchLog.
#[local] Existing Instance NumR.

Section Fuel.
Context {K : Num} {SG : Sing} {BR : Brent} {SH : Shuffle}.
(** the model's own marker for an exhausted loop does not occur *)
Definition nf {A} (r : res A) : Prop := r <> Err OutOfFuel.
Lemma nf_bind : forall {A B} (r : res A) (k : A -> res B), nf r -> (forall a, r = Ok a -> nf (k a)) -> nf (rbind r k).
Proof. intros A B [a|x] k H1 H2; cbn; [now apply H2|]. intros C. apply H1. congruence. Qed.
Lemma nf_ok : forall {A} (a : A), nf (Ok a).
Proof. intros A a C. discriminate C. Qed.
Lemma nf_mapM : forall {A B} (f : A -> res B) l, (forall a, nf (f a)) -> nf (mapM f l).
Proof. induction l; intros H; cbn [mapM]; [apply nf_ok|]. apply nf_bind; auto. intros. apply nf_bind; auto. intros; apply nf_ok. Qed.
Lemma nf_bcast : forall {A B} (l : list A) (m : list B), nf (bcast l m).
Proof. intros. unfold bcast. destruct (length l =? length m)%nat; [apply nf_ok|]. destruct l as [|? [|]], m as [|? [|]]; discriminate. Qed.
Ltac nfs := repeat first [apply nf_ok | apply nf_bcast | (apply nf_bind; [|intros ? ?]) | (apply nf_mapM; intros ?) | discriminate].
Lemma nf_project : forall s X, nf (project s X).
Proof. intros. unfold project. destruct (s_neurons s); [discriminate|]. do 2 (destruct (existsb _ _); [discriminate|]). destruct (forallb _ _); discriminate. Qed.
Lemma nf_class_err : forall Y idx f, nf (class_err Y idx f).
Proof. intros. unfold class_err. destruct idx; [apply nf_ok|]. nfs; match goal with |- context [nth_error Y ?k] => destruct (nth_error Y k) end; discriminate. Qed.
Lemma nf_error : forall e T Y, nf (error_ e T Y).
Proof.
  intros. unfold error_. apply nf_bind; [|intros a _; destruct a; discriminate]. unfold raw_error, zip_rows.
  destruct (e_class e) as [s|]; [|nfs].
  repeat match goal with |- nf (match ?x with _ => _ end) => destruct x end; nfs; try apply nf_class_err.
  destruct (e_wc e); nfs.
Qed.
Lemma nf_press : forall e T Y R, nf (press_ e T Y R).
Proof.
  intros. unfold press_. apply nf_bind; [|intros a _; destruct a; discriminate]. unfold raw_press, zip_rows.
  destruct (e_class e) as [s|]; [|nfs].
  repeat match goal with |- nf (match ?x with _ => _ end) => destruct x end; nfs; try apply nf_class_err.
  destruct (e_wc e); nfs.
Qed.
Lemma nf_xfin : forall x, nf (xfin x).
Proof. destruct x; discriminate. Qed.
Lemma nf_sub_error : forall e HH HT Hv Tv ix, nf (sub_error e HH HT Hv Tv ix).
Proof. intros. unfold sub_error. apply nf_bind; [apply nf_error|]. intros; apply nf_xfin. Qed.
Lemma nf_full_error : forall e HH HT Hv Tv, nf (full_error e HH HT Hv Tv).
Proof. intros. unfold full_error. apply nf_bind; [apply nf_error|]. intros; apply nf_xfin. Qed.
Lemma nf_loo_error : forall e n H HH HT T, nf (loo_error e n H HH HT T).
Proof. intros. unfold loo_error. apply nf_bind; [unfold inv; destruct (posv _ _ _ _); discriminate|]. intros. apply nf_bind; [apply nf_press|]. intros; apply nf_xfin. Qed.
Lemma nf_need : forall s, nf (need_corr (get_corr s)).
Proof. intros. unfold get_corr. destruct (s_HH s), (s_HT s), (s_kind s); discriminate. Qed.
Lemma nf_min_step : forall G, nf (min_step G).
Proof. intros. unfold min_step. destruct (filter xnonneg G); [discriminate|]. destruct (xmin_from _ _); discriminate. Qed.
Lemma nf_mrsr : forall X T m p k, nf (mrsr X T m p k).
Proof.
  intros. unfold mrsr. apply nf_bind.
  - unfold mrsr_first. destruct (abs_colsum _ _); [discriminate|]. destruct (np_div _ _); try discriminate.
    apply nf_bind; [apply nf_min_step|intros; apply nf_ok].
  - intros st _. apply nf_bind; [|intros; apply nf_ok]. revert st. generalize (seq 2 (Nat.min k m - 1)). intros ks. induction ks; intros st; cbn [mrsr_loop]; [apply nf_ok|].
    apply nf_bind; auto. unfold mrsr_step. destruct (abs_colsum _ _); [discriminate|]. destruct (_ =? _)%nat; [apply nf_ok|].
    apply nf_bind; [apply nf_min_step|intros; apply nf_ok].
Qed.
Lemma nf_mrsr2 : forall X T m p k, nf (mrsr2 X T m p k).
Proof.
  intros. unfold mrsr2. apply nf_bind; [|intros; apply nf_ok]. generalize (mkM2 [] (seq 0 m) O (map (fun _ => mkv p (fun _ => n0)) T) (map (fun _ => mkv p (fun _ => n0)) T)).
  induction (Nat.min k (length X)) as [|n IH]; intros st; cbn [mrsr2_loop]; [apply nf_ok|]. apply nf_bind; [|intros; auto].
  unfold mrsr2_step. apply nf_bind.
  - destruct (rank2 st); [destruct (first_max _ _ _ _); discriminate|]. destruct (non2 st); [discriminate|]. destruct (min_new _ _ _ _ _ _); discriminate.
  - intros [[[[? ?] ?] ?] ?] _. apply nf_ok.
Qed.
Lemma nf_ranking : forall e i L H T, nf (ranking e i L H T).
Proof.
  intros. unfold ranking. destruct (e_op e); [|apply nf_ok]. apply nf_bind; [|intros; apply nf_ok].
  destruct (_ <? _)%nat; [apply nf_mrsr|apply nf_mrsr2].
Qed.
Lemma nf_avg : forall f k fds acc, (forall fd, nf (f fd)) -> nf (avg_folds f k fds acc).
Proof. induction fds; intros acc H; cbn [avg_folds]; [apply nf_ok|]. apply nf_bind; auto. Qed.
End Fuel.

(** the number of neurons considered: limited by kmax *)
Lemma ranking_L : forall {K : Num} {SG : Sing} {BR : Brent} {SH : Shuffle} e i L H T rank L',
  ranking e i L H T = Ok (rank, L') -> (L' <= L)%nat.
Proof.
  intros K SG BR SH e i L H T rank L' E. unfold ranking in E. destruct (e_op e).
  - destruct (if (s_outputs (e_net e) <? 10)%nat then _ else _) as [r|]; cbn in E; [|discriminate]. injection E as _ <-. destruct (e_kmax e); lia.
  - injection E as _ <-. auto.
Qed.

(** ** Errors are not negative *)
Local Open Scope R_scope.
Definition xnn (x : @xnum NumR) : Prop := match x with Fin a => 0 <= a | NInf => False | _ => True end.
Lemma xadd_nn : forall x y, xnn x -> xnn y -> xnn (@xadd NumR x y).
Proof. intros [a| | |] [b| | |] Hx Hy; cbn in *; auto; try tauto. lra. Qed.
Lemma xinf_nn : forall a : R, 0 <= a -> a <> 0 -> @xinf NumR (@nltb NumR n0 a) = PInf.
Proof. intros a H H0. change (@nltb NumR n0 a) with (Rltb 0 a). unfold Rltb. destruct (Rlt_dec 0 a); [reflexivity|lra]. Qed.
Lemma xmul_nn : forall x y, xnn x -> xnn y -> xnn (@xmul NumR x y).
Proof.
  intros [a| | |] [b| | |] Hx Hy; cbn [xnn xmul] in *; auto; try tauto.
  - change (@nmul NumR a b) with (a * b). now apply Rmult_le_pos.
  - destruct (@neqb NumR a n0) eqn:E; [exact I|]. apply neqb_R_false in E. rewrite xinf_nn; cbn; auto.
  - destruct (@neqb NumR b n0) eqn:E; [exact I|]. apply neqb_R_false in E. rewrite xinf_nn; cbn; auto.
Qed.
Lemma np_div_nn : forall a b : R, 0 <= a -> 0 <= b -> xnn (@np_div NumR a b).
Proof.
  intros a b Ha Hb. unfold np_div. destruct (@neqb NumR b n0) eqn:E.
  - destruct (@neqb NumR a n0) eqn:E'; [exact I|]. apply neqb_R_false in E'. rewrite xinf_nn; cbn; auto.
  - apply neqb_R_false in E. cbn [xnn]. change (@ndiv NumR a b) with (a / b). apply Rmult_le_pos; auto. left. apply Rinv_0_lt_compat. change (@n0 NumR) with 0 in E. lra.
Qed.
Lemma xdiv_nn : forall x y, xnn x -> xnn y -> xnn (@xdiv NumR x y).
Proof.
  intros [a| | |] [b| | |] Hx Hy; cbn [xnn xdiv] in *; auto; try tauto.
  - now apply np_div_nn.
  - change (@n0 NumR) with 0. lra.
  - change (@nltb NumR b n0) with (Rltb b 0). unfold Rltb. destruct (Rlt_dec b 0); [lra|exact I].
Qed.
Lemma xsum_nn : forall l, Forall xnn l -> xnn (@xsum NumR l).
Proof. induction 1; cbn [xsum fold_right]; [cbn; lra|]. now apply xadd_nn. Qed.
Lemma xmean_nn : forall l, Forall xnn l -> xnn (@xmean NumR l).
Proof.
  intros l H. unfold xmean. destruct l as [|x l]; [exact I|]. apply xdiv_nn; [now apply xsum_nn|]. rewrite nof_nat_INR. cbn [xnn]. apply pos_INR.
Qed.
Lemma xsq_div_nn : forall (a b : R), xnn (@xsq NumR (@np_div NumR a b)).
Proof.
  intros a b. unfold xsq. destruct (@np_div NumR a b) as [v| | |]; cbn [xmul xnn]; auto. change (@nmul NumR v v) with (v * v). apply Rle_0_sqr.
Qed.
Lemma b2n_nn : forall b, 0 <= @b2n NumR b.
Proof. intros []; cbn; lra. Qed.
Lemma class_err_nn : forall Y idx f x, (forall r y, xnn (f r y)) -> @class_err NumR Y idx f = Ok x -> xnn x.
Proof.
  intros Y idx f x Hf E. unfold class_err in E. destruct idx as [|i idx]; [injection E as <-; cbn; lra|].
  destruct (mapM _ _) as [l|] eqn:El; cbn [rbind] in E; [|discriminate]. injection E as <-. apply xmean_nn.
  clear -El Hf. revert l El. generalize (i :: idx). intros ix. induction ix as [|j ix IH]; intros l El; cbn [mapM] in El.
  - injection El as <-. constructor.
  - destruct (nth_error Y j); cbn [rbind] in El; [|discriminate]. destruct (mapM _ ix) as [l'|]; cbn [rbind] in El; [|discriminate]. injection El as <-.
    constructor; auto.
Qed.
Lemma mapM_Forall : forall {A B} (f : A -> res B) (P : B -> Prop) l l', (forall a b, f a = Ok b -> P b) -> mapM f l = Ok l' -> Forall P l'.
Proof.
  induction l as [|a l IH]; intros l' H E; cbn [mapM] in E; [injection E as <-; constructor|].
  destruct (f a) eqn:Ea; cbn [rbind] in E; [|discriminate]. destruct (mapM f l) eqn:El; cbn [rbind] in E; [|discriminate]. injection E as <-.
  constructor; eauto.
Qed.
Lemma bcast_Forall : forall {A B} (P : A -> Prop) (Q : B -> Prop) l m p, Forall P l -> Forall Q m -> bcast l m = Ok p ->
  Forall (fun ab => P (fst ab) /\ Q (snd ab)) p.
Proof.
  intros A B P Q l m p HP HQ E. unfold bcast in E. destruct (length l =? length m)%nat.
  - injection E as <-. apply Forall_forall. intros [a b] H. cbn. split.
    + eapply Forall_forall in HP; [exact HP|]. eapply in_combine_l; eauto.
    + eapply Forall_forall in HQ; [exact HQ|]. eapply in_combine_r; eauto.
  - destruct l as [|a [|a' l]].
    + destruct m as [|b [|b' m]]; try discriminate. injection E as <-. constructor.
    + injection E as <-. apply Forall_inv in HP. apply Forall_forall. intros [x y] H. apply in_map_iff in H as (b & [= <- <-] & Hb). cbn. split; auto.
      eapply Forall_forall in HQ; eauto.
    + destruct m as [|b [|b' m]]; try discriminate. apply Ok_inj in E; subst p. apply Forall_inv in HQ. apply Forall_forall. intros [x y] H.
      apply in_map_iff in H as (c & [= <- <-] & Hb). cbn. split; auto. eapply Forall_forall in HP; eauto.
Qed.
Lemma map2_nn : forall (f : R -> R -> @xnum NumR) (u v : list R), (forall a b, xnn (f a b)) -> Forall xnn (map2 f u v).
Proof. induction u; intros [|b v] H; cbn; constructor; auto. Qed.
Lemma concat_nn : forall L, Forall (Forall xnn) L -> Forall xnn (concat L).
Proof. induction 1; cbn; [constructor|]. apply Forall_app. auto. Qed.
Lemma map_nn : forall {A} (f : A -> @xnum NumR) l, (forall a, xnn (f a)) -> Forall xnn (map f l).
Proof. intros. apply Forall_forall. intros x Hx. apply in_map_iff in Hx as (a & <- & _). auto. Qed.
Lemma cmap_nn : forall {A} (f : A -> list (@xnum NumR)) l, (forall a, Forall xnn (f a)) -> Forall xnn (concat (map f l)).
Proof. intros. apply concat_nn, Forall_forall. intros x Hx. apply in_map_iff in Hx as (a & <- & _). auto. Qed.

(** class weights that are not negative *)
Definition weights_nn (e : @elm NumR) : Prop := is_wc e = true -> forall w, e_wc e = Some w -> Forall xnn w.

Lemma error_nn : forall e T Y x, weights_nn e -> @error_ NumR e T Y = Ok x -> xnn x.
Proof.
  intros e T Y x Hw E. unfold error_ in E. destruct (raw_error _ _ _ _ _) as [r|] eqn:Er; cbn [rbind] in E; [|discriminate].
  assert (xnn r) as Hr; [|destruct r; cbn in E; try discriminate; injection E as <-; exact Hr].
  clear E. unfold raw_error, zip_rows in Er.
  assert (forall p : list (list R * list R), xnn (@xmean NumR (concat (map (fun yt => map2 (fun y t => @Fin NumR (nsq (nsub y t))) (fst yt) (snd yt)) p)))) as N0.
  { intros p. apply xmean_nn, cmap_nn. intros a. apply map2_nn. intros u v. cbn [xnn]. unfold nsq. cbn [nmul nsub NumR]. apply Rle_0_sqr. }
  assert (forall p : list (list R * list R), xnn (@xmean NumR (map (fun yt => @Fin NumR (b2n (neq_arg (fst yt) (argmax (snd yt))))) p))) as N1.
  { intros p. apply xmean_nn, map_nn. intros a. apply b2n_nn. }
  assert (forall p : list (list R * list R), xnn (@xmean NumR (concat (map (fun yt => map2 (fun y t => @Fin NumR (b2n (negb (Bool.eqb (gthalf y) (gthalf t))))) (fst yt) (snd yt)) p)))) as N2.
  { intros p. apply xmean_nn, cmap_nn. intros a. apply map2_nn. intros u v. apply b2n_nn. }
  assert (forall r, (let? p := @bcast (list R) (list R) Y T in Ok (@xmean NumR (concat (map (fun yt => map2 (fun y t => @Fin NumR (nsq (nsub y t))) (fst yt) (snd yt)) p)))) = Ok r -> xnn r) as D.
  { intros r' E'. destruct (@bcast (list R) (list R) Y T) as [p|]; cbn [rbind] in E'; [|discriminate]. injection E' as <-. apply N0. }
  destruct (e_class e) as [s|] eqn:Ecl; [|apply D; exact Er].
  repeat match type of Er with match ?y with _ => _ end = _ => first [is_var y; destruct y | destruct y eqn:?] end; try (apply D; exact Er).
  all: cbn [num NumR] in *;
   try (destruct (@bcast (list R) (list R) Y T) as [p|]; cbn [rbind] in Er; [|discriminate]; injection Er as <-; first [apply N1|apply N2]).
  destruct (mapM _ (seq 0 _)) as [errc|] eqn:Em; cbn [rbind] in Er; [|discriminate].
  destruct (e_wc e) as [w|] eqn:Ew; [|discriminate].
  destruct (bcast errc w) as [p|] eqn:Ep; cbn [rbind] in Er; [|discriminate]. injection Er as <-.
  specialize (Hw ltac:(unfold is_wc; rewrite Ecl; reflexivity) w Ew). apply xdiv_nn; [|now apply xsum_nn]. apply xsum_nn.
  assert (Forall xnn errc) as He.
  { eapply mapM_Forall; [|exact Em]. cbn beta. intros i b Eb. eapply class_err_nn; [|exact Eb]. intros; apply b2n_nn. }
  pose proof (bcast_Forall _ _ _ _ _ He Hw Ep) as Hp. apply Forall_forall. intros y Hy. apply in_map_iff in Hy as ([a b] & <- & Hab).
  eapply Forall_forall in Hp; [|exact Hab]. destruct Hp. now apply xmul_nn.
Qed.

Lemma press_nn : forall e T Y Rv x, weights_nn e -> @press_ NumR e T Y Rv = Ok x -> xnn x.
Proof.
  intros e T Y Rv x Hw E. unfold press_ in E. destruct (raw_press _ _ _ _ _ _) as [r|] eqn:Er; cbn [rbind] in E; [|discriminate].
  assert (xnn r) as Hr; [|destruct r; cbn in E; try discriminate; injection E as <-; exact Hr].
  clear E. unfold raw_press, zip_rows in Er.
  assert (forall (f : (list R * list R) * R -> list (@xnum NumR)), (forall a, Forall xnn (f a)) ->
    forall r, (let? p := @bcast (list R) (list R) Y T in let? q := @bcast (list R * list R) R p Rv in Ok (@xmean NumR (concat (map f q)))) = Ok r -> xnn r) as D.
  { intros f Hf r' E'. destruct (@bcast (list R) (list R) Y T) as [p|]; cbn [rbind] in E'; [|discriminate].
    destruct (@bcast (list R * list R) R p Rv) as [q|]; cbn [rbind] in E'; [|discriminate]. injection E' as <-. apply xmean_nn, cmap_nn, Hf. }
  assert (forall (f : (list R * list R) * R -> @xnum NumR), (forall a, xnn (f a)) ->
    forall r, (let? p := @bcast (list R) (list R) Y T in let? q := @bcast (list R * list R) R p Rv in Ok (@xmean NumR (map f q))) = Ok r -> xnn r) as D1.
  { intros f Hf r' E'. destruct (@bcast (list R) (list R) Y T) as [p|]; cbn [rbind] in E'; [|discriminate].
    destruct (@bcast (list R * list R) R p Rv) as [q|]; cbn [rbind] in E'; [|discriminate]. injection E' as <-. apply xmean_nn, map_nn, Hf. }
  destruct (e_class e) as [s|] eqn:Ecl.
  2:{ eapply D; [|exact Er]. intros a. apply map2_nn. intros; apply xsq_div_nn. }
  repeat match type of Er with match ?y with _ => _ end = _ => first [is_var y; destruct y | destruct y eqn:?] end;
    try (eapply D; [|exact Er]; intros ?; apply map2_nn; intros; apply xsq_div_nn);
    try (eapply D1; [|exact Er]; intros ?; apply xsq_div_nn).
  destruct (mapM _ (seq 0 _)) as [errc|] eqn:Em; cbn [rbind] in Er; [|discriminate].
  destruct (e_wc e) as [w|] eqn:Ew; [|discriminate].
  destruct (bcast errc w) as [p|] eqn:Ep; cbn [rbind] in Er; [|discriminate]. injection Er as <-.
  specialize (Hw ltac:(unfold is_wc; rewrite Ecl; reflexivity) w Ew). apply xmean_nn.
  assert (Forall xnn errc) as He.
  { eapply mapM_Forall; [|exact Em]. cbn beta. intros i b Eb. eapply class_err_nn; [|exact Eb]. intros; apply xsq_div_nn. }
  pose proof (bcast_Forall _ _ _ _ _ He Hw Ep) as Hp. apply Forall_forall. intros y Hy. apply in_map_iff in Hy as ([a b] & <- & Hab).
  eapply Forall_forall in Hp; [|exact Hab]. destruct Hp. now apply xmul_nn.
Qed.

Section Select.
Context {SG : @Sing NumR} {BR : @Brent NumR} {SH : Shuffle}.

Lemma xfin_nn : forall x v, xnn x -> @xfin NumR x = Ok v -> 0 <= v.
Proof. intros [a| | |] v H E; cbn in E; try discriminate. injection E as <-. exact H. Qed.
Lemma sub_error_nn : forall e HH HT Hv Tv ix v, weights_nn e -> sub_error e HH HT Hv Tv ix = Ok v -> 0 <= v.
Proof. intros e HH HT Hv Tv ix v Hw E. unfold sub_error in E. destruct (error_ _ _ _) as [x|] eqn:Ex; cbn [rbind] in E; [|discriminate]. eapply xfin_nn; [eapply error_nn; eauto|exact E]. Qed.
Lemma full_error_nn : forall e HH HT Hv Tv v, weights_nn e -> full_error e HH HT Hv Tv = Ok v -> 0 <= v.
Proof. intros e HH HT Hv Tv v Hw E. unfold full_error in E. destruct (error_ _ _ _) as [x|] eqn:Ex; cbn [rbind] in E; [|discriminate]. eapply xfin_nn; [eapply error_nn; eauto|exact E]. Qed.
Lemma loo_error_nn : forall e n H HH HT T v, weights_nn e -> loo_error e n H HH HT T = Ok v -> 0 <= v.
Proof.
  intros e n H HH HT T v Hw E. unfold loo_error in E. destruct (inv n HH) as [P|]; cbn [rbind] in E; [|discriminate].
  destruct (press_ _ _ _ _) as [x|] eqn:Ex; cbn [rbind] in E; [|discriminate]. eapply xfin_nn; [eapply press_nn; eauto|exact E].
Qed.
Lemma avg_nn : forall f k fds acc v, (forall fd a, f fd = Ok a -> 0 <= a) -> 0 <= acc -> avg_folds f k fds acc = Ok v -> 0 <= v.
Proof.
  induction fds as [|fd fds IH]; intros acc v Hf Ha E; cbn [avg_folds] in E; [injection E as <-; auto|].
  destruct (f fd) as [a|] eqn:Ea; cbn [rbind] in E; [|discriminate]. eapply IH; [exact Hf| |exact E]. apply Hf in Ea.
  change (@nadd NumR acc (@ndiv NumR a (@nof_nat NumR k))) with (acc + a / @nof_nat NumR k). rewrite nof_nat_INR.
  apply Rplus_le_le_0_compat; auto. unfold Rdiv. destruct k; [change (INR 0) with 0; rewrite Rinv_0; lra|].
  apply Rmult_le_pos; auto. left. apply Rinv_0_lt_compat. apply lt_0_INR. lia.
Qed.
Lemma penalty_nn : forall err L, 0 <= err -> (0 < L)%nat -> 0 <= @penalty_of NumR err L.
Proof.
  intros err L H HL. unfold penalty_of. rewrite !nof_nat_INR. cbn [ndiv nmul n1 NumR].
  assert (0 < INR 100) by (apply lt_0_INR; lia). assert (0 < INR L) by (apply lt_0_INR; lia).
  unfold Rdiv. repeat apply Rmult_le_pos; auto; try lra; left; apply Rinv_0_lt_compat; auto.
Qed.

(** what a search over the sizes lo..L with errors [err_at] returns *)
Definition penalised (err_at : Z -> res R) (pen : R) (i : Z) (v : R) : Prop := exists w, err_at i = Ok w /\ v = w + INR (Z.to_nat i) * pen.

(** [k] was chosen: [t] is the table of penalised errors (-1 where nothing was evaluated) *)
Record chosen (err_at : Z -> res R) (full pen : R) (lo L : Z) (size : nat) (k : Z) (m : R) (t : list R) : Prop := {
  ch_range : (lo <= k <= L)%Z;
  ch_min : at_ t k = m;
  ch_table : forall i, (0 <= i <= Z.of_nat size)%Z -> known t i ->
    (lo <= i <= L)%Z /\ (i = L /\ at_ t i = full + INR (Z.to_nat L) * pen \/ penalised err_at pen i (at_ t i));
  ch_low : known t lo;
  ch_full : at_ t L = full + INR (Z.to_nat L) * pen;
  ch_known : known t k;
  ch_best : forall i, (0 <= i <= Z.of_nat size)%Z -> known t i -> m <= at_ t i;
  ch_few : (1 <= lo)%Z -> exists qs : list Z, (Z.of_nat (length qs) <= 6 * Z.log2_up L + 5)%Z /\
    forall i, (0 <= i <= Z.of_nat size)%Z -> known t i -> In i qs;
  ch_near : (1 <= lo)%Z -> forall f o, valley f lo L o -> (lo <= o <= L)%Z -> (forall i, (lo <= i <= L)%Z -> 0 <= f i) ->
    f L = full + INR (Z.to_nat L) * pen -> (forall i v, (lo <= i < L)%Z -> penalised err_at pen i v -> v = f i) ->
    (Z.abs (k - o) <= 4 * Z.log2_up L)%Z }.

Lemma search_chosen : forall (err_at : Z -> res R) full pen lo L size, (0 <= lo <= L)%Z -> (L <= Z.of_nat size)%Z ->
  0 <= full -> 0 <= pen -> (forall i v, err_at i = Ok v -> 0 <= v) ->
  let ev := fun idx => let? v := err_at idx in Ok (@nadd NumR v (@nmul NumR (nof_Z idx) pen)) in
  let tbl := @init_table NumR size L (@nadd NumR full (@nmul NumR (nof_nat (Z.to_nat L)) pen)) in
  (exists m k t, @search_from NumR ev tbl lo L = Ok (m, k, t) /\ chosen err_at full pen lo L size k m t) \/
  (exists x i, (lo <= i <= L)%Z /\ err_at i = Err x /\ @search_from NumR ev tbl lo L = Err x).
Proof.
  intros err_at full pen lo L size Hlo HL Hf Hp He ev tbl.
  assert (forall i v, ev i = Ok v <-> penalised err_at pen i v) as Hev.
  { intros i v. unfold ev, penalised. destruct (err_at i) as [w|]; cbn [rbind].
    - unfold nof_Z. rewrite nof_nat_INR. split; [intros E; injection E as <-; exists w; split; reflexivity|intros (w' & Ew & ->); injection Ew as <-; reflexivity].
    - split; [discriminate|intros (w & Ew & _); discriminate]. }
  unfold tbl. rewrite nof_nat_INR. change (@nadd NumR full (@nmul NumR (INR (Z.to_nat L)) pen)) with (full + INR (Z.to_nat L) * pen).
  set (eL := full + INR (Z.to_nat L) * pen).
  assert (0 <= eL) as HeL by (unfold eL; apply Rplus_le_le_0_compat; auto; apply Rmult_le_pos; auto; apply pos_INR).
  assert (positive ev lo L eL) as HP.
  { intros i v (Hi & [(-> & ->)|E]); [auto|]. apply Hev in E as (w & Ew & ->). apply He in Ew. apply Rplus_le_le_0_compat; auto. apply Rmult_le_pos; auto; apply pos_INR. }
  destruct (search_from_spec ev lo L eL size ltac:(lia) ltac:(lia) HL) as [(m & k & t & E & Hk & Hm & Hrec & Hpos)|(x & i & Hi & Ei & E)].
  - left. destruct (Hpos HP) as (Hr & Klo & KL & AL & Hbest). exists m, k, t. split; [exact E|].
    assert (0 <= m) as Hm0 by (apply (HP k m Hr)). constructor; auto.
    + intros i Hi Kn. destruct (Hrec i Hi Kn) as (H1 & [(-> & H2)|H2]); [split; [lia|left; auto]|]. split; [lia|right]. now apply Hev.
    + unfold known. rewrite Hm. lra.
    + intros Hlo1. destruct (search_queries ev lo L eL size Hlo1 ltac:(lia) HL) as (qs & Q1 & _ & _ & Q2). exists qs. split; [exact Q1|].
      intros i Hi Kn. exact (Q2 m k t E i Hi Kn).
    + intros Hlo1 f o Hv Ho Hf0 HfL Hfi. eapply (search_valley ev f lo L o size); auto; try lia.
      * intros i v Hi Ei. apply Hev in Ei. apply Hfi; auto.
      * rewrite HfL. exact E.
  - right. exists x, i. split; [auto|]. split; [|exact E]. unfold ev in Ei. destruct (err_at i); cbn [rbind] in Ei; [discriminate|]. congruence.
Qed.

(** the search never runs out of steps *)
Lemma search_nf : forall (ev : Z -> res R) lo L eL size, (0 <= lo)%Z -> (lo <= L)%Z -> (L <= Z.of_nat size)%Z -> (forall i, nf (ev i)) ->
  nf (@search_from NumR ev (@init_table NumR size L eL) lo L).
Proof.
  intros ev lo L eL size H0 H1 H2 Hn. destruct (search_from_spec ev lo L eL size H0 H1 H2) as [(m & k & t & E & _)|(x & i & _ & Ei & E)].
  - cbn [num NumR] in *. rewrite E. apply nf_ok.
  - cbn [num NumR] in *. rewrite E. intros C. apply (Hn i). rewrite Ei. congruence.
Qed.
End Select.
