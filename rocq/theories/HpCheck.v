(** C81, C82: which data arguments and files are accepted by HPELM, and what a
    failing call leaves behind.  For every scalar type. *)
From Verif Require Import Base Num Mat LinAlg Slfn Strs Elm Hpelm Async MatFacts SplitProofs Spec ElmFacts ArgThms RangeThms.
Local Open Scope nat_scope.

Section HpCheck.
Context {K : Num} {SG : Sing}.

(** the columns and rows a data argument holds, if it is a numeric array with one or
    two dimensions or a readable file *)
Definition src_rows (a : src) : option (nat * mat) :=
  match a with SArr x => as_rows x | SFile c => c end.
Definition given (d : nat) (a : src) (m : mat) : Prop := src_rows a = Some (d, m).

(** the exception: a file that cannot be read, or data of the wrong kind or shape *)
Definition refusal (x : exn) : Prop := x = IOError \/ x = AssertionError.

Lemma src_spec : forall a d, (forall m, given d a m -> check_src a d = Ok m) /\
  ((forall m, ~ given d a m) -> exists x, check_src a d = Err x /\ refusal x).
Proof.
  intros [a|[[c m]|]] d; unfold given; cbn [src_rows check_src].
  - destruct (check_spec a d) as [A B]. split; [exact A|]. intros H. exists AssertionError. split; [now apply B|now right].
  - split; [intros m' H; injection H as -> ->; now rewrite Nat.eqb_refl|]. intros H.
    destruct (Nat.eqb_spec c d) as [->|_]; [exfalso; eapply H; reflexivity|]. exists AssertionError. split; [reflexivity|now right].
  - split; [discriminate|]. intros _. exists IOError. split; [reflexivity|now left].
Qed.
Lemma given_dec : forall d a, (exists m, given d a m) \/ (forall m, ~ given d a m).
Proof.
  intros d a. unfold given. destruct (src_rows a) as [[c m]|]; [|right; discriminate].
  destruct (Nat.eq_dec c d) as [->|N]; [left; eauto|right]. intros m' C. congruence.
Qed.

(** the pair of data arguments of train, add_data, validation_corr *)
Definition given2 (e : elm) (fX fT : src) (x t : mat) : Prop :=
  given (s_inputs (e_net e)) fX x /\ given (s_outputs (e_net e)) fT t /\ length x = length t.
Definition arr2 (d : nat) (m : mat) : src := SArr (Arr2 d m).

Lemma hp_check_spec : forall e fX fT,
  (forall x t, given2 e fX fT x t -> hp_check e fX fT = Ok (x, t)) /\
  ((forall x t, ~ given2 e fX fT x t) -> exists y, hp_check e fX fT = Err y /\ refusal y).
Proof.
  intros e fX fT. unfold hp_check, given2.
  destruct (src_spec fX (s_inputs (e_net e))) as [A B], (src_spec fT (s_outputs (e_net e))) as [A' B']. split.
  - intros x t (Hx & Ht & L). rewrite (A x Hx), (A' t Ht). cbn [rbind]. rewrite L, Nat.eqb_refl. reflexivity.
  - intros H. destruct (given_dec (s_inputs (e_net e)) fX) as [[x Hx]|Hx]; [|destruct (B Hx) as (y & -> & R); cbn; eauto].
    rewrite (A x Hx). cbn [rbind].
    destruct (given_dec (s_outputs (e_net e)) fT) as [[t Ht]|Ht]; [|destruct (B' Ht) as (y & -> & R); cbn; eauto].
    rewrite (A' t Ht). cbn [rbind]. destruct (Nat.eqb_spec (length x) (length t)); [exfalso; eapply H; eauto|].
    exists AssertionError. split; [reflexivity|now right].
Qed.
Lemma given2_arr : forall e x t, length x = length t -> given2 e (arr2 (s_inputs (e_net e)) x) (arr2 (s_outputs (e_net e)) t) x t.
Proof. intros. split; [reflexivity|]. split; [reflexivity|assumption]. Qed.

(** files and arrays with the same contents are interchangeable *)
Theorem hp_source : forall e fX fT x t, given2 e fX fT x t ->
  let aX := arr2 (s_inputs (e_net e)) x in let aT := arr2 (s_outputs (e_net e)) t in
  (forall args kw i c, hp_train e fX fT args kw i c = hp_train e aX aT args kw i c) /\
  (forall i c fs, hp_add_data e fX fT i c fs = hp_add_data e aX aT i c fs) /\
  (forall fs Ls, validation_corr e fs fX fT Ls = validation_corr e fs aX aT Ls).
Proof.
  intros e fX fT x t H aX aT. pose proof (given2_arr e x t (proj2 (proj2 H))) as H'. fold aX aT in H'.
  assert (forall e' i c fs, s_inputs (e_net e') = s_inputs (e_net e) -> s_outputs (e_net e') = s_outputs (e_net e) ->
    hp_add_data e' fX fT i c fs = hp_add_data e' aX aT i c fs) as Q.
  { intros e' i c fs Ei Eo. unfold hp_add_data. destruct (s_neurons (e_net e')); [reflexivity|].
    assert (given2 e' fX fT x t /\ given2 e' aX aT x t) as [G G'] by (unfold given2; rewrite Ei, Eo; auto).
    rewrite (proj1 (hp_check_spec e' fX fT) _ _ G), (proj1 (hp_check_spec e' aX aT) _ _ G'). reflexivity. }
  split; [|split].
  - intros args kw i c. unfold hp_train. rewrite (proj1 (hp_check_spec e fX fT) _ _ H), (proj1 (hp_check_spec e aX aT) _ _ H').
    destruct (parse_args e args kw) as [e1 [u|y]] eqn:EP; [|reflexivity].
    assert (s_inputs (e_net e1) = s_inputs (e_net e) /\ s_outputs (e_net e1) = s_outputs (e_net e)) as [Ei Eo].
    { destruct (parse_args_forgets e args kw) as [(s & b & cl & w & o & k & Hs & E) _]. rewrite EP in E. cbn [fst] in E. subst e1.
      cbn [e_net]. destruct Hs as [->|[_ ->]]; split; reflexivity. }
    rewrite Q by auto. reflexivity.
  - intros. apply Q; reflexivity.
  - intros fs Ls. unfold validation_corr. rewrite (proj1 (hp_check_spec e fX fT) _ _ H), (proj1 (hp_check_spec e aX aT) _ _ H'). reflexivity.
Qed.

Theorem hp_source1 : forall e fX x, given (s_inputs (e_net e)) fX x -> let aX := arr2 (s_inputs (e_net e)) x in
  (forall d i c, hp_predict e fX d i c = hp_predict e aX d i c) /\ (forall d i c, hp_project e fX d i c = hp_project e aX d i c).
Proof.
  intros e fX x H aX. unfold hp_predict, hp_project. rewrite (proj1 (src_spec fX _) _ H). cbn [check_src aX arr2 check_arr].
  rewrite Nat.eqb_refl. auto.
Qed.
Theorem hp_source_error : forall e fT fY t y, let c := s_outputs (e_net e) in given c fT t -> given c fY y ->
  forall i n, hp_error e fT fY i n = hp_error e (arr2 c t) (arr2 c y) i n.
Proof.
  intros e fT fY t y c Ht Hy i n. unfold hp_error. fold c. rewrite (proj1 (src_spec fT _) _ Ht), (proj1 (src_spec fY _) _ Hy).
  cbn [check_src arr2 check_arr]. rewrite Nat.eqb_refl. reflexivity.
Qed.

(** everything else is refused, and nothing is changed *)
Theorem hp_refuses : forall e fX fT, (forall x t, ~ given2 e fX fT x t) -> exists y, refusal y /\
  (forall args kw i c, hp_train e fX fT args kw i c = (e, Err y)) /\
  (forall i c fs, hp_add_data e fX fT i c fs = (e, fs, Err (match s_neurons (e_net e) with [] => AssertionError | _ => y end))) /\
  (forall fs Ls, validation_corr e fs fX fT Ls = (e, Err y)) /\
  (forall args kw i c o pc, train_async e fX fT args kw i c o pc = (e, Err y)) /\
  (forall i c fs o pc, add_data_async e fX fT i c fs o pc = (e, fs, Err (match s_neurons (e_net e) with [] => AssertionError | _ => y end))).
Proof.
  intros e fX fT H. destruct (proj2 (hp_check_spec e fX fT) H) as (y & E & R). exists y. split; [exact R|].
  unfold hp_train, hp_add_data, validation_corr, train_async, add_data_async, add_prologue. rewrite E.
  repeat split; intros; destruct (s_neurons (e_net e)); reflexivity.
Qed.
Theorem hp_refuses1 : forall e fX, (forall x, ~ given (s_inputs (e_net e)) fX x) -> exists y, refusal y /\
  (forall d i c, exists z, refusal z /\ hp_predict e fX d i c = Err z) /\
  (forall d i c, exists z, refusal z /\ hp_project e fX d i c = Err z) /\
  (forall i c pc, exists z, refusal z /\ predict_async e fX i c pc = Err z) /\
  (s_neurons (e_net e) <> [] -> forall d i c, hp_project e fX d i c = Err y) /\
  (s_neurons (e_net e) <> [] -> s_B (e_net e) <> None -> forall d i c, hp_predict e fX d i c = Err y).
Proof.
  intros e fX H. destruct (proj2 (src_spec fX _) H) as (y & E & R). exists y. split; [exact R|].
  assert (refusal AssertionError) as RA by now right.
  unfold hp_predict, hp_project, predict_async. rewrite E. cbn [rbind].
  destruct (s_neurons (e_net e)) as [|n ns], (s_B (e_net e)) as [B|]; (split; [eauto|]); (split; [eauto|]); (split; [eauto|]);
    split; intros; congruence.
Qed.
Theorem hp_refuses_error : forall e fT fY, let c := s_outputs (e_net e) in
  (forall t, ~ given c fT t) \/ (forall y, ~ given c fY y) -> exists z, refusal z /\ forall i n, hp_error e fT fY i n = Err z.
Proof.
  intros e fT fY c H. unfold hp_error. fold c. destruct (given_dec c fT) as [[t Ht]|Ht].
  - destruct H as [H|H]; [exfalso; eapply H; eauto|]. rewrite (proj1 (src_spec fT c) _ Ht).
    destruct (proj2 (src_spec fY c) H) as (z & E & R). exists z. split; [exact R|]. intros. cbn [rbind]. rewrite E. reflexivity.
  - destruct (proj2 (src_spec fT c) Ht) as (z & E & R). exists z. split; [exact R|]. intros. rewrite E. reflexivity.
Qed.

(** the files fHH and fHT of solve_corr and validation_corr *)
Definition corr_ok (e : elm) (fs : corrfs) (HH HT : mat) : Prop := let L := getL (e_net e) in
  s_neurons (e_net e) <> [] /\ f_HH fs = Some (L, HH) /\ length HH = L /\
  f_HT fs = Some (s_outputs (e_net e), HT) /\ length HT = L.
Lemma checkcorr_spec : forall e fs,
  (forall HH HT, corr_ok e fs HH HT -> checkcorr e fs = Ok (HH, HT)) /\
  ((forall HH HT, ~ corr_ok e fs HH HT) -> exists y, checkcorr e fs = Err y /\ refusal y).
Proof.
  intros e fs. unfold checkcorr, corr_ok. assert (refusal AssertionError) as RA by now right. split.
  - intros HH HT (Hn & -> & H1 & -> & H2). rewrite H1, H2, !Nat.eqb_refl. cbn [andb]. destruct (s_neurons (e_net e)); [congruence|reflexivity].
  - intros H. destruct (f_HH fs) as [[w HH]|]; [|exists IOError; split; [reflexivity|now left]].
    destruct (f_HT fs) as [[w' HT]|]; [|exists IOError; split; [reflexivity|now left]].
    destruct (s_neurons (e_net e)) as [|n ns] eqn:En; [exists AssertionError; split; [reflexivity|exact RA]|].
    destruct (Nat.eqb_spec (length HH) (getL (e_net e))); [|exists AssertionError; split; [reflexivity|exact RA]]. destruct (Nat.eqb_spec w (getL (e_net e))); [|exists AssertionError; split; [reflexivity|exact RA]].
    destruct (Nat.eqb_spec (length HT) (getL (e_net e))); [|exists AssertionError; split; [reflexivity|exact RA]]. destruct (Nat.eqb_spec w' (s_outputs (e_net e))); [|exists AssertionError; split; [reflexivity|exact RA]].
    exfalso. apply (H HH HT). subst w w'. split; [discriminate|]. auto.
Qed.
Theorem corr_refuses : forall e fs, (forall HH HT, ~ corr_ok e fs HH HT) ->
  (exists y, refusal y /\ hp_solve_corr e fs = (e, Err y)) /\
  (forall fX fT Ls, exists y, refusal y /\ validation_corr e fs fX fT Ls = (e, Err y)).
Proof.
  intros e fs H. destruct (proj2 (checkcorr_spec e fs) H) as (y & E & R). split.
  - exists y. split; [exact R|]. unfold hp_solve_corr. now rewrite E.
  - intros fX fT Ls. unfold validation_corr. destruct (hp_check e fX fT) as [[x t]|z] eqn:EC.
    + rewrite E. eauto.
    + exists z. split; [|reflexivity]. destruct (hp_check_spec e fX fT) as [A B].
      destruct B as (z' & E' & R'). { intros x t G. rewrite (A _ _ G) in EC. discriminate. } congruence.
Qed.

(** ** what a failing add_data leaves behind *)
(** the network after nnet.add_batch was called, successfully, on these batches *)
Inductive added : slfn -> list (mat * mat) -> slfn -> Prop :=
| added_nil : forall s, added s [] s
| added_cons : forall s X T w s1 r s', add_batch s X T w = (s1, Ok tt) -> added s1 r s' -> added s ((X, T) :: r) s'.

Lemma fit_cols_ok : forall c r, length r = c -> fit_cols c r = Ok r.
Proof. intros c r <-. unfold fit_cols. now rewrite Nat.eqb_refl. Qed.
Lemma add_batch_fail : forall s X T w s' x, length X = length T -> wide (s_outputs s) T ->
  add_batch s X T w = (s', Err x) -> s' = s.
Proof.
  intros s X T w s' x HL HT. unfold add_batch.
  destruct (project s X) as [H|y] eqn:EP; [|cbn [rbind]; congruence]. cbn [rbind].
  assert (length H = length T) as EL. { apply project_inv in EP. destruct EP as (_ & _ & ->). now rewrite map_length. }
  assert (forall rs M M', scale_rows rs M = Ok M' -> length M' = length M) as SL.
  { intros rs M M' E. unfold scale_rows in E. destruct (Nat.eqb_spec (length rs) (length M)) as [El|_].
    - apply Ok_inj in E. subst. rewrite map2_length, El. apply Nat.min_id.
    - destruct rs as [|a [|b q]]; try discriminate. apply Ok_inj in E. subst. apply map_length. }
  assert (forall rs M, wide (s_outputs s) M -> forall M', scale_rows rs M = Ok M' -> wide (s_outputs s) M') as SW.
  { intros rs M HW M' E. unfold scale_rows in E. destruct (Nat.eqb_spec (length rs) (length M)) as [El|_].
    - apply Ok_inj in E. subst. clear -HW. unfold wide in *. revert rs. induction HW; intros [|r rs]; cbn; constructor; auto. now rewrite map_length.
    - destruct rs as [|a [|b q]]; try discriminate. apply Ok_inj in E. subst. unfold wide in *. clear -HW.
      induction HW; cbn; constructor; auto. now rewrite map_length. }
  match goal with |- context [match ?p with Ok _ => _ | Err _ => _ end] => destruct p as [[H' T']|y] eqn:Ep end; [|congruence].
  assert (length T' = length H' /\ wide (s_outputs s) T') as [E' W'].
  { destruct w as [ws|]; [|apply Ok_inj in Ep; injection Ep as <- <-; auto].
    match type of Ep with rbind ?q _ = _ => destruct q as [rs|y] end; [|discriminate]. cbn [rbind] in Ep.
    destruct (scale_rows rs H) as [H0|] eqn:EH; [|discriminate]. cbn [rbind] in Ep.
    destruct (scale_rows rs T) as [T0|] eqn:ET; [|discriminate]. cbn [rbind] in Ep. apply Ok_inj in Ep. injection Ep as <- <-.
    split; [rewrite (SL _ _ _ EH), (SL _ _ _ ET); auto|]. eapply SW; eauto. }
  rewrite E', Nat.eqb_refl. rewrite (mapM_ok_map _ (fun r => r)).
  2:{ intros r Hr. apply fit_cols_ok. unfold wide in W'. rewrite Forall_forall in W'. auto. }
  discriminate.
Qed.
Lemma add_batch_outputs : forall s X T w, s_outputs (fst (add_batch s X T w)) = s_outputs s.
Proof.
  intros. unfold add_batch. match goal with |- context [match ?p with Ok _ => _ | Err _ => _ end] => destruct p as [[H' T']|y] end; [|reflexivity].
  match goal with |- context [match ?p with Ok _ => _ | Err _ => _ end] => destruct p end; reflexivity.
Qed.
Lemma add_batches_fail : forall e c parts s s' x, s_outputs s = c ->
  Forall (fun p => length (fst p) = length (snd p) /\ wide c (snd p)) parts ->
  add_batches e s parts = (s', Err x) -> exists p q, parts = p ++ q /\ q <> [] /\ added s p s'.
Proof.
  induction parts as [|[X T] r IH]; intros s s' x Hc HF E; [discriminate|]. inversion HF as [|? ? [H1 H2] H3]; subst.
  cbn [add_batches fst snd] in *.
  match type of E with (match ?p with Ok _ => _ | Err _ => _ end) = _ => destruct p as [w|y] end.
  - destruct (add_batch s X T w) as [s1 [u|y]] eqn:EB.
    + destruct u. destruct (IH s1 s' x) as (p & q & -> & Hq & HA); auto.
      { pose proof (add_batch_outputs s X T w) as Q. rewrite EB in Q. exact Q. }
      exists ((X, T) :: p), q. split; [reflexivity|]. split; [exact Hq|]. econstructor; eauto.
    + injection E as <- <-. apply add_batch_fail in EB; auto. subst s1. exists [], ((X, T) :: r).
      split; [reflexivity|]. split; [discriminate|constructor].
  - injection E as <- <-. exists [], ((X, T) :: r). split; [reflexivity|]. split; [discriminate|constructor].
Qed.

(** the network [s'] has taken exactly the first [n] samples, in whole batches *)
Definition took (s : slfn) (X T : mat) (n : nat) (s' : slfn) : Prop := exists parts, added s parts s' /\
  concat (map fst parts) = firstn n X /\ concat (map snd parts) = firstn n T.

Lemma prefix_took : forall s (p q : list (mat * mat)) s' X T, added s p s' ->
  Forall (fun p => length (fst p) = length (snd p)) (p ++ q) ->
  concat (map fst (p ++ q)) = X -> concat (map snd (p ++ q)) = T -> exists n, n <= length X /\ took s X T n s'.
Proof.
  intros s p q s' X T HA HF EX ET. rewrite map_app, concat_app in EX, ET. exists (length (concat (map fst p))).
  assert (length (concat (map snd p)) = length (concat (map fst p))) as EL.
  { apply Forall_app in HF. destruct HF as [HF _]. clear -HF. induction HF as [|[a b] r Hp HF IH]; [reflexivity|].
    cbn in *. rewrite !app_length. lia. }
  subst X T. rewrite app_length. split; [lia|]. exists p. split; [exact HA|]. split.
  - now rewrite firstn_app, Nat.sub_diag, firstn_all, app_nil_r.
  - rewrite <- EL. now rewrite firstn_app, Nat.sub_diag, firstn_all, app_nil_r.
Qed.

Theorem add_data_fails : forall e X T e' x, length X = length T -> wide (s_outputs (e_net e)) T -> (0 < e_batch e)%Z ->
  add_data e X T = (e', Err x) -> exists n, n <= length X /\ took (e_net e) X T n (e_net e').
Proof.
  intros e X T e' x HL HT Hb E. destruct X as [|x0 X'].
  - exists 0. split; [lia|]. exists []. destruct T; [|discriminate]. split; [|split; reflexivity].
    assert (e_net e' = e_net e) as ->; [|constructor].
    unfold add_data in E. rewrite nbatches_pos in E by auto. cbn in E.
    destruct (Z.leb_spec (ceil_div 0 (e_batch e)) 0) as [_|N].
    + apply (f_equal fst) in E. cbn [fst] in E. rewrite <- E. apply fill_wc_net.
    + exfalso. pose proof (ceil_div_spec 0 (e_batch e) Hb). nia.
  - set (X := x0 :: X') in *. destruct (add_data_chunks_gen e X T Hb ltac:(discriminate) HL) as (parts & EX & ET & HP & _ & EQ).
    rewrite EQ in E. destruct (add_batches (fill_wc e T) (e_net e) parts) as [s' r] eqn:EB.
    injection E as <- ->. cbn [e_net with_net].
    assert (Forall (fun p => length (fst p) = length (snd p)) parts) as HF.
    { apply Forall_forall. intros [a b] Hin. apply (HP a b Hin). }
    assert (wide (s_outputs (e_net e)) (concat (map snd parts))) as HW by now rewrite ET.
    apply wide_concat in HW.
    destruct (add_batches_fail (fill_wc e T) (s_outputs (e_net e)) parts (e_net e) s' x eq_refl) as (p & q & -> & _ & HA); auto.
    { rewrite Forall_forall in *. intros p Hp. split; [auto|]. apply HW. now apply in_map. }
    eapply prefix_took; eauto.
Qed.
(** without class weights, and with a rectangular array of inputs, nothing at all is left behind *)
Theorem add_data_fails_plain : forall e X T c e' x, is_wc e = false -> length X = length T -> wide c X -> wide (s_outputs (e_net e)) T ->
  (0 < e_batch e)%Z -> add_data e X T = (e', Err x) -> e' = e.
Proof.
  intros e X T c e' x Hw HL HX HT Hb E.
  assert (fill_wc e T = e) as EF by (unfold fill_wc; now rewrite Hw).
  destruct X as [|x0 X'].
  - unfold add_data in E. rewrite nbatches_pos in E by auto. cbn in E. rewrite EF in E.
    destruct (Z.leb_spec (ceil_div 0 (e_batch e)) 0) as [_|N]; [congruence|].
    exfalso. pose proof (ceil_div_spec 0 (e_batch e) Hb). nia.
  - set (X := x0 :: X') in *. destruct (add_data_chunks_gen e X T Hb ltac:(discriminate) HL) as (parts & EX & ET & HP & _ & EQ).
    rewrite EQ, EF in E. clear EQ.
    assert (forall a b, In (a, b) parts -> wide c a /\ wide (s_outputs (e_net e)) b /\ length a = length b /\ a <> []) as HA.
    { intros a b Hin. assert (wide c (concat (map fst parts))) as W1 by now rewrite EX.
      assert (wide (s_outputs (e_net e)) (concat (map snd parts))) as W2 by now rewrite ET.
      apply wide_concat in W1. apply wide_concat in W2. rewrite Forall_forall in W1, W2.
      split; [apply W1; change a with (fst (a, b)); now apply in_map|]. split; [apply W2; change b with (snd (a, b)); now apply in_map|].
      destruct (HP a b Hin) as (H1 & H2 & _). split; [auto|]. intros ->. cbn in H2. lia. }
    destruct parts as [|[a b] r]; [discriminate|]. cbn [add_batches] in E. rewrite Hw in E.
    destruct (HA a b (or_introl eq_refl)) as (Wa & Wb & Lab & Na).
    destruct (add_batch (e_net e) a b None) as [s1 [u|y]] eqn:EB.
    + (* the first batch went through, so all of them do *)
      exfalso. assert (usable (e_net e) /\ c = s_inputs (e_net e)) as [HU Hc].
      { unfold add_batch in EB. destruct (project (e_net e) a) as [H|] eqn:EP; [|discriminate]. apply project_inv in EP.
        destruct EP as (HU & Wi & _). split; [exact HU|]. destruct a as [|r0 a]; [congruence|]. inversion Wa. inversion Wi. congruence. }
      assert (forall l s, usable s -> s_inputs s = c -> s_outputs s = s_outputs (e_net e) ->
        (forall a b, In (a, b) l -> In (a, b) r) -> snd (add_batches e s l) = Ok tt) as Q.
      { induction l as [|[a' b'] l IH]; intros s Us Is Os Hl; [reflexivity|]. cbn [add_batches]. rewrite Hw.
        destruct (HA a' b' (or_intror (Hl _ _ (or_introl eq_refl)))) as (Wa' & Wb' & L' & _).
        unfold add_batch. rewrite project_ok by (try rewrite Is; auto). cbn [rbind].
        rewrite map_length, <- L', Nat.eqb_refl.
        rewrite (mapM_ok_map _ (fun r => r)); [|intros r' Hr; apply fit_cols_ok; unfold wide in Wb'; rewrite Forall_forall in Wb'; rewrite Os; auto].
        apply IH; auto. intros; apply Hl; now right. }
      assert (s_neurons s1 = s_neurons (e_net e) /\ s_inputs s1 = s_inputs (e_net e) /\ s_outputs s1 = s_outputs (e_net e)) as (E1 & E2 & E3).
      { apply (f_equal fst) in EB. cbn [fst] in EB. rewrite <- EB. unfold add_batch.
        match goal with |- context [match ?p with Ok _ => _ | Err _ => _ end] => destruct p as [[? ?]|?] end; [|auto].
        match goal with |- context [match ?p with Ok _ => _ | Err _ => _ end] => destruct p end; auto. }
      specialize (Q r s1). unfold usable in *. rewrite E1, E2, E3 in Q.
      destruct (add_batches e s1 r) as [s2 r2]. cbn [snd] in Q. rewrite Q in E; auto. congruence.
    + apply add_batch_fail in EB; auto. subst s1. injection E as <- _. destruct e; reflexivity.
Qed.

(** HPELM.add_data without files *)
Theorem hp_add_data_fails : forall e fX fT x t i c e' fs' y, given2 e fX fT x t -> wide (s_outputs (e_net e)) t ->
  (0 < e_batch e)%Z -> i <= length x ->
  hp_add_data e fX fT (Z.of_nat i) (zcount c) None = (e', fs', Err y) ->
  exists n, n <= length (range_of x i c) /\ took (e_net e) (range_of x i c) (range_of t i c) n (e_net e').
Proof.
  intros e fX fT x t i c e' fs' y G HT Hb Hi E. unfold hp_add_data in E.
  destruct (s_neurons (e_net e)) as [|n0 ns].
  { injection E as <- _ _. exists 0. split; [lia|]. exists []. split; [constructor|]. auto. }
  rewrite (proj1 (hp_check_spec e fX fT) _ _ G) in E. pose proof (proj2 (proj2 G)) as HL.
  rewrite nbatches_pos in E by auto. set (cnt := clip_count (zcount c) (length x) (Z.of_nat i)) in *.
  set (rs := ranges _ _ _ _) in *. set (e1 := hp_fill_wc e t rs) in *.
  assert (e_net e1 = e_net e) as En. { unfold e1, hp_fill_wc. destruct (is_wc e); [|reflexivity]. destruct (e_wc e); reflexivity. }
  rewrite En in E. destruct (add_batches e1 (e_net e) (hp_batches x t rs)) as [s' [u|z]] eqn:EB; [discriminate|].
  injection E as <- _ <-. cbn [e_net with_net].
  assert (0 <= cnt /\ Z.of_nat i + cnt <= Z.of_nat (length x))%Z as [Hc0 Hc1].
  { unfold cnt. destruct c as [k|]; cbn [zcount option_map clip_count]; lia. }
  pose proof (ranges_tiles (e_batch e) (Z.of_nat i) cnt Hb Hc0) as HTi. fold rs in HTi.
  assert (map fst (hp_batches x t rs) = map (fun ab => slice x (fst ab) (snd ab)) rs) as M1 by (unfold hp_batches; now rewrite map_map).
  assert (map snd (hp_batches x t rs) = map (fun ab => slice t (fst ab) (snd ab)) rs) as M2 by (unfold hp_batches; now rewrite map_map).
  assert (Forall (fun p => length (fst p) = length (snd p)) (hp_batches x t rs)) as HF.
  { unfold hp_batches. apply Forall_forall. intros p Hp. apply in_map_iff in Hp. destruct Hp as (ab & <- & _). cbn [fst snd].
    unfold slice. rewrite !firstn_length, !skipn_length. rewrite HL. reflexivity. }
  destruct (add_batches_fail e1 (s_outputs (e_net e)) (hp_batches x t rs) (e_net e) s' z eq_refl) with (2 := EB) as (p & q & Epq & _ & HA).
  { rewrite Forall_forall in *. intros p Hp. split; [auto|]. unfold hp_batches in Hp. apply in_map_iff in Hp. destruct Hp as (ab & <- & _).
    cbn [snd]. now apply Forall_wide_slice. }
  rewrite Epq in HF, M1, M2.
  eapply prefix_took; eauto.
  - rewrite M1, (tiles_concat x (e_batch e) rs (Z.of_nat i) (Z.of_nat i + cnt)%Z) by (auto; lia). unfold cnt. apply slice_range; lia.
  - rewrite M2, (tiles_concat t (e_batch e) rs (Z.of_nat i) (Z.of_nat i + cnt)%Z) by (auto; lia). unfold cnt. rewrite HL. apply slice_range; lia.
Qed.

(** HPELM.add_data with files: a failing call does not change files that exist, and
    creates at most the empty ones *)
Theorem hp_add_data_files_kept : forall e fX fT i c fs e' fs' y,
  hp_add_data e fX fT i c (Some fs) = (e', fs', Err y) -> exists f, fs' = Some f /\
    (forall m, f_HH fs = Some m -> f_HH f = Some m) /\ (forall m, f_HT fs = Some m -> f_HT f = Some m) /\
    (f_HH fs = None -> f_HH f = None \/ f_HH f = Some (nneurons (s_neurons (e_net e)), scaled_eye (nneurons (s_neurons (e_net e))) (s_norm (e_net e)))) /\
    (f_HT fs = None -> f_HT f = None \/ f_HT f = Some (s_outputs (e_net e), zero_mat (nneurons (s_neurons (e_net e))) (s_outputs (e_net e)))).
Proof.
  intros e fX fT i c fs e' fs' y E. assert (exists Lf, Lf = nneurons (s_neurons (e_net e)) /\ getL (reset (e_net e)) = Lf) as (Lf & EL & HG) by eauto.
  rewrite <- EL. clear EL. unfold hp_add_data in E.
  destruct (s_neurons (e_net e)) as [|n0 ns]. { injection E as _ <- _. exists fs. auto 8. }
  destruct (hp_check e fX fT) as [[x t]|z]; [|injection E as _ <- _; exists fs; auto 8].
  pose (P := fun f => (forall m, f_HH fs = Some m -> f_HH f = Some m) /\ (forall m, f_HT fs = Some m -> f_HT f = Some m) /\
    (f_HH fs = None -> f_HH f = None \/ f_HH f = Some (Lf, scaled_eye (Lf) (s_norm (e_net e)))) /\
    (f_HT fs = None -> f_HT f = None \/ f_HT f = Some (s_outputs (e_net e), zero_mat (Lf) (s_outputs (e_net e))))).
  change (exists f, fs' = Some f /\ P f).
  assert (P (snd (fst (prepare_fs (e_net e) fs))) /\ (snd (prepare_fs (e_net e) fs) = Ok tt ->
    exists a b, f_HH (snd (fst (prepare_fs (e_net e) fs))) = Some a /\ f_HT (snd (fst (prepare_fs (e_net e) fs))) = Some b)) as [HP HO].
  { unfold prepare_fs, P. rewrite HG. cbn [s_outputs s_norm reset].
    destruct fs as [[[w m]|] [[w' m']|]]; cbn [f_HH f_HT].
    - destruct (_ && _); [|cbn; split; [repeat split; auto; discriminate|discriminate]]. cbn [f_HT]. destruct (_ && _); cbn; (split; [repeat split; auto; discriminate|]); [eauto|discriminate].
    - destruct (_ && _); cbn; (split; [repeat split; auto; discriminate|]); [eauto|discriminate].
    - destruct (_ && _); cbn; (split; [repeat split; auto; discriminate|]); [eauto|discriminate].
    - cbn. split; [repeat split; auto; discriminate|eauto]. }
  destruct (prepare_fs (e_net e) fs) as [[s f] r] eqn:EP. cbn [fst snd] in *.
  destruct r as [u|z]; [|injection E as _ <- _; eauto].
  destruct (nbatches _ _) as [nb|z]; [|injection E as _ <- _; eauto].
  match type of E with context [add_batches ?a ?b ?l] => destruct (add_batches a b l) as [s1 [u1|z]] end; [|injection E as _ <- _; eauto].
  destruct u. destruct (HO eq_refl) as (a & b & Ea & Eb). destruct a as [wa ma], b as [wb mb].
  unfold write_fs in E. rewrite Ea, Eb in E. destruct (get_corr s1) as [[[HH HT]|]|z]; [discriminate| |]; injection E as _ <- _; eauto.
Qed.
End HpCheck.
