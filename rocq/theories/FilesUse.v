(** Histories of calls with file names; the named methods against those of Hpelm.v. *)
From Verif Require Import Base Num Mat LinAlg Slfn Strs Elm Hpelm Files FilesThms WfProofs.
Local Open Scope string_scope.
Local Open Scope list_scope.

Section Use.
Context {K : Num} {SG : Sing}.
Context (junk : option (nat * mat)).

(** ** Asynchronous calls with two files *)
Definition quiet (p p1 : proc) : Prop := p_left p1 = p_left p /\ forall n, p_store p1 n = p_store p n.
Lemma opens_quiet p p1 l : opens p p1 l -> quiet p p1.
Proof. intros (_ & A & B). split; assumption. Qed.
Lemma quiet_trans p q r : quiet p q -> quiet q r -> quiet p r.
Proof. intros (A & B) (A' & B'). split; [congruence|]. intros n. rewrite B'. apply B. Qed.

Lemma async_start_effect e p x t p1 r : f_async_start e p (GName x) (GName t) = (p1, r) ->
  quiet p p1 /\ (exists k, p_opened p1 = k ++ p_opened p) /\ (is_ok r = true -> p_opened p1 = p_opened p).
Proof.
  unfold f_async_start. destruct (s_neurons (e_net e)).
  { intros [= <- <-]. split; [split; reflexivity|]. split; [exists []; reflexivity|reflexivity]. }
  destruct (f_check e p (GName x) (GName t)) as [q [[Xm Tm]|y]] eqn:E; destruct (check_opens _ _ _ _ _ _ E) as ((a & b & L & O) & H).
  - specialize (H eq_refl). cbn in H. pose proof (opens_quiet _ _ _ H) as Q. destruct H as (H & _).
    cbn in H. rewrite H. intros [= <- <-]. split; [exact Q|]. split; [exists []; reflexivity|reflexivity].
  - intros [= <- <-]. split; [eapply opens_quiet; exact O|]. split; [|discriminate]. exists (rev a). apply O.
Qed.
Lemma train_async_effect e p x t args kw e1 p1 r : f_train_async_start e p (GName x) (GName t) args kw = (e1, p1, r) ->
  quiet p p1 /\ (exists k, p_opened p1 = k ++ p_opened p) /\ (is_ok r = true -> p_opened p1 = [t; x] ++ p_opened p).
Proof.
  unfold f_train_async_start.
  destruct (f_check e p (GName x) (GName t)) as [q [[Xm Tm]|y]] eqn:E; destruct (check_opens _ _ _ _ _ _ E) as ((a & b & L & O) & H).
  - specialize (H eq_refl). cbn in H. pose proof (opens_quiet _ _ _ H) as Q. destruct H as (H & _). cbn in H.
    destruct (parse_args e args kw) as [e2 [u|y]].
    + destruct (f_async_start e2 q (GName x) (GName t)) as [q2 r2] eqn:F.
      destruct (async_start_effect _ _ _ _ _ _ F) as (Q2 & (k & G) & Gok). intros [= <- <- <-].
      split; [eapply quiet_trans; eauto|]. split; [exists (k ++ [t; x]); rewrite G, H, <- app_assoc; reflexivity|].
      intros R. rewrite (Gok R). exact H.
    + intros [= <- <- <-]. split; [exact Q|]. split; [exists [t; x]; exact H|discriminate].
  - intros [= <- <- <-]. split; [eapply opens_quiet; exact O|]. split; [|discriminate]. exists (rev a). apply O.
Qed.

(** ** One call, in a form that covers the asynchronous ones *)
Lemma unit_of_ok {A} (r : res A) : is_ok (unit_of r) = is_ok r.
Proof. destruct r; reflexivity. Qed.
Theorem call_summary c e p e1 p1 r : odd_async c = false -> f_call junk c e p = (e1, p1, r) ->
  (exists k, p_opened p1 = k ++ p_opened p) /\
  (is_ok r = true -> p_opened p1 = rev (stays c) ++ p_opened p /\ p_left p1 = p_left p) /\
  (forall n, (In n (writes c) /\ ~ In n (p_opened p1)) \/ p_store p1 n = p_store p n) /\
  (forall h, In h (p_left p1) -> In h (p_left p) \/ In (fst h) (writes c)).
Proof.
  intros D E. destruct (is_async c) eqn:A.
  - destruct c as [X T args kw i n|X T i n corr|a b|X Y i n|X Y i n|T Y i n|a b X T Ls|X T|X T args kw|n v|n f|f]; try discriminate A.
    + destruct X as [x|x], T as [t|t]; try discriminate D. cbn [f_call] in E.
      destruct (f_async_start e p (GName x) (GName t)) as [q o] eqn:F. injection E as <- <- <-. rewrite unit_of_ok.
      destruct (async_start_effect _ _ _ _ _ _ F) as ((L & S) & G & H).
      split; [exact G|]. split; [intros R; split; [exact (H R)|exact L]|]. split; [intros n; right; apply S|].
      intros h. rewrite L. auto.
    + destruct X as [x|x], T as [t|t]; try discriminate D. cbn [f_call] in E.
      destruct (f_train_async_start e p (GName x) (GName t) args kw) as [[e2 q] o] eqn:F. injection E as <- <- <-. rewrite unit_of_ok.
      destruct (train_async_effect _ _ _ _ _ _ _ _ _ F) as ((L & S) & G & H).
      split; [exact G|]. split; [intros R; split; [exact (H R)|exact L]|]. split; [intros n; right; apply S|].
      intros h. rewrite L. auto.
  - destruct (call_effect junk _ _ _ _ _ _ A E) as ((l & m & L & O & M) & Lf & S).
    assert (St : stays c = reads c) by (destruct c; try reflexivity; discriminate A).
    split; [exists (rev l); exact O|]. split; [|split; [exact S|]].
    + intros R. rewrite St, <- L, (M R), app_nil_r. split; [exact O|].
      destruct Lf as [Lf|(Lf & _)]; [exact Lf|congruence].
    + intros h I. destruct Lf as [Lf|(_ & n & md & W & Lf)]; rewrite Lf in I; [left; exact I|].
      destruct I as [<-|I]; [right; exact W|left; exact I].
Qed.

(** ** Histories *)
Definition usual (cs : list fcall) : Prop := forallb (fun c => negb (odd_async c)) cs = true.
Theorem run_summary : forall cs e p e1 p1 os, usual cs -> f_run junk cs e p = (e1, p1, os) ->
  (exists k, p_opened p1 = k ++ p_opened p) /\
  (forallb is_ok os = true -> p_opened p1 = rev (flat_map stays cs) ++ p_opened p /\ p_left p1 = p_left p) /\
  (forall n, In n (p_opened p) -> p_store p1 n = p_store p n) /\
  (forall n, (forall c, In c cs -> ~ In n (writes c)) -> p_store p1 n = p_store p n).
Proof.
  unfold usual. induction cs as [|c cs IH]; cbn [f_run forallb flat_map]; intros e p e1 p1 os D E.
  - injection E as <- <- <-. split; [exists []; reflexivity|]. split; [split; reflexivity|]. split; reflexivity.
  - apply andb_true_iff in D as [D1 D2]. apply negb_true_iff in D1.
    destruct (f_call junk c e p) as [[e2 p2] o] eqn:F. destruct (f_run junk cs e2 p2) as [[e3 p3] os2] eqn:G. injection E as <- <- <-.
    destruct (call_summary _ _ _ _ _ _ D1 F) as ((k & O) & H & S & _). destruct (IH _ _ _ _ _ D2 G) as ((k2 & O2) & H2 & S2 & W2).
    split; [exists (k2 ++ k); rewrite O2, O, app_assoc; reflexivity|]. split; [|split].
    + cbn. rewrite andb_true_iff. intros [R1 R2]. destruct (H R1) as (A & B), (H2 R2) as (A2 & B2).
      rewrite A2, A, rev_app_distr, app_assoc. split; [reflexivity|congruence].
    + intros n I. rewrite S2 by (rewrite O; apply in_or_app; right; exact I).
      destruct (S n) as [(_ & N)|Q]; [|exact Q]. exfalso. apply N. rewrite O. apply in_or_app. right. exact I.
    + intros n I. rewrite W2 by (intros c' I'; apply I; right; exact I').
      destruct (S n) as [(W & _)|Q]; [|exact Q]. exfalso. apply (I c); [left; reflexivity|exact W].
Qed.

(** a file the model has open cannot be written: the calls raise, nothing changes *)
Theorem open_file_blocks : forall c e p e1 p1 r n, odd_async c = false -> In n (p_opened p) ->
  match c with
  | FCPredict _ (GFile m) _ _ | FCProject _ (GFile m) _ _ | FCMake m _ | FCNormalize m _ => m = n
  | _ => False
  end ->
  f_call junk c e p = (e1, p1, r) -> is_ok r = false /\ p_left p1 = p_left p /\ forall m, p_store p1 m = p_store p m.
Proof.
  assert (ST : forall p q n l cols cnt r p1 o, opens p q l -> In n (p_opened q) -> f_store junk q n cols cnt r = (p1, o) ->
    is_ok o = false /\ p_left p1 = p_left p /\ forall m, p_store p1 m = p_store p m).
  { intros p q n l cols cnt r p1 o (A & B & C) I. unfold f_store. rewrite may_open_read; [|exact I|discriminate].
    intros [= <- <-]. auto. }
  intros c e p e1 p1 r n D I M E.
  destruct c as [X T args kw i k|X T i k corr|a b|X Y i k|X Y i k|T Y i k|a b X T Ls|X T|X T args kw|m v|m f|f]; try contradiction.
  - destruct Y as [|y|y]; try contradiction. subst y. cbn [f_call] in E.
    destruct (f_predict junk e p X (GFile n) i k) as [q o] eqn:F. injection E as <- <- <-. rewrite unit_of_ok.
    revert F. unfold f_predict. destruct (s_neurons (e_net e)); [intros [= <- <-]; auto|].
    destruct (s_B (e_net e)); [|intros [= <- <-]; auto].
    destruct (f_check1 p X _ _) as [q1 [Xm|x]] eqn:F; destruct (check1_opens _ _ _ _ _ _ F) as ((lz & mz & L & O) & H).
    + destruct (H eq_refl) as (O1 & _). destruct (nbatches _ _).
      * intros F2. refine (ST _ _ _ _ _ _ _ _ _ O1 _ F2). destruct O1 as (O1 & _). rewrite O1. apply in_or_app. right. exact I.
      * intros [= <- <-]. split; [reflexivity|]. apply O1.
    + intros [= <- <-]. split; [reflexivity|]. apply O.
  - destruct Y as [|y|y]; try contradiction. subst y. cbn [f_call] in E.
    destruct (f_project junk e p X (GFile n) i k) as [q o] eqn:F. injection E as <- <- <-. rewrite unit_of_ok.
    revert F. unfold f_project. destruct (s_neurons (e_net e)); [intros [= <- <-]; auto|].
    destruct (f_check1 p X _ _) as [q1 [Xm|x]] eqn:F; destruct (check1_opens _ _ _ _ _ _ F) as ((lz & mz & L & O) & H).
    + destruct (H eq_refl) as (O1 & _). destruct (nbatches _ _).
      * intros F2. refine (ST _ _ _ _ _ _ _ _ _ O1 _ F2). destruct O1 as (O1 & _). rewrite O1. apply in_or_app. right. exact I.
      * intros [= <- <-]. split; [reflexivity|]. apply O1.
    + intros [= <- <-]. split; [reflexivity|]. apply O.
  - subst m. cbn [f_call] in E. unfold f_make in E. rewrite may_open_read in E; [|exact I|discriminate]. injection E as <- <- <-. auto.
  - subst m. cbn [f_call] in E. unfold f_normalize in E. rewrite may_open_read in E; [|exact I|discriminate]. injection E as <- <- <-. auto.
Qed.

(** ** With no foreign open files, the named methods are those of Hpelm.v on the contents *)
Lemma check1_src p a dim isT : p_left p = [] -> snd (f_check1 p a dim isT) = check_src (src_of p a) dim.
Proof.
  intros L. unfold f_check1. destruct a as [x|n]; cbn; [reflexivity|].
  destruct (p_store p n) as [[c m]|]; [|reflexivity]. rewrite may_open_free by auto. reflexivity.
Qed.
Lemma check1_state p a dim isT p1 r : p_left p = [] -> f_check1 p a dim isT = (p1, r) ->
  p_left p1 = [] /\ forall n, p_store p1 n = p_store p n.
Proof.
  intros L E. destruct (check1_opens _ _ _ _ _ _ E) as ((l & m & _ & O & B & C) & _). split; [congruence|exact C].
Qed.
Lemma src_of_ext p q a : (forall n, p_store q n = p_store p n) -> src_of q a = src_of p a.
Proof. intros H. destruct a; cbn; [reflexivity|]. rewrite H. reflexivity. Qed.
Lemma check_src_hp e p X T : p_left p = [] -> snd (f_check e p X T) = hp_check e (src_of p X) (src_of p T).
Proof.
  intros L. unfold f_check, hp_check. pose proof (check1_src p X (s_inputs (e_net e)) false L) as A.
  destruct (f_check1 p X _ false) as [q [x|x]] eqn:E; cbn in A; rewrite <- A; cbn; [|reflexivity].
  destruct (check1_state _ _ _ _ _ _ L E) as (L1 & S1).
  pose proof (check1_src q T (s_outputs (e_net e)) true L1) as B. rewrite (src_of_ext p q T S1) in B.
  destruct (f_check1 q T _ true) as [q2 [t|t]]; cbn in B; rewrite <- B; reflexivity.
Qed.
Lemma as_check e X T : hp_check e (as_X e X) (as_T e T) = if (length X =? length T)%nat then Ok (X, T) else Err AssertionError.
Proof. unfold hp_check, as_X, as_T. cbn. rewrite !Nat.eqb_refl. reflexivity. Qed.
Lemma hp_check_len e X T x t : hp_check e X T = Ok (x, t) -> length x = length t.
Proof.
  unfold hp_check. destruct (check_src X _) as [a|]; cbn; [|discriminate]. destruct (check_src T _) as [b|]; cbn; [|discriminate].
  destruct (length a =? length b)%nat eqn:E; [|discriminate]. intros [= <- <-]. apply Nat.eqb_eq. exact E.
Qed.
Lemma add_data_src e X T X' T' i n fs : hp_check e X T = hp_check e X' T' -> hp_add_data e X T i n fs = hp_add_data e X' T' i n fs.
Proof. intros H. unfold hp_add_data. rewrite H. reflexivity. Qed.
Lemma as_dims e e1 X T : s_inputs (e_net e1) = s_inputs (e_net e) -> s_outputs (e_net e1) = s_outputs (e_net e) ->
  as_X e1 X = as_X e X /\ as_T e1 T = as_T e T.
Proof. unfold as_X, as_T. intros -> ->. auto. Qed.

Lemma hp_check_dims e e1 X T : s_inputs (e_net e1) = s_inputs (e_net e) -> s_outputs (e_net e1) = s_outputs (e_net e) ->
  hp_check e1 X T = hp_check e X T.
Proof. unfold hp_check. intros -> ->. reflexivity. Qed.
Lemma reset_dims s : s_inputs (reset s) = s_inputs s /\ s_outputs (reset s) = s_outputs s.
Proof. destruct s; cbn. auto. Qed.

Theorem train_named : forall e p X T args kw i n e1 p1 r, p_left p = [] ->
  f_train e p X T args kw i n = (e1, p1, r) -> hp_train e (src_of p X) (src_of p T) args kw i n = (e1, r).
Proof.
  intros e p X T args kw i n e1 p1 r L. unfold f_train. pose proof (check_src_hp e p X T L) as A.
  destruct (f_check e p X T) as [q [[Xm Tm]|x]]; cbn in A.
  - pose proof (hp_check_len _ _ _ _ _ (eq_sym A)) as Len.
    assert (B : hp_check e (as_X e Xm) (as_T e Tm) = hp_check e (src_of p X) (src_of p T)).
    { rewrite as_check, Len, Nat.eqb_refl. exact A. }
    assert (C : hp_train e (as_X e Xm) (as_T e Tm) args kw i n = hp_train e (src_of p X) (src_of p T) args kw i n).
    { unfold hp_train. rewrite B, <- A. destruct (parse_args e args kw) as [e2 [u|x]] eqn:P; [|reflexivity].
      assert (Q : s_inputs (e_net e2) = s_inputs (e_net e) /\ s_outputs (e_net e2) = s_outputs (e_net e)).
      { pose proof (parse_args_net e args kw) as Q. rewrite P in Q. cbn in Q. destruct Q as [->| ->]; [auto|apply reset_dims]. }
      destruct Q as (Q1 & Q2). rewrite (add_data_src e2 _ _ (src_of p X) (src_of p T)); [reflexivity|].
      rewrite !(hp_check_dims e e2 _ _ Q1 Q2). exact B. }
    rewrite C. destruct (hp_train e (src_of p X) (src_of p T) args kw i n) as [e2 r2]. intros [= <- <- <-]. reflexivity.
  - intros [= <- <- <-]. unfold hp_train. rewrite <- A. reflexivity.
Qed.

Definition value_of (r : res (option mat)) : res mat :=
  match r with Ok (Some M) => Ok M | Ok None => Ok [] | Err x => Err x end.
(** predict into a file: the file gets what Hpelm.predict computes *)
Theorem predict_named : forall e p X y i n p1 r, p_left p = [] -> ~ In y (names X ++ p_opened p) ->
  f_predict junk e p X (GFile y) i n = (p1, r) ->
  match hp_predict e (src_of p X) DFile i n with
  | Ok Y => r = Ok None /\ p_store p1 y = Some (s_outputs (e_net e), Y)
  | Err x => r = Err x
  end.
Proof.
  intros e p X y i n p1 r L I. unfold f_predict, hp_predict.
  destruct (s_neurons (e_net e)) eqn:N; [intros [= <- <-]; reflexivity|].
  destruct (s_B (e_net e)) eqn:B; [|intros [= <- <-]; reflexivity].
  pose proof (check1_src p X (s_inputs (e_net e)) false L) as A.
  destruct (f_check1 p X _ false) as [q [x|x]] eqn:E; cbn in A; rewrite <- A; cbn [rbind].
  2:{ intros [= <- <-]. reflexivity. }
  destruct (check1_opens _ _ _ _ _ _ E) as (_ & H). destruct (H eq_refl) as ((O & Lf & S) & _).
  destruct (nbatches (clip_count n (length x) i) (e_batch e)) as [nb|z] eqn:Nb; cbn [rbind].
  2:{ intros [= <- <-]. reflexivity. }
  unfold f_store. rewrite may_open_free; [|congruence|right; rewrite O, in_app_iff, <- in_rev, <- in_app_iff; exact I].
  unfold as_X. cbn [check_src]. rewrite Nat.eqb_refl. cbn [rbind]. rewrite Nb. cbn [rbind].
  destruct (new_rows _ _) as [Y0|z]; cbn; [|intros [= <- <-]; reflexivity].
  destruct (store_loop _ _ _ _ _) as [Y|z]; intros [= <- <-]; [|reflexivity].
  split; [reflexivity|]. apply put_same.
Qed.
Theorem project_named : forall e p X y i n p1 r, p_left p = [] -> ~ In y (names X ++ p_opened p) ->
  f_project junk e p X (GFile y) i n = (p1, r) ->
  match hp_project e (src_of p X) DFile i n with
  | Ok H => r = Ok None /\ p_store p1 y = Some (getL (e_net e), H)
  | Err x => r = Err x
  end.
Proof.
  intros e p X y i n p1 r L I. unfold f_project, hp_project.
  destruct (s_neurons (e_net e)) eqn:N; [intros [= <- <-]; reflexivity|].
  pose proof (check1_src p X (s_inputs (e_net e)) false L) as A.
  destruct (f_check1 p X _ false) as [q [x|x]] eqn:E; cbn in A; rewrite <- A; cbn [rbind].
  2:{ intros [= <- <-]. reflexivity. }
  destruct (check1_opens _ _ _ _ _ _ E) as (_ & H). destruct (H eq_refl) as ((O & Lf & S) & _).
  destruct (nbatches (clip_count n (length x) i) (e_batch e)) as [nb|z] eqn:Nb; cbn [rbind].
  2:{ intros [= <- <-]. reflexivity. }
  unfold f_store. rewrite may_open_free; [|congruence|right; rewrite O, in_app_iff, <- in_rev, <- in_app_iff; exact I].
  unfold as_X. cbn [check_src]. rewrite Nat.eqb_refl. cbn [rbind]. rewrite Nb. cbn [rbind].
  destruct (new_rows _ _) as [Y0|z]; cbn; [|intros [= <- <-]; reflexivity].
  destruct (store_loop _ _ _ _ _) as [Y|z]; intros [= <- <-]; [|reflexivity].
  split; [reflexivity|]. apply put_same.
Qed.
(** predict and project into a new array or a given one *)
Theorem predict_array : forall e p X i n p1 r, p_left p = [] -> f_predict junk e p X GNew i n = (p1, r) ->
  value_of r = hp_predict e (src_of p X) DNew i n.
Proof.
  intros e p X i n p1 r L. unfold f_predict, hp_predict.
  destruct (s_neurons (e_net e)) eqn:N; [intros [= <- <-]; reflexivity|].
  destruct (s_B (e_net e)) eqn:B; [|intros [= <- <-]; reflexivity].
  pose proof (check1_src p X (s_inputs (e_net e)) false L) as A.
  destruct (f_check1 p X _ false) as [q [x|x]] eqn:E; cbn in A; rewrite <- A; cbn [rbind].
  2:{ intros [= <- <-]. reflexivity. }
  destruct (nbatches (clip_count n (length x) i) (e_batch e)) as [nb|z] eqn:Nb; cbn [rbind].
  2:{ intros [= <- <-]. reflexivity. }
  unfold as_X. cbn [check_src]. rewrite Nat.eqb_refl. cbn [rbind]. rewrite Nb. cbn [rbind].
  intros [= <- <-]. destruct (new_rows _ _) as [Y0|z]; cbn; [|reflexivity].
  destruct (store_loop _ _ _ _ _) as [Y|z]; reflexivity.
Qed.
Theorem error_named : forall e p T Y i n p1 r, p_left p = [] -> f_error e p T Y i n = (p1, r) ->
  hp_error e (src_of p T) (src_of p Y) i n = r.
Proof.
  intros e p T Y i n p1 r L. unfold f_error, hp_error.
  pose proof (check1_src p T (s_outputs (e_net e)) true L) as A.
  destruct (f_check1 p T _ true) as [q [x|x]] eqn:E; cbn in A; rewrite <- A; cbn; [|intros [= <- <-]; reflexivity].
  destruct (check1_state _ _ _ _ _ _ L E) as (L1 & S1).
  pose proof (check1_src q Y (s_outputs (e_net e)) true L1) as B. rewrite (src_of_ext p q Y S1) in B.
  destruct (f_check1 q Y _ true) as [q2 [t|t]]; cbn in B; rewrite <- B; cbn; intros [= <- <-]; reflexivity.
Qed.

(** ** Correlation files by name *)
Lemma prepare_named s p a b : p_left p = [] -> a <> b -> ~ In a (p_opened p) -> ~ In b (p_opened p) ->
  match p_prepare s p a b with
  | (s1, p1, r) => prepare_fs s (mkFs (p_store p a) (p_store p b)) = (s1, mkFs (p_store p1 a) (p_store p1 b), r)
  end.
Proof.
  intros L D Ia Ib. unfold p_prepare, prepare_fs, p_prepare1.
  assert (M : forall q n m, p_left q = [] -> p_opened q = p_opened p -> n = a \/ n = b -> may_open q n m = true).
  { intros q n m Lq Oq [->| ->]; apply may_open_free; auto; right; rewrite Oq; assumption. }
  cbn [f_HH f_HT]. destruct (p_store p a) as [[w m]|] eqn:Ea.
  - rewrite M by auto. destruct ((length m =? _)%nat && _); [|rewrite Ea; reflexivity].
    cbn [f_HH f_HT]. destruct (p_store p b) as [[w' m']|] eqn:Eb.
    + rewrite M by auto. rewrite Ea, Eb. destruct ((length m' =? _)%nat && _); reflexivity.
    + rewrite M by auto. rewrite put_same, put_other by exact D. rewrite Ea. reflexivity.
  - rewrite (M p a MW) by auto. cbn [f_HH f_HT]. rewrite (put_other p a _ b) by congruence.
    destruct (p_store p b) as [[w' m']|] eqn:Eb.
    + rewrite M by auto. rewrite (put_other p a _ b), put_same by congruence. rewrite Eb.
      destruct ((length m' =? _)%nat && _); reflexivity.
    + rewrite M by auto. rewrite put_same, put_other, put_same by exact D. reflexivity.
Qed.
Lemma write_named s p a b : p_left p = [] -> a <> b -> ~ In a (p_opened p) -> ~ In b (p_opened p) ->
  p_store p a <> None -> p_store p b <> None ->
  match p_write s p a b with
  | (s1, p1, r) => write_fs s (mkFs (p_store p a) (p_store p b)) = (s1, mkFs (p_store p1 a) (p_store p1 b), r)
  end.
Proof.
  intros L D Ia Ib Na Nb. unfold p_write, write_fs. destruct (get_corr s) as [[[HH HT]|]|x]; try reflexivity.
  cbn [f_HH f_HT]. unfold p_add. rewrite may_open_free by auto.
  destruct (p_store p a) as [[w m]|] eqn:Ea; [|congruence]. destruct (p_store p b) as [[w' m']|] eqn:Eb; [|congruence].
  rewrite may_open_free by auto. rewrite (put_other p a _ b) by congruence. rewrite Eb.
  rewrite put_same, put_other, put_same by exact D. reflexivity.
Qed.

Theorem add_data_named : forall e p X T i n a b e1 p1 r, p_left p = [] -> a <> b ->
  ~ In a (names X ++ names T ++ p_opened p) -> ~ In b (names X ++ names T ++ p_opened p) ->
  f_add_data e p X T i n (Some (a, b)) = (e1, p1, r) ->
  hp_add_data e (src_of p X) (src_of p T) i n (Some (mkFs (p_store p a) (p_store p b))) =
    (e1, Some (mkFs (p_store p1 a) (p_store p1 b)), r).
Proof.
  intros e p X T i n a b e1 p1 r L D Ia Ib. unfold f_add_data. unfold hp_add_data at 2.
  destruct (s_neurons (e_net e)) eqn:N; [intros [= <- <- <-]; reflexivity|].
  pose proof (check_src_hp e p X T L) as A.
  destruct (f_check e p X T) as [q [[Xm Tm]|x]] eqn:E; cbn in A; rewrite <- A;
    destruct (check_opens _ _ _ _ _ _ E) as ((lz & mz & Lz & O) & H).
  2:{ intros [= <- <- <-]. destruct O as (_ & _ & S). rewrite !S. reflexivity. }
  specialize (H eq_refl). destruct H as (Oq & Lq & Sq).
  assert (Jn : forall k, ~ In k (names X ++ names T ++ p_opened p) -> ~ In k (p_opened q)).
  { intros k I J. apply I. rewrite Oq, in_app_iff, <- in_rev in J. rewrite app_assoc, in_app_iff. exact J. }
  pose proof (prepare_named (e_net e) q a b (eq_trans Lq L) D (Jn _ Ia) (Jn _ Ib)) as P. rewrite !Sq in P.
  destruct (p_prepare (e_net e) q a b) as [[s q2] r0] eqn:Ep. rewrite P. cbn [fst snd].
  pose proof (prepare_still _ _ _ _ _ _ _ Ep) as (O2 & L2 & _).
  destruct r0 as [u|x]; [|intros [= <- <- <-]; reflexivity].
  assert (Dm : s_inputs s = s_inputs (e_net e) /\ s_outputs s = s_outputs (e_net e) /\ s_neurons s = s_neurons (e_net e)).
  { revert P. unfold prepare_fs. clear. destruct (match f_HH _ with Some _ => _ | None => _ end); cbn.
    - destruct (f_HT _) as [[w m]|]; [destruct (_ && _)|]; intros H; injection H; intros; subst s; destruct (e_net e); auto.
    - intros H; injection H; intros; subst s; destruct (e_net e); auto. }
  destruct Dm as (D1 & D2 & D3). pose proof (hp_check_len _ _ _ _ _ (eq_sym A)) as Len.
  unfold hp_add_data. cbn [with_net e_net]. rewrite as_check, Len, Nat.eqb_refl, D3, N.
  destruct (nbatches (clip_count n (length Xm) i) (e_batch (with_net e s))) as [nb|x] eqn:Nb; rewrite Len in Nb.
  all: rewrite Nb. 2:{ intros [= <- <- <-]. reflexivity. }
  rewrite Len.
  destruct (add_batches _ _ _) as [s1 [v|x]]; [|intros [= <- <- <-]; reflexivity].
  assert (NN : p_store q2 a <> None /\ p_store q2 b <> None).
  { revert Ep. unfold p_prepare, p_prepare1. clear - D. 
    destruct (p_store q a) as [[w m]|] eqn:Ea.
    - destruct (may_open q a MR); [|discriminate]. destruct ((length m =? _)%nat && _); [|discriminate].
      destruct (p_store q b) as [[w' m']|] eqn:Eb.
      + destruct (may_open q b MR); [|discriminate]. destruct ((length m' =? _)%nat && _); [|discriminate]. intros [= <- <- <-]. rewrite Ea, Eb. split; discriminate.
      + destruct (may_open q b MW); [|discriminate]. intros [= <- <- <-]. rewrite put_same, put_other, Ea by exact D. split; discriminate.
    - destruct (may_open q a MW); [|discriminate]. rewrite (put_other q a _ b) by congruence.
      destruct (p_store q b) as [[w' m']|] eqn:Eb.
      + destruct (may_open _ b MR); [|discriminate]. destruct ((length m' =? _)%nat && _); [|discriminate]. intros [= <- <- <-].
        rewrite put_same, put_other, Eb by congruence. split; discriminate.
      + destruct (may_open _ b MW); [|discriminate]. intros [= <- <- <-]. rewrite put_same, put_other, put_same by exact D. split; discriminate. }
  assert (Oq2 : forall k, ~ In k (names X ++ names T ++ p_opened p) -> ~ In k (p_opened q2)) by (intros k Ik; rewrite O2; apply Jn, Ik).
  pose proof (write_named s1 q2 a b (eq_trans L2 (eq_trans Lq L)) D (Oq2 _ Ia) (Oq2 _ Ib) (proj1 NN) (proj2 NN)) as W.
  cbn [with_net e_net]. destruct (p_write s1 q2 a b) as [[s2 q3] r3]. rewrite W. intros [= <- <- <-]. destruct e; reflexivity.
Qed.
Theorem solve_corr_named : forall e p a b e1 p1 r, p_left p = [] -> f_solve_corr e p a b = (e1, p1, r) ->
  p1 = p /\ hp_solve_corr e (mkFs (p_store p a) (p_store p b)) = (e1, r).
Proof.
  intros e p a b e1 p1 r L. unfold f_solve_corr, f_corr. rewrite !may_open_free by auto. cbn [andb].
  destruct (hp_solve_corr e _) as [e2 r2]. intros [= <- <- <-]. auto.
Qed.

(** one name for both files *)
Theorem same_name : forall e p X T i n a e1 p1 r, getL (reset (e_net e)) <> s_outputs (e_net e) ->
  f_add_data e p X T i n (Some (a, a)) = (e1, p1, r) -> is_ok r = false.
Proof.
  intros e p X T i n a e1 p1 r D. unfold f_add_data.
  destruct (s_neurons (e_net e)); [intros [= <- <- <-]; reflexivity|].
  destruct (f_check e p X T) as [q [[Xm Tm]|x]]; [|intros [= <- <- <-]; reflexivity].
  assert (P : match p_prepare (e_net e) q a a with (s, p', r0) => is_ok r0 = false end).
  { unfold p_prepare. set (s := reset (e_net e)) in *. assert (So : s_outputs s = s_outputs (e_net e)) by apply reset_dims.
    destruct (p_prepare1 q a (getL s) (getL s) _) as [q1 [u|x]] eqn:E; [|reflexivity].
    assert (S1 : exists m, p_store q1 a = Some (getL s, m)).
    { revert E. unfold p_prepare1. destruct (p_store q a) as [[w m]|] eqn:Ea.
      - destruct (may_open q a MR); [|discriminate]. destruct ((length m =? getL s)%nat) eqn:E1; [|discriminate].
        destruct (Nat.eqb_spec w (getL s)) as [->|]; [|discriminate]. intros [= <-]. exists m. exact Ea.
      - destruct (may_open q a MW); [|discriminate]. intros [= <-]. eexists. apply put_same. }
    destruct S1 as (m & S1). unfold p_prepare1. rewrite S1, So. destruct (may_open q1 a MR); [|reflexivity].
    destruct (Nat.eqb_spec (getL s) (s_outputs (e_net e))); [congruence|]. rewrite andb_false_r. reflexivity. }
  destruct (p_prepare (e_net e) q a a) as [[s q1] [u|x]]; [discriminate|]. intros [= <- <- <-]. reflexivity.
Qed.
End Use.
