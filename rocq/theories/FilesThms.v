(** Facts about the files opened and written by HPELM (Files.v). *)
From Verif Require Import Base Num Mat LinAlg Slfn Strs Elm Hpelm Files.
Local Open Scope string_scope.
Local Open Scope list_scope.

(** ** Specification: the files a call names *)
Section Spec.
Context {K : Num}.
Definition names (a : fsrc) : list string := match a with GArr _ => [] | GName n => [n] end.
Definition dnames (d : fdest) : list string := match d with GFile n => [n] | _ => [] end.
(** data files, in the order in which they are opened *)
Definition reads (c : fcall) : list string :=
  match c with
  | FCTrain X T _ _ _ _ | FCAdd X T _ _ _ | FCValidation _ _ X T _ | FCAsync X T | FCTrainAsync X T _ _ => names X ++ names T
  | FCPredict X _ _ _ | FCProject X _ _ _ => names X
  | FCError T Y _ _ => names T ++ names Y
  | FCSolve _ _ | FCMake _ _ | FCNormalize _ _ | FCMemory _ => []
  end.
Definition writes (c : fcall) : list string :=
  match c with
  | FCPredict _ Y _ _ | FCProject _ Y _ _ => dnames Y
  | FCAdd _ _ _ _ (Some (a, b)) => [a; b]
  | FCMake n _ | FCNormalize n _ => [n]
  | _ => []
  end.
(** an asynchronous call with an array *)
Definition odd_async (c : fcall) : bool :=
  match c with
  | FCAsync (GName _) (GName _) | FCTrainAsync (GName _) (GName _) _ _ => false
  | FCAsync _ _ | FCTrainAsync _ _ _ _ => true
  | _ => false
  end.
Definition is_async (c : fcall) : bool := match c with FCAsync _ _ | FCTrainAsync _ _ _ _ => true | _ => false end.
(** the files that stay open when the call has returned *)
Definition stays (c : fcall) : list string :=
  match c with
  | FCAsync _ _ => []
  | _ => reads c
  end.
End Spec.

Section Thms.
Context {K : Num} {SG : Sing}.
Context (junk : option (nat * mat)).

(** what the steps of a call may do to the process *)
Definition opens (p p1 : proc) (l : list string) : Prop :=
  p_opened p1 = rev l ++ p_opened p /\ p_left p1 = p_left p /\ forall n, p_store p1 n = p_store p n.

Lemma opens_nil p : opens p p [].
Proof. repeat split. Qed.
Lemma opens_trans p q r l k : opens p q l -> opens q r k -> opens p r (l ++ k).
Proof.
  intros (A & B & C) (A' & B' & C'). repeat split.
  - rewrite A', A, rev_app_distr, app_assoc. reflexivity.
  - congruence.
  - intros n. rewrite C'. apply C.
Qed.

Lemma check1_opens p a dim isT p1 r : f_check1 p a dim isT = (p1, r) ->
  (exists l m, l ++ m = names a /\ opens p p1 l) /\ (is_ok r = true -> opens p p1 (names a) /\ r = check_src (src_of p a) dim).
Proof.
  unfold f_check1. destruct a as [x|n]; cbn.
  - intros [= <- <-]. split; [exists [], []; split; [reflexivity|apply opens_nil]|]. split; [apply opens_nil|reflexivity].
  - destruct (p_store p n) eqn:E; cbn.
    + destruct (may_open p n MR); intros [= <- <-].
      * split; [exists [n], []; split; [reflexivity|repeat split]|]. split; [repeat split|reflexivity].
      * split; [exists [], [n]; split; [reflexivity|apply opens_nil]|]. destruct isT; discriminate.
    + intros [= <- <-]. split; [exists [], [n]; split; [reflexivity|apply opens_nil]|]. discriminate.
Qed.

Lemma check_opens e p X T p1 r : f_check e p X T = (p1, r) ->
  (exists l m, l ++ m = names X ++ names T /\ opens p p1 l) /\ (is_ok r = true -> opens p p1 (names X ++ names T)).
Proof.
  unfold f_check. destruct (f_check1 p X _ _) as [q [x|x]] eqn:E; destruct (check1_opens _ _ _ _ _ _ E) as ((l & m & L & O) & H).
  - destruct (H eq_refl) as (O1 & _). destruct (f_check1 q T _ _) as [q2 [t|t]] eqn:F;
    destruct (check1_opens _ _ _ _ _ _ F) as ((l2 & m2 & L2 & O2) & H2); intros [= <- <-].
    + destruct (H2 eq_refl) as (O3 & _). split.
      * exists (names X ++ names T), []. split; [apply app_nil_r|]. eapply opens_trans; eauto.
      * intros _. eapply opens_trans; eauto.
    + split; [|discriminate]. exists (names X ++ l2), m2. split; [rewrite <- app_assoc, L2; reflexivity|].
      eapply opens_trans; eauto.
  - intros [= <- <-]. split; [|discriminate]. exists l, (m ++ names T). split; [rewrite app_assoc, L; reflexivity|exact O].
Qed.

(** a file that is open for reading may not be opened for writing *)
Lemma may_open_read p n m : In n (p_opened p) -> m <> MR -> may_open p n m = false.
Proof.
  intros I D. apply not_true_is_false. intros H. unfold may_open, handles in H. rewrite forallb_forall in H.
  specialize (H (n, MR)). rewrite in_app_iff, in_map_iff in H. cbn in H. rewrite String.eqb_refl in H. cbn in H.
  destruct m; [congruence| |]; specialize (H (or_introl (ex_intro _ n (conj eq_refl I)))); discriminate.
Qed.
Lemma may_open_free p n m : p_left p = [] -> (m = MR \/ ~ In n (p_opened p)) -> may_open p n m = true.
Proof.
  intros L H. unfold may_open, handles. rewrite L, app_nil_r, forallb_forall. intros [k q] I.
  apply in_map_iff in I as (k' & [= <- <-] & I). cbn. destruct (String.eqb_spec k' n) as [->|]; cbn; [|reflexivity].
  destruct H as [->|H]; [reflexivity|contradiction].
Qed.

(** only files of the list [w] that were not open change *)
Definition step_ok (p p1 : proc) (w : list string) : Prop :=
  forall n, (In n w /\ ~ In n (p_opened p)) \/ p_store p1 n = p_store p n.
(** a step that opens nothing for good *)
Definition still (p p1 : proc) (w : list string) : Prop :=
  p_opened p1 = p_opened p /\ p_left p1 = p_left p /\ step_ok p p1 w.

Lemma put_same p n v : p_store (put p n v) n = v.
Proof. cbn. rewrite String.eqb_refl. reflexivity. Qed.
Lemma put_other p n v m : m <> n -> p_store (put p n v) m = p_store p m.
Proof. intros H. cbn. destruct (String.eqb_spec m n); congruence. Qed.
Lemma put_step p n v m : may_open p n m = true -> m <> MR -> step_ok p (put p n v) [n].
Proof.
  intros M D k. destruct (String.eqb_spec k n) as [->|N]; [left|right; apply put_other; exact N].
  split; [left; reflexivity|]. intros I. rewrite may_open_read in M; [discriminate|exact I|exact D].
Qed.
Lemma still_refl p w : still p p w.
Proof. split; [reflexivity|]. split; [reflexivity|]. intros n. right. reflexivity. Qed.
Lemma put_still p n v m : may_open p n m = true -> m <> MR -> still p (put p n v) [n].
Proof. intros M D. split; [reflexivity|]. split; [reflexivity|]. eapply put_step; eauto. Qed.
Lemma still_trans p q r v w : still p q v -> still q r w -> still p r (v ++ w).
Proof.
  intros (O & L & A) (O' & L' & B). split; [congruence|]. split; [congruence|]. intros n. rewrite in_app_iff.
  destruct (B n) as [(I & J)|E].
  - rewrite O in J. tauto.
  - destruct (A n) as [(I & J)|F]; [tauto|right; congruence].
Qed.

Lemma prepare1_still p n rows cols fresh p1 r : p_prepare1 p n rows cols fresh = (p1, r) -> still p p1 [n].
Proof.
  unfold p_prepare1. destruct (p_store p n) as [[w m]|].
  - destruct (may_open p n MR); intros [= <- <-]; apply still_refl.
  - destruct (may_open p n MW) eqn:M; intros [= <- <-]; [|apply still_refl]. eapply put_still; [exact M|discriminate].
Qed.
Lemma prepare_still s p a b s1 p1 r : p_prepare s p a b = (s1, p1, r) -> still p p1 [a; b].
Proof.
  unfold p_prepare. destruct (p_prepare1 p a _ _ _) as [q [u|x]] eqn:E; apply prepare1_still in E.
  - destruct (p_prepare1 q b _ _ _) as [q2 u2] eqn:F. apply prepare1_still in F. intros [= <- <- <-].
    apply (still_trans _ _ _ [a] [b] E F).
  - intros [= <- <- <-]. apply (still_trans _ _ _ [a] [b] E (still_refl _ _)).
Qed.
Lemma add_still p n M p1 r : p_add p n M = (p1, r) -> still p p1 [n].
Proof.
  unfold p_add. destruct (may_open p n MA) eqn:E.
  - destruct (p_store p n) as [[w m]|]; intros [= <- <-]; [|apply still_refl]. eapply put_still; [exact E|discriminate].
  - intros [= <- <-]. apply still_refl.
Qed.
Lemma write_still s p a b s1 p1 r : p_write s p a b = (s1, p1, r) -> still p p1 [a; b].
Proof.
  unfold p_write. destruct (get_corr s) as [[[HH HT]|]|x]; try (intros [= <- <- <-]; apply still_refl).
  destruct (p_add p a _) as [q [u|x]] eqn:E; apply add_still in E.
  - destruct (p_add q b _) as [q2 u2] eqn:F. apply add_still in F. intros [= <- <- <-].
    apply (still_trans _ _ _ [a] [b] E F).
  - intros [= <- <- <-]. apply (still_trans _ _ _ [a] [b] E (still_refl _ _)).
Qed.

(** ** The effect of one call.  [res_ok]: it returned normally *)
Definition effect (c : fcall) (p p1 : proc) (ok : bool) : Prop :=
  (* opened: a part of the named data files, all of them after a normal return *)
  (exists l m, l ++ m = reads c /\ p_opened p1 = rev l ++ p_opened p /\ (ok = true -> m = [])) /\
  (* left open otherwise: only the file of a failing predict or project *)
  (p_left p1 = p_left p \/ ok = false /\ exists n m, In n (writes c) /\ p_left p1 = (n, m) :: p_left p) /\
  (* changed: only files named for writing that were not open *)
  (forall n, (In n (writes c) /\ ~ In n (p_opened p1)) \/ p_store p1 n = p_store p n).

Lemma effect_opens c p p1 (r : bool) l m : l ++ m = reads c -> opens p p1 l -> (r = true -> m = []) -> effect c p p1 r.
Proof.
  intros L (O & Lf & S) H. split; [exists l, m; auto|]. split; [left; exact Lf|]. intros n. right. apply S.
Qed.
Lemma effect_still c p q p1 (r : bool) l m w : l ++ m = reads c -> opens p q l -> still q p1 w ->
  incl w (writes c) -> (r = true -> m = []) -> effect c p p1 r.
Proof.
  intros L (O & Lf & S) (O' & L' & S') I H. split; [exists l, m; rewrite O'; auto|]. split; [left; congruence|].
  intros n. destruct (S' n) as [(A & B)|E]; [left|right; rewrite E; apply S].
  split; [apply I, A|]. rewrite O'. exact B.
Qed.
Lemma effect_store c p q p1 X n cols cnt r o : names X = reads c -> opens p q (names X) ->
  f_store junk q n cols cnt r = (p1, o) -> In n (writes c) -> effect c p p1 (is_ok o).
Proof.
  intros L (O & Lf & S) E I. unfold f_store in E. destruct (may_open q n MW) eqn:M.
  - assert (P : forall v, step_ok q (put q n v) [n]) by (intros v; eapply put_step; [exact M|discriminate]).
    destruct r as [Y|x]; injection E as <- <-.
    + split; [exists (names X), []; rewrite app_nil_r; auto|]. split; [left; exact Lf|].
      intros k. destruct (P (Some (cols, Y)) k) as [([<-|[]] & B)|F]; [left; split; [exact I|exact B]|right; rewrite F; apply S].
    + split; [exists (names X), []; rewrite app_nil_r; auto|]. split.
      * right. split; [reflexivity|]. exists n. eexists. split; [exact I|]. cbn. rewrite Lf. reflexivity.
      * intros k. destruct (P junk k) as [([<-|[]] & B)|F]; [left; split; [exact I|exact B]|].
        right. cbn in F |- *. rewrite F. apply S.
  - injection E as <- <-. apply (effect_opens c p q _ (names X) []); [rewrite app_nil_r; exact L|repeat split; assumption|reflexivity].
Qed.

Lemma call_effect c e p e1 p1 r : is_async c = false -> f_call junk c e p = (e1, p1, r) -> effect c p p1 (is_ok r).
Proof.
  destruct c as [X T args kw i n|X T i n corr|a b|X Y i n|X Y i n|T Y i n|a b X T Ls|X T|X T args kw|n v|n f|f];
    try discriminate; intros _; cbn [f_call].
  - unfold f_train. destruct (f_check e p X T) as [q [[Xm Tm]|x]] eqn:E; destruct (check_opens _ _ _ _ _ _ E) as ((l & m & L & O) & H).
    + destruct (hp_train _ _ _ _ _ _ _) as [e2 r2]. intros [= <- <- <-].
      apply (effect_opens _ _ _ _ (names X ++ names T) []); [apply app_nil_r|apply H; reflexivity|reflexivity].
    + intros [= <- <- <-]. apply (effect_opens _ _ _ _ l m); [exact L|exact O|discriminate].
  - unfold f_add_data. destruct (s_neurons (e_net e)).
    { intros [= <- <- <-]. apply (effect_opens _ _ _ _ [] (names X ++ names T)); [reflexivity|apply opens_nil|discriminate]. }
    destruct (f_check e p X T) as [q [[Xm Tm]|x]] eqn:E; destruct (check_opens _ _ _ _ _ _ E) as ((lz & m & L & O) & H).
    2:{ intros [= <- <- <-]. apply (effect_opens _ _ _ _ lz m); [exact L|exact O|discriminate]. }
    specialize (H eq_refl). destruct corr as [[a b]|].
    + destruct (p_prepare (e_net e) q a b) as [[s q2] [u|x]] eqn:P; apply prepare_still in P.
      2:{ intros [= <- <- <-]. eapply (effect_still _ _ q _ _ (names X ++ names T) [] [a; b]); [apply app_nil_r|exact H|exact P|apply incl_refl|reflexivity]. }
      destruct (hp_add_data _ _ _ _ _ _) as [[e2 fs2] [u2|x2]].
      2:{ intros [= <- <- <-]. eapply (effect_still _ _ q _ _ (names X ++ names T) [] [a; b]); [apply app_nil_r|exact H|exact P|apply incl_refl|reflexivity]. }
      destruct (p_write (e_net e2) q2 a b) as [[s3 q3] r3] eqn:W. apply write_still in W. intros [= <- <- <-].
      eapply (effect_still _ _ q _ _ (names X ++ names T) [] ([a; b] ++ [a; b])); [apply app_nil_r|exact H|eapply still_trans; eauto| |reflexivity].
      cbn. intros k. cbn. tauto.
    + destruct (hp_add_data _ _ _ _ _ _) as [[e2 fs2] [u2|x2]]; intros [= <- <- <-];
      (apply (effect_opens _ _ _ _ (names X ++ names T) []); [apply app_nil_r|exact H|reflexivity]).
  - unfold f_solve_corr. destruct (f_corr p a b) as [fs|x]; [destruct (hp_solve_corr e fs)|]; intros [= <- <- <-];
    (apply (effect_opens _ _ _ _ [] []); [reflexivity|apply opens_nil|reflexivity]).
  - destruct (f_predict junk e p X Y i n) as [q o] eqn:E. intros [= <- <- <-]. replace (is_ok (unit_of o)) with (is_ok o) by (destruct o; reflexivity).
    revert E. unfold f_predict. destruct (s_neurons (e_net e)).
    { intros [= <- <-]. apply (effect_opens _ _ _ _ [] (names X)); [reflexivity|apply opens_nil|discriminate]. }
    destruct (s_B (e_net e)).
    2:{ intros [= <- <-]. apply (effect_opens _ _ _ _ [] (names X)); [reflexivity|apply opens_nil|discriminate]. }
    destruct (f_check1 p X _ _) as [q1 [Xm|x]] eqn:E; destruct (check1_opens _ _ _ _ _ _ E) as ((lz & mz & L & O) & H).
    2:{ intros [= <- <-]. apply (effect_opens _ _ _ _ lz mz); [exact L|exact O|discriminate]. }
    destruct (H eq_refl) as (O1 & _). destruct (nbatches _ _) as [nb|x].
    2:{ intros [= <- <-]. apply (effect_opens _ _ _ _ (names X) []); [apply app_nil_r|exact O1|reflexivity]. }
    destruct Y as [|y|y].
    + intros [= <- <-]. apply (effect_opens _ _ _ _ (names X) []); [apply app_nil_r|exact O1|reflexivity].
    + intros E2. eapply effect_store; [|exact O1|exact E2|left; reflexivity]. reflexivity.
    + intros [= <- <-]. apply (effect_opens _ _ _ _ (names X) []); [apply app_nil_r|exact O1|reflexivity].
  - destruct (f_project junk e p X Y i n) as [q o] eqn:E. intros [= <- <- <-]. replace (is_ok (unit_of o)) with (is_ok o) by (destruct o; reflexivity).
    revert E. unfold f_project. destruct (s_neurons (e_net e)).
    { intros [= <- <-]. apply (effect_opens _ _ _ _ [] (names X)); [reflexivity|apply opens_nil|discriminate]. }
    destruct (f_check1 p X _ _) as [q1 [Xm|x]] eqn:E; destruct (check1_opens _ _ _ _ _ _ E) as ((lz & mz & L & O) & H).
    2:{ intros [= <- <-]. apply (effect_opens _ _ _ _ lz mz); [exact L|exact O|discriminate]. }
    destruct (H eq_refl) as (O1 & _). destruct (nbatches _ _) as [nb|x].
    2:{ intros [= <- <-]. apply (effect_opens _ _ _ _ (names X) []); [apply app_nil_r|exact O1|reflexivity]. }
    destruct Y as [|y|y].
    + intros [= <- <-]. apply (effect_opens _ _ _ _ (names X) []); [apply app_nil_r|exact O1|reflexivity].
    + intros E2. eapply effect_store; [|exact O1|exact E2|left; reflexivity]. reflexivity.
    + intros [= <- <-]. apply (effect_opens _ _ _ _ (names X) []); [apply app_nil_r|exact O1|reflexivity].
  - destruct (f_error e p T Y i n) as [q o] eqn:E. intros [= <- <- <-]. replace (is_ok (unit_of o)) with (is_ok o) by (destruct o; reflexivity).
    revert E. unfold f_error. destruct (f_check1 p T _ _) as [q1 [t|x]] eqn:E; destruct (check1_opens _ _ _ _ _ _ E) as ((lz & mz & L & O) & H).
    2:{ intros [= <- <-]. apply (effect_opens _ _ _ _ lz (mz ++ names Y)); [cbn; rewrite app_assoc, L; reflexivity|exact O|discriminate]. }
    destruct (H eq_refl) as (O1 & _).
    destruct (f_check1 q1 Y _ _) as [q2 [y|x]] eqn:F; destruct (check1_opens _ _ _ _ _ _ F) as ((l2 & m2 & L2 & O2) & H2); intros [= <- <-].
    + destruct (H2 eq_refl) as (O3 & _).
      apply (effect_opens _ _ _ _ (names T ++ names Y) []); [apply app_nil_r|eapply opens_trans; eauto|reflexivity].
    + apply (effect_opens _ _ _ _ (names T ++ l2) m2); [cbn; rewrite <- app_assoc, L2; reflexivity|eapply opens_trans; eauto|discriminate].
  - destruct (f_validation e p a b X T Ls) as [[e2 q] o] eqn:E. intros [= <- <- <-]. replace (is_ok (unit_of o)) with (is_ok o) by (destruct o; reflexivity).
    revert E. unfold f_validation. destruct (f_check e p X T) as [q1 [[Xm Tm]|x]] eqn:E; destruct (check_opens _ _ _ _ _ _ E) as ((l & m & L & O) & H).
    2:{ intros [= <- <- <-]. apply (effect_opens _ _ _ _ l m); [exact L|exact O|discriminate]. }
    specialize (H eq_refl). destruct (f_corr q1 a b) as [fs|x]; [destruct (validation_corr _ _ _ _ _)|]; intros [= <- <- <-];
    (apply (effect_opens _ _ _ _ (names X ++ names T) []); [apply app_nil_r|exact H|reflexivity]).
  - unfold f_make. destruct (may_open p n MW) eqn:M; intros [= <- <- <-].
    + eapply (effect_still _ p p _ _ [] [] [n]); [reflexivity|apply opens_nil|eapply put_still; [exact M|discriminate]|apply incl_refl|reflexivity].
    + apply (effect_opens _ _ _ _ [] []); [reflexivity|apply opens_nil|reflexivity].
  - unfold f_normalize. destruct (may_open p n MA) eqn:M; [destruct (p_store p n) as [v|]|]; intros [= <- <- <-].
    + eapply (effect_still _ p p _ _ [] [] [n]); [reflexivity|apply opens_nil|eapply put_still; [exact M|discriminate]|apply incl_refl|reflexivity].
    + apply (effect_opens _ _ _ _ [] []); [reflexivity|apply opens_nil|reflexivity].
    + apply (effect_opens _ _ _ _ [] []); [reflexivity|apply opens_nil|reflexivity].
  - intros [= <- <- <-]. apply (effect_opens _ _ _ _ [] []); [reflexivity|apply opens_nil|reflexivity].
Qed.
End Thms.
