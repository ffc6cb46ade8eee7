(** Structural facts about lists, vectors and matrices (any scalar type). *)
From Verif Require Import Base Num Mat.

Section Lists.
Lemma Some_inj : forall {A} (x y : A), Some x = Some y -> x = y.
Proof. intros; congruence. Qed.
Lemma Ok_inj : forall {A} (x y : A), Ok x = Ok y -> x = y.
Proof. intros; congruence. Qed.

Lemma map2_length : forall {A B C} (f : A -> B -> C) l m,
  length (map2 f l m) = Nat.min (length l) (length m).
Proof. intros A B C f l; induction l as [|a l IH]; intros [|b m]; simpl; auto. Qed.

Lemma map2_app : forall {A B C} (f : A -> B -> C) l1 m1 l2 m2,
  length l1 = length m1 -> map2 f (l1 ++ l2) (m1 ++ m2) = map2 f l1 m1 ++ map2 f l2 m2.
Proof.
  intros A B C f l1; induction l1 as [|a l IH]; intros [|b m] l2 m2 H; simpl in *; try discriminate; auto.
  f_equal; auto.
Qed.

Lemma map2_map_l : forall {A A' B C} (f : A' -> B -> C) (g : A -> A') l m,
  map2 f (map g l) m = map2 (fun a b => f (g a) b) l m.
Proof. intros A A' B C f g l; induction l as [|a l IH]; intros [|b m]; simpl; auto. f_equal; auto. Qed.

Lemma map2_map_r : forall {A B B' C} (f : A -> B' -> C) (g : B -> B') l m,
  map2 f l (map g m) = map2 (fun a b => f a (g b)) l m.
Proof. intros A B B' C f g l; induction l as [|a l IH]; intros [|b m]; simpl; auto. f_equal; auto. Qed.

Lemma map_map2 : forall {A B C D} (g : C -> D) (f : A -> B -> C) l m,
  map g (map2 f l m) = map2 (fun a b => g (f a b)) l m.
Proof. intros A B C D g f l; induction l as [|a l IH]; intros [|b m]; simpl; auto. f_equal; auto. Qed.

Lemma map2_combine : forall {A B C} (f : A -> B -> C) l m,
  map2 f l m = map (fun p => f (fst p) (snd p)) (combine l m).
Proof. intros A B C f l; induction l as [|a l IH]; intros [|b m]; simpl; auto. f_equal; auto. Qed.

Lemma map2_ext_in : forall {A B C} (f g : A -> B -> C) l m,
  (forall a b, In (a, b) (combine l m) -> f a b = g a b) -> map2 f l m = map2 g l m.
Proof.
  intros A B C f g l; induction l as [|a l IH]; intros [|b m] H; simpl in *; auto.
  f_equal; auto.
Qed.

Lemma nth_map2 : forall {A B C} (f : A -> B -> C) l m i da db dc,
  i < length l -> i < length m -> nth i (map2 f l m) dc = f (nth i l da) (nth i m db).
Proof.
  intros A B C f l; induction l as [|a l IH]; intros [|b m] i da db dc H1 H2; simpl in *; try lia.
  destruct i; auto. apply IH; lia.
Qed.

Lemma nth_map_lt : forall {A B} (f : A -> B) l i da db,
  i < length l -> nth i (map f l) db = f (nth i l da).
Proof.
  intros A B f l; induction l as [|a l IH]; intros i da db H; simpl in *; [lia|].
  destruct i; auto. apply IH; lia.
Qed.

Lemma list_ext : forall {A} (d : A) l m, length l = length m ->
  (forall i, i < length l -> nth i l d = nth i m d) -> l = m.
Proof. intros A d l m H1 H2. apply nth_ext with d d; auto. Qed.

Lemma mapM_length : forall {A B} (f : A -> res B) l l', mapM f l = Ok l' -> length l' = length l.
Proof.
  intros A B f l; induction l as [|a l IH]; intros l' H; simpl in *.
  - inversion H; auto.
  - destruct (f a); simpl in H; [|discriminate].
    destruct (mapM f l) eqn:E; simpl in H; [|discriminate].
    inversion H; subst; simpl; f_equal; auto.
Qed.

Lemma mapM_ok_map : forall {A B} (f : A -> res B) (g : A -> B) l,
  (forall a, In a l -> f a = Ok (g a)) -> mapM f l = Ok (map g l).
Proof.
  intros A B f g l; induction l as [|a l IH]; intros H; simpl; auto.
  rewrite H by (simpl; auto). simpl. rewrite IH; auto. intros; apply H; simpl; auto.
Qed.

Lemma mapM_map : forall {A B C} (f : B -> res C) (g : A -> B) l,
  mapM f (map g l) = mapM (fun a => f (g a)) l.
Proof. intros A B C f g l; induction l; simpl; auto. rewrite IHl; auto. Qed.

Lemma mapM_nth : forall {A B} (f : A -> res B) l l' i da db,
  mapM f l = Ok l' -> i < length l -> f (nth i l da) = Ok (nth i l' db).
Proof.
  intros A B f l; induction l as [|a l IH]; intros l' i da db H Hi; simpl in *; [lia|].
  destruct (f a) eqn:Ea; simpl in H; [|discriminate].
  destruct (mapM f l) eqn:E; simpl in H; [|discriminate]. inversion H; subst.
  destruct i; simpl; auto. apply IH; auto. lia.
Qed.

Lemma mapM_app : forall {A B} (f : A -> res B) l1 l2,
  mapM f (l1 ++ l2) = let? a := mapM f l1 in let? b := mapM f l2 in Ok (a ++ b).
Proof.
  intros A B f l1 l2; induction l1 as [|a l IH]; simpl.
  - destruct (mapM f l2); auto.
  - destruct (f a); simpl; auto. rewrite IH. destruct (mapM f l); simpl; auto.
    destruct (mapM f l2); simpl; auto.
Qed.

Lemma Forall_firstn : forall {A} (P : A -> Prop) n l, Forall P l -> Forall P (firstn n l).
Proof. intros A P n; induction n; intros [|x l] H; simpl; auto. inversion H; subst; auto. Qed.
Lemma Forall_skipn : forall {A} (P : A -> Prop) n l, Forall P l -> Forall P (skipn n l).
Proof. intros A P n; induction n; intros [|x l] H; simpl; auto. inversion H; subst; auto. Qed.

Lemma seq_nth_lt : forall n i d, i < n -> nth i (seq 0 n) d = i.
Proof. intros; rewrite seq_nth; auto. Qed.
End Lists.

Section MatFacts.
Context {K : Num}.

Lemma mkv_length : forall c f, length (mkv c f) = c.
Proof. intros; unfold mkv; now rewrite map_length, seq_length. Qed.
Lemma vget_mkv : forall c f j, j < c -> vget (mkv c f) j = f j.
Proof.
  intros; unfold vget, mkv. rewrite nth_map_lt with (da := 0); [|now rewrite seq_length].
  now rewrite seq_nth_lt.
Qed.
Lemma vget_over : forall v j, length v <= j -> vget v j = n0.
Proof. intros; unfold vget; now apply nth_overflow. Qed.
Lemma mk_length : forall r c f, length (mk r c f) = r.
Proof. intros; unfold mk; now rewrite map_length, seq_length. Qed.
Lemma nth_mk : forall r c f i d, i < r -> nth i (mk r c f) d = mkv c (f i).
Proof.
  intros; unfold mk. rewrite nth_map_lt with (da := 0); [|now rewrite seq_length].
  now rewrite seq_nth_lt.
Qed.
Lemma mget_mk : forall r c f i j, i < r -> j < c -> mget (mk r c f) i j = f i j.
Proof. intros; unfold mget. rewrite nth_mk by auto. now apply vget_mkv. Qed.
Lemma is_mat_mk : forall r c f, is_mat r c (mk r c f).
Proof.
  intros; split; [apply mk_length|]. unfold mk. apply Forall_forall. intros x H.
  apply in_map_iff in H. destruct H as [i [E _]]; subst. apply mkv_length.
Qed.

Lemma mkv_ext : forall c f g, (forall j, j < c -> f j = g j) -> mkv c f = mkv c g.
Proof. intros; unfold mkv. apply map_ext_in. intros a Ha. apply in_seq in Ha. apply H; lia. Qed.
Lemma mk_ext : forall r c f g, (forall i j, i < r -> j < c -> f i j = g i j) -> mk r c f = mk r c g.
Proof.
  intros; unfold mk. apply map_ext_in. intros a Ha. apply in_seq in Ha. apply mkv_ext.
  intros; apply H; lia.
Qed.

Lemma is_mat_row : forall r c M i, is_mat r c M -> i < r -> length (nth i M []) = c.
Proof.
  intros r c M i [H1 H2] Hi. rewrite Forall_forall in H2. apply H2. apply nth_In. lia.
Qed.

Lemma is_mat_mk_mget : forall r c M, is_mat r c M -> M = mk r c (mget M).
Proof.
  intros r c M H. apply list_ext with (d := []).
  - rewrite mk_length. apply H.
  - intros i Hi. destruct H as [H1 H2]. rewrite nth_mk by lia.
    assert (length (nth i M []) = c) as E. { rewrite Forall_forall in H2. apply H2, nth_In; auto. }
    apply list_ext with (d := n0).
    + now rewrite mkv_length.
    + intros j Hj. change (length (nth i M [])) with (length (nth i M [] : list num)) in *.
      assert (j < c) as Hc by (rewrite <- E; exact Hj).
      transitivity (mget M i j); [reflexivity|]. symmetry. exact (vget_mkv c (mget M i) j Hc).
Qed.

Lemma mat_ext : forall r c A B, is_mat r c A -> is_mat r c B ->
  (forall i j, i < r -> j < c -> mget A i j = mget B i j) -> A = B.
Proof.
  intros r c A B HA HB H. rewrite (is_mat_mk_mget r c A HA), (is_mat_mk_mget r c B HB).
  now apply mk_ext.
Qed.

Lemma vec_ext : forall (v w : vec), length v = length w ->
  (forall i, i < length v -> vget v i = vget w i) -> v = w.
Proof. intros; apply list_ext with n0; auto. Qed.

Lemma is_matb_spec : forall r c M, is_matb r c M = true <-> is_mat r c M.
Proof.
  intros; unfold is_matb, is_mat. rewrite andb_true_iff, Nat.eqb_eq, forallb_forall, Forall_forall.
  split; intros [H1 H2]; split; auto; intros x Hx; specialize (H2 x Hx);
    [apply Nat.eqb_eq|apply Nat.eqb_eq]; auto.
Qed.

Lemma vadd_length : forall x y, length x = length y -> length (vadd x y) = length x.
Proof. intros; unfold vadd; rewrite map2_length; lia. Qed.
Lemma vget_vadd : forall x y j, j < length x -> length x = length y ->
  vget (vadd x y) j = nadd (vget x j) (vget y j).
Proof. intros; unfold vget, vadd. apply nth_map2; lia. Qed.

Lemma is_mat_madd : forall r c A B, is_mat r c A -> is_mat r c B -> is_mat r c (madd A B).
Proof.
  intros r c A B [H1 H2] [H3 H4]. split.
  - unfold madd; rewrite map2_length; lia.
  - unfold madd. rewrite map2_combine. apply Forall_forall. intros x Hx.
    apply in_map_iff in Hx. destruct Hx as [[a b] [E Hin]]. subst. simpl.
    rewrite Forall_forall in H2, H4. rewrite vadd_length.
    + apply H2. eapply in_combine_l; eauto.
    + rewrite H2, H4; auto; [eapply in_combine_r|eapply in_combine_l]; eauto.
Qed.
Lemma mget_madd : forall r c A B i j, is_mat r c A -> is_mat r c B -> i < r -> j < c ->
  mget (madd A B) i j = nadd (mget A i j) (mget B i j).
Proof.
  intros r c A B i j HA HB Hi Hj. unfold mget, madd.
  destruct HA as [A1 A2], HB as [B1 B2]. rewrite Forall_forall in A2, B2.
  rewrite nth_map2 with (da := []) (db := []) by lia.
  assert (length (nth i A []) = c) by (apply A2, nth_In; lia).
  assert (length (nth i B []) = c) by (apply B2, nth_In; lia).
  apply vget_vadd; lia.
Qed.

Lemma is_mat_tdot : forall p q A B, is_mat p q (tdot p q A B).
Proof. intros; apply is_mat_mk. Qed.
Lemma is_mat_scaled_eye : forall n a, is_mat n n (scaled_eye n a).
Proof. intros; apply is_mat_mk. Qed.

Lemma is_mat_nil : forall c, is_mat 0 c [].
Proof. split; auto. Qed.
Lemma is_mat_cons : forall r c x M, is_mat (S r) c (x :: M) <-> length x = c /\ is_mat r c M.
Proof.
  unfold is_mat; intros; split.
  - intros [H1 H2]. inversion H2; subst. simpl in H1. repeat split; auto.
  - intros [H1 [H2 H3]]. split; simpl; auto.
Qed.
Lemma is_mat_app : forall r1 r2 c A B, is_mat r1 c A -> is_mat r2 c B -> is_mat (r1 + r2) c (A ++ B).
Proof. intros r1 r2 c A B [H1 H2] [H3 H4]. split; [rewrite app_length; lia|now apply Forall_app]. Qed.

Lemma is_mat_mmul : forall c A B, is_mat (length A) c (mmul c A B).
Proof.
  intros; unfold mmul; split; [now rewrite map_length|].
  apply Forall_forall. intros x Hx. apply in_map_iff in Hx. destruct Hx as [y [E _]]; subst.
  apply mkv_length.
Qed.
Lemma mcol_length : forall M j, length (mcol M j) = length M.
Proof. intros; unfold mcol; now rewrite map_length. Qed.
Lemma vget_mcol : forall M j i, i < length M -> vget (mcol M j) i = mget M i j.
Proof. intros; unfold vget, mcol, mget. now rewrite nth_map_lt with (da := []). Qed.
Lemma mget_mmul : forall c A B i j, i < length A -> j < c ->
  mget (mmul c A B) i j = dotv (nth i A []) (mcol B j).
Proof.
  intros; unfold mget, mmul. rewrite nth_map_lt with (da := []) by auto. now rewrite vget_mkv.
Qed.
End MatFacts.
