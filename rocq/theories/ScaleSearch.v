(** The search for the number of neurons compares errors only: it takes the same way if all errors
    are multiplied by a positive number. *)
From Coq Require Import Reals Lra.
From Verif Require Import Base Num Search RLin.
Local Open Scope list_scope.
Local Open Scope R_scope.
#[local] Existing Instance NumR.

(** both succeed with related results, or both fail alike *)
Definition alike {A B} (P : A -> B -> Prop) (x : res A) (y : res B) : Prop :=
  match x, y with Ok a, Ok b => P a b | Err u, Err v => u = v | _, _ => False end.
Lemma alike_bind : forall {A B A' B'} (P : A -> B -> Prop) (Q : A' -> B' -> Prop) x y f g, alike P x y ->
  (forall a b, P a b -> alike Q (f a) (g b)) -> alike Q (rbind x f) (rbind y g).
Proof. intros A B A' B' P Q [a|u] [b|v] f g H K; cbn in *; auto; contradiction. Qed.
Lemma alike_impl : forall {A B} (P Q : A -> B -> Prop) x y, alike P x y -> (forall a b, P a b -> Q a b) -> alike Q x y.
Proof. intros A B P Q [a|u] [b|v] H K; cbn in *; auto. Qed.

Lemma F2_len : forall {A B} (P : A -> B -> Prop) l m, Forall2 P l m -> length l = length m.
Proof. intros A B P l m H. induction H; cbn; auto. Qed.

Section S.
Variable f : R.
Hypothesis Hf : 0 < f.
Definition rel (a b : R) : Prop := (a = -1 /\ b = -1) \/ (0 <= a /\ b = f * a).
Lemma rel_eq : forall a b a' b', rel a b -> rel a' b' -> @neqb NumR a a' = @neqb NumR b b'.
Proof.
  intros a b a' b' H H'. change (Reqb a a' = Reqb b b'). destruct (Reqb a a') eqn:E, (Reqb b b') eqn:F; auto.
  - apply Reqb_spec in E. apply Reqb_false in F. exfalso. apply F. destruct H as [[-> ->]|[H ->]], H' as [[H1 ->]|[H1 ->]]; subst; auto; exfalso; lra.
  - apply Reqb_spec in F. apply Reqb_false in E. exfalso. apply E. destruct H as [[-> ->]|[H ->]], H' as [[H1 ->]|[H1 ->]]; auto; exfalso; nra.
Qed.
Lemma rel_lt : forall a b a' b', rel a b -> rel a' b' -> @nltb NumR a a' = @nltb NumR b b'.
Proof.
  intros a b a' b' H H'. change (Rltb a a' = Rltb b b'). destruct (Rltb a a') eqn:E, (Rltb b b') eqn:F; auto; exfalso.
  - apply Rltb_spec in E. apply Rltb_false in F. destruct H as [[-> ->]|[H ->]], H' as [[-> ->]|[H1 ->]]; nra.
  - apply Rltb_spec in F. apply Rltb_false in E. destruct H as [[-> ->]|[H ->]], H' as [[-> ->]|[H1 ->]]; nra.
Qed.
Lemma rel_m1 : rel (@minus1 NumR) (@minus1 NumR).
Proof. left. unfold minus1. cbn. split; lra. Qed.
Lemma rel_min : forall a b a' b', rel a b -> rel a' b' -> rel (@nmin NumR a a') (@nmin NumR b b').
Proof. intros a b a' b' H H'. unfold nmin. rewrite (rel_lt a' b' a b) by auto. destruct (@nltb NumR b' b); auto. Qed.

Lemma zget_rel : forall e e' i, Forall2 rel e e' -> alike rel (@zget NumR e i) (@zget NumR e' i).
Proof.
  intros e e' i H. unfold zget. pose proof (F2_len _ _ _ H) as L. cbn [num NumR] in *. rewrite L. destruct (_ && _)%bool eqn:E; cbn [alike]; auto.
  apply andb_prop in E as [E1 E2]. apply Z.leb_le in E1. apply Z.ltb_lt in E2.
  set (j := Z.to_nat _) in *. assert (j < length e)%nat as Hj by (unfold j; rewrite L; lia).
  clearbody j. clear - H Hj. revert j Hj. induction H; intros [|j] Hj; cbn in *; auto; try lia. apply IHForall2. lia.
Qed.
Lemma zset_rel : forall e e' i v v', Forall2 rel e e' -> rel v v' -> Forall2 rel (@zset NumR e i v) (@zset NumR e' i v').
Proof.
  intros e e' i v v' H Hv. unfold zset. pose proof (F2_len _ _ _ H) as L. cbn [num NumR] in *. rewrite L. set (j := Z.to_nat _). clearbody j.
  clear L. revert j. induction H; intros [|j]; cbn; constructor; auto.
Qed.

Section E.
Variables ev ev' : Z -> res R.
Hypothesis HE : forall i, alike (fun a b => 0 <= a /\ b = f * a) (ev i) (ev' i).
Lemma eval_rel : forall pts e e', Forall2 rel e e' -> alike (Forall2 rel) (@eval_points NumR ev e pts) (@eval_points NumR ev' e' pts).
Proof.
  induction pts as [|i pts IH]; intros e e' H; cbn [eval_points]; [exact H|].
  eapply alike_bind; [apply zget_rel; exact H|]. intros a b Hab. rewrite (rel_eq a b (@minus1 NumR) (@minus1 NumR) Hab rel_m1). destruct (@neqb NumR b (@minus1 NumR)); auto.
  eapply alike_bind; [apply HE|]. intros v v' [H1 H2]. apply IH. apply zset_rel; auto. right. auto.
Qed.
Lemma mapM_rel : forall e e' pts, Forall2 rel e e' ->
  alike (Forall2 (fun p q => fst p = fst q /\ rel (snd p) (snd q))) (mapM (fun i => let? v := @zget NumR e i in Ok (i, v)) pts) (mapM (fun i => let? v := @zget NumR e' i in Ok (i, v)) pts).
Proof.
  intros e e' pts H. induction pts as [|i pts IH]; cbn [mapM]; [constructor|].
  eapply alike_bind with (P := fun p q => fst p = fst q /\ rel (snd p) (snd q)).
  - eapply alike_bind; [apply zget_rel; exact H|]. intros a b Hab. cbn. auto.
  - intros p q Hpq. eapply alike_bind; [exact IH|]. intros l l' Hl. cbn. constructor; auto.
Qed.
Definition found (r r' : R * Z * list R) : Prop := rel (fst (fst r)) (fst (fst r')) /\ snd (fst r') = snd (fst r) /\ Forall2 rel (snd r) (snd r').
Lemma search_rel : forall fuel e e' iA iB iC iD iE, Forall2 rel e e' ->
  alike found (@search NumR fuel ev e iA iB iC iD iE) (@search NumR fuel ev' e' iA iB iC iD iE).
Proof.
  induction fuel as [|fuel IH]; intros e e' iA iB iC iD iE H; cbn [search]; [reflexivity|].
  eapply alike_bind; [apply eval_rel; exact H|]. intros t t' Ht.
  do 5 (eapply alike_bind; [apply zget_rel; exact Ht|]; intros ? ? ?).
  match goal with |- context [min5 ?a1 ?b1 ?c1 ?d1 ?e1] => match goal with |- context [min5 ?a2 ?b2 ?c2 ?d2 ?e2] =>
    assert (rel (@min5 NumR a1 b1 c1 d1 e1) (@min5 NumR a2 b2 c2 d2 e2)) as Hm by (unfold min5; repeat apply rel_min; assumption) end end.
  match goal with |- context [min5 ?a1 ?b1 ?c1 ?d1 ?e1] => set (m := @min5 NumR a1 b1 c1 d1 e1) in * end.
  match goal with |- context [min5 ?a1 ?b1 ?c1 ?d1 ?e1] => set (m' := @min5 NumR a1 b1 c1 d1 e1) in * end.
  clearbody m m'.
  repeat match goal with Q : rel ?a ?b |- context [neqb m ?a] => rewrite (rel_eq m m' a b Hm Q) end.
  destruct (if (_ || _)%bool then _ else _) as [[jA jC] jE]. cbn beta iota zeta.
  destruct (2 <? jE - jA)%Z; [apply IH; exact Ht|].
  eapply alike_bind; [apply mapM_rel; exact Ht|]. intros l l' Hl.
  assert (Forall2 (fun p q : Z * R => fst p = fst q /\ rel (snd p) (snd q)) (filter (fun iv => @neqb NumR (snd iv) m) l) (filter (fun iv => @neqb NumR (snd iv) m') l')) as F.
  { clear - Hl Hm Hf. induction Hl as [|p q l l' [H1 H2] Hl IH]; cbn [filter]; [constructor|].
    pose proof (rel_eq (snd p) (snd q) m m' H2 Hm) as Q. cbn [num NumR] in *. rewrite Q. destruct (@neqb NumR (snd q) m'); [constructor; auto|exact IH]. }
  destruct F as [|p q l0 l0' [F1 F2] F]; cbn; [reflexivity|]. split; [exact Hm|]. split; [symmetry; exact F1|exact Ht].
Qed.
Lemma search_from_rel : forall e e' iA L, Forall2 rel e e' -> alike found (@search_from NumR ev e iA L) (@search_from NumR ev' e' iA L).
Proof. intros. apply search_rel. assumption. Qed.
End E.
Lemma init_rel : forall n L v, 0 <= v -> Forall2 rel (@init_table NumR n L v) (@init_table NumR n L (f * v)).
Proof.
  intros n L v Hv. apply zset_rel; [|right; auto]. induction (S n); cbn [repeat]; constructor; auto. apply rel_m1.
Qed.
End S.
