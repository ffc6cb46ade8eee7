(** One output: mrsr and mrsr2 rank four neurons differently, although brentq returns exact roots. *)
From Coq Require Import QArith.
From Verif Require Import Base Num Mat LinAlg Mrsr.
#[local] Existing Instance NumQ.
Local Open Scope Q_scope.

(** a root of (1 - t) c = |a - t b| in (0, y] *)
Definition is_root (y c a b t : Q) : bool := Qltb 0 t && Qle_bool t y && Qeq_bool ((1 - t) * c) (if Qltb (a - t * b) 0 then - (a - t * b) else a - t * b).
Definition root_of (y c a b : Q) : option Q :=
  let t1 := Qred ((c - a) / (c - b)) in
  let t2 := Qred ((c + a) / (c + b)) in
  if is_root y c a b t1 then Some t1 else if is_root y c a b t2 then Some t2 else None.
#[local] Instance exact_brent : @Brent NumQ := { brentq := fun y c p1 p2 =>
  match p1, p2 with [a], [b] => root_of y c a b | _, _ => None end }.

Lemma exact_root : forall y c a b t, @brentq NumQ exact_brent y c [a] [b] = Some t ->
  0 < t <= y /\ (1 - t) * c == Qabs.Qabs (a - t * b).
Proof.
  intros y c a b t. cbn [brentq exact_brent]. unfold root_of.
  assert (forall x, is_root y c a b x = true -> 0 < x <= y /\ (1 - x) * c == Qabs.Qabs (a - x * b)) as G.
  { intros x E. unfold is_root in E. apply andb_prop in E as [E E3]. apply andb_prop in E as [E1 E2].
    unfold Qltb in E1, E3. apply Bool.negb_true_iff in E1. apply Qle_bool_iff in E2. apply Qeq_bool_iff in E3.
    split; [split; [apply Qnot_le_lt; intros Q; apply Qle_bool_iff in Q; congruence|exact E2]|]. rewrite E3.
    destruct (Qle_bool 0 (a - x * b)) eqn:F; cbn [negb].
    - apply Qle_bool_iff in F. symmetry. now apply Qabs.Qabs_pos.
    - symmetry. apply Qabs.Qabs_neg. apply Qlt_le_weak, Qnot_le_lt. intros Q. apply Qle_bool_iff in Q. congruence. }
  cbv zeta. destruct (is_root y c a b (Qred ((c - a) / (c - b)))) eqn:E1; [intros [= <-]; auto|].
  destruct (is_root y c a b (Qred ((c + a) / (c + b)))) eqn:E2; [intros [= <-]; auto|discriminate].
Qed.
Definition r4_H : list (list Q) := [[2; 0; 0; 0]; [0; 0; 0; 1]; [1; 1; 2; 1]; [0; 1; 0; 2]].
Definition r4_T : list (list Q) := [[1]; [0]; [0]; [3]].
Theorem rankings_differ {SG : @Sing NumQ} : exists BR : @Brent NumQ,
  (forall y c a b t, @brentq NumQ BR y c [a] [b] = Some t -> 0 < t <= y /\ (1 - t) * c == Qabs.Qabs (a - t * b)) /\
  mrsr r4_H r4_T 4 1 4 = Ok [3; 2; 0; 1]%nat /\ @mrsr2 NumQ SG BR r4_H r4_T 4 1 4 = Ok [3; 2; 1; 0]%nat.
Proof. exists exact_brent. split; [exact exact_root|]. split; vm_compute; reflexivity. Qed.
