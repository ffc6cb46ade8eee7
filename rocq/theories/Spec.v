(** Specification vocabulary, independent of the model's helper functions:
    what training should compute, in terms of samples. *)
From Coq Require Import Reals Permutation.
From Verif Require Import Base Num Mat.
Local Open Scope R_scope.
#[local] Existing Instance NumR.

(** A training sample as the solver should see it: weight, hidden features, target. *)
Definition sample : Type := (R * list R * list R)%type.
Definition sm_w (s : sample) : R := fst (fst s).
Definition sm_h (s : sample) : list R := snd (fst s).
Definition sm_t (s : sample) : list R := snd s.

(** The training set with weights ws, features H and targets T. *)
Fixpoint samples (ws : list R) (H T : list (list R)) : list sample :=
  match ws, H, T with
  | w :: ws, h :: H, t :: T => (w, h, t) :: samples ws H T
  | _, _, _ => []
  end.
(** the same without weights *)
Definition plain (H T : list (list R)) : list sample := map2 (fun h t => (1, h, t)) H T.

(** t is the one-hot row of class k among c classes *)
Definition has_class (c : nat) (t : list R) (k : nat) : Prop :=
  length t = c /\ (k < c)%nat /\ forall j, (j < c)%nat -> nth j t 0 = if Nat.eqb j k then 1 else 0.

Definition Rsum (l : list R) : R := fold_right Rplus 0 l.
Definition entry (v : list R) (i : nat) : R := nth i v 0.

(** norm * I + sum of w h h' *)
Definition spec_HH (L : nat) (norm : R) (ss : list sample) : list (list R) :=
  map (fun i => map (fun j => (if Nat.eqb i j then norm else 0) +
                              Rsum (map (fun s => sm_w s * entry (sm_h s) i * entry (sm_h s) j) ss))
                    (seq 0 L)) (seq 0 L).

(** sum of w h t' *)
Definition spec_HT (L c : nat) (ss : list sample) : list (list R) :=
  map (fun i => map (fun k => Rsum (map (fun s => sm_w s * entry (sm_h s) i * entry (sm_t s) k) ss))
                    (seq 0 c)) (seq 0 L).

(** h . (column k of B) *)
Definition predict1 (B : list (list R)) (h : list R) (k : nat) : R :=
  Rsum (map (fun i => entry h i * entry (nth i B []) k) (seq 0 (length h))).

(** The ridge objective: sum of w |h B - t|^2 + norm |B|^2 *)
Definition ridge_loss (L c : nat) (norm : R) (ss : list sample) (B : list (list R)) : R :=
  Rsum (map (fun s => Rsum (map (fun k => sm_w s * (predict1 B (sm_h s) k - entry (sm_t s) k) ^ 2) (seq 0 c))) ss)
  + norm * Rsum (map (fun i => Rsum (map (fun k => entry (nth i B []) k ^ 2) (seq 0 c))) (seq 0 L)).

(** shape of a matrix *)
Definition shape (r c : nat) (M : list (list R)) : Prop :=
  length M = r /\ forall row, In row M -> length row = c.

(** A X = Y for a square A of order n and c columns *)
Definition solves (n c : nat) (A X Y : list (list R)) : Prop :=
  forall i k, (i < n)%nat -> (k < c)%nat ->
    Rsum (map (fun j => entry (nth i A []) j * entry (nth j X []) k) (seq 0 n)) = entry (nth i Y []) k.

(** the weight of a sample of class k: (number of samples) / (samples of that class) *)
Definition auto_weight (ks : list nat) (k : nat) : R := INR (length ks) / INR (count_occ Nat.eq_dec ks k).

(** squared residual of A X = Y, and X is a least-squares solution *)
Definition residual (n c : nat) (A X Y : list (list R)) : R :=
  Rsum (map (fun k => Rsum (map (fun i =>
    (Rsum (map (fun j => entry (nth i A []) j * entry (nth j X []) k) (seq 0 n)) - entry (nth i Y []) k) ^ 2)
    (seq 0 n))) (seq 0 c)).
Definition least_squares (n c : nat) (A X Y : list (list R)) : Prop :=
  forall X', residual n c A X Y <= residual n c A X' Y.

(** Run an operation over a list of inputs, stop at the first exception. *)
Fixpoint run_all {St P} (f : St -> P -> St * res unit) (s : St) (ps : list P) : St * res unit :=
  match ps with
  | [] => (s, Ok tt)
  | p :: r => match f s p with
              | (s', Ok _) => run_all f s' r
              | (s', Err x) => (s', Err x)
              end
  end.
