(** Vectors and matrices as lists (of rows): the numpy operations hpelm uses. *)
From Verif Require Import Base Num.

Notation vec := (list num).
Notation mat := (list (list num)).

Section Mat.
Context {K : Num}.

Definition vget (v : vec) (j : nat) : num := nth j v n0.
Definition mget (M : mat) (i j : nat) : num := vget (nth i M []) j.

(** [mk r c f]: the r x c matrix with entries f i j. *)
Definition mkv (c : nat) (f : nat -> num) : vec := map f (seq 0 c).
Definition mk (r c : nat) (f : nat -> nat -> num) : mat := map (fun i => mkv c (f i)) (seq 0 r).

(** [is_mat r c M]: M.shape == (r, c) *)
Definition is_mat (r c : nat) (M : mat) : Prop :=
  length M = r /\ Forall (fun row => length row = c) M.
Definition is_matb (r c : nat) (M : mat) : bool :=
  (length M =? r)%nat && forallb (fun row => length row =? c)%nat M.

Definition sumn (n : nat) (f : nat -> num) : num := nsum (map f (seq 0 n)).

Definition dotv (x y : vec) : num := nsum (map2 nmul x y).
Definition mcol (M : mat) (j : nat) : vec := map (fun row => vget row j) M.

(** np.dot(A, B) where B has c columns *)
Definition mmul (c : nat) (A B : mat) : mat :=
  map (fun ra => mkv c (fun j => dotv ra (mcol B j))) A.

(** np.dot(A.T, B) where A has p and B has q columns *)
Definition tdot (p q : nat) (A B : mat) : mat :=
  mk p q (fun i j => nsum (map2 (fun ra rb => nmul (vget ra i) (vget rb j)) A B)).

Definition vadd (x y : vec) : vec := map2 nadd x y.
Definition madd (A B : mat) : mat := map2 vadd A B.
Definition msub (A B : mat) : mat := map2 (map2 nsub) A B.

(** M[:, ix] and M[ix, :] (fancy indexing with valid indices) *)
Definition vsel (v : vec) (ix : list nat) : vec := map (vget v) ix.
Definition csel (M : mat) (ix : list nat) : mat := map (fun row => vsel row ix) M.
Definition rsel (M : mat) (ix : list nat) : mat := map (fun i => nth i M []) ix.

(** norm * eye(n) *)
Definition scaled_eye (n : nat) (a : num) : mat :=
  mk n n (fun i j => if (i =? j)%nat then a else n0).

(** np.argmax of a vector: index of the first maximum (0 for the empty vector,
    where numpy raises ValueError; callers check). *)
Fixpoint argmax_from (best : num) (bi i : nat) (v : vec) : nat :=
  match v with
  | [] => bi
  | x :: r => if nltb best x then argmax_from x i (S i) r else argmax_from best bi (S i) r
  end.
Definition argmax (v : vec) : nat :=
  match v with [] => O | x :: r => argmax_from x 0 1 r end.

(** np.argmin: index of the first minimum. *)
Fixpoint argmin_from (best : num) (bi i : nat) (v : vec) : nat :=
  match v with
  | [] => bi
  | x :: r => if nltb x best then argmin_from x i (S i) r else argmin_from best bi (S i) r
  end.
Definition argmin (v : vec) : nat :=
  match v with [] => O | x :: r => argmin_from x 0 1 r end.
End Mat.
