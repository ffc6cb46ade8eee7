(** Models of the LAPACK / numpy solvers called by hpelm, in exact arithmetic.
    Where the result is mathematically determined (non-singular systems) the
    model computes it; where it is not (singular systems) the result comes from
    the oracle class [Sing], about which nothing is assumed. *)
From Verif Require Import Base Num Mat.

(** Results of numpy on singular inputs: unknown to the model. *)
Class Sing {K : Num} := {
  lstsq_sing : mat -> mat -> mat;      (* np.linalg.lstsq(A, R)[0], A rank deficient *)
  pinv_sing : mat -> mat;              (* np.linalg.pinv(A), A rank deficient *)
  lu_sing : mat -> mat -> mat          (* scipy lu_solve(lu_factor(A), R), A singular *)
}.

Section LinAlg.
Context {K : Num}.

(** [_, B, info = lapack.dposv(HH, HT)] (called at nnets/slfn_python.py:60,
    nnets/slfn_skcuda.py:262): Cholesky factorisation reading only the upper
    triangle of HH (f2py default lower=0) followed by two triangular solves.
    Written as symmetric elimination; [None] = "info > 0" = some pivot is not
    positive.  n: order of HH, c: number of right-hand sides. *)
Fixpoint posv (n c : nat) (A R : mat) : option mat :=
  match n with
  | O => Some []
  | S m =>
    let a := mget A 0 0 in
    if nltb n0 a then
      let A' := mk m m (fun i j => nsub (mget A (S i) (S j))
                                        (ndiv (nmul (mget A 0 (S i)) (mget A 0 (S j))) a)) in
      let R' := mk m c (fun i k => nsub (mget R (S i) k)
                                        (ndiv (nmul (mget A 0 (S i)) (mget R 0 k)) a)) in
      match posv m c A' R' with
      | Some X =>
        Some (mkv c (fun k => ndiv (nsub (mget R 0 k)
                                 (sumn m (fun j => nmul (mget A 0 (S j)) (mget X j k)))) a) :: X)
      | None => None
      end
    else None
  end.

(** [np.linalg.lstsq(A, R)[0]] for a square A of order n with c right-hand
    sides: with full column rank the least-squares solution is unique and given
    by the normal equations A'A X = A'R. *)
Definition lstsq {S : Sing} (n c : nat) (A R : mat) : mat :=
  match posv n c (tdot n n A A) (tdot n c A R) with
  | Some X => X
  | None => lstsq_sing A R
  end.

Definition eye (n : nat) : mat := scaled_eye n n1.

(** A' for a square matrix of order n *)
Definition transp (n : nat) (A : mat) : mat := mk n n (fun i j => mget A j i).

(** [np.linalg.pinv(A)], A square of order n: with full column rank it is
    (A'A)^-1 A'. *)
Definition pinv {S : Sing} (n : nat) (A : mat) : mat :=
  match posv n n (tdot n n A A) (transp n A) with
  | Some X => X
  | None => pinv_sing A
  end.

(** [np.linalg.inv(A)], A square of order n: raises LinAlgError exactly when A
    is singular, i.e. when A'A is not positive definite. *)
Definition inv (n : nat) (A : mat) : res mat :=
  match posv n n (tdot n n A A) (transp n A) with
  | Some X => Ok X
  | None => Err LinAlgError
  end.

(** [lu_solve(lu_factor(A), R)]: the unique solution when A is non-singular. *)
Definition lu_solve {S : Sing} (n c : nat) (A R : mat) : mat :=
  match posv n c (tdot n n A A) (tdot n c A R) with
  | Some X => X
  | None => lu_sing A R
  end.

(** np.triu(A, k=1).T added to A: A + triu(A, k=1).T *)
Definition add_triu1_T (n : nat) (A : mat) : mat :=
  mk n n (fun i j => nadd (mget A i j) (if (j <? i)%nat then mget A j i else n0)).

(** np.triu(A) + np.triu(A, k=1).T *)
Definition triu_sym (n : nat) (A : mat) : mat :=
  mk n n (fun i j => nadd (if (i <=? j)%nat then mget A i j else n0)
                          (if (j <? i)%nat then mget A j i else n0)).
End LinAlg.
