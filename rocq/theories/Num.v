(** Scalars.  The model is written once over the class [Num]; theorems choose
    the instance.  [NumR]: Coq reals.  [NumQ]: exact rationals, executable. *)
From Verif Require Import Base.
From Coq Require Import Reals QArith Qreduction Lra.

Class Num := {
  num : Type;
  n0 : num; n1 : num;
  nadd : num -> num -> num; nsub : num -> num -> num;
  nmul : num -> num -> num; ndiv : num -> num -> num;
  nopp : num -> num; nabs : num -> num;
  nexp : num -> num; ntanh : num -> num; nsqrt : num -> num;
  nltb : num -> num -> bool;          (* a < b *)
  neqb : num -> num -> bool           (* a == b *)
}.

Section Derived.
Context {K : Num}.
Definition nleb (a b : num) : bool := nltb a b || neqb a b.
Definition nmax (a b : num) : num := if nltb a b then b else a.
Definition nmin (a b : num) : num := if nltb b a then b else a.
Definition nhalf : num := ndiv n1 (nadd n1 n1).
Definition nof_nat (n : nat) : num := Nat.iter n (nadd n1) n0.
Definition nsum (l : list num) : num := fold_right nadd n0 l.
Definition nsq (a : num) : num := nmul a a.

(** Result of a floating-point operation whose special values matter. *)
Inductive xnum := Fin (a : num) | PInf | NInf | XNaN.

(** IEEE-754 special cases; finite results are exact. *)
Definition xinf (positive : bool) : xnum := if positive then PInf else NInf.

Definition np_div (a b : num) : xnum :=            (* finite / finite *)
  if neqb b n0 then
    if neqb a n0 then XNaN else xinf (nltb n0 a)    (* the divisor is +0 in all uses *)
  else Fin (ndiv a b).

Definition xadd (x y : xnum) : xnum :=
  match x, y with
  | Fin a, Fin b => Fin (nadd a b)
  | XNaN, _ | _, XNaN => XNaN
  | PInf, NInf | NInf, PInf => XNaN
  | PInf, _ | _, PInf => PInf
  | NInf, _ | _, NInf => NInf
  end.

Definition xmul (x y : xnum) : xnum :=
  match x, y with
  | Fin a, Fin b => Fin (nmul a b)
  | XNaN, _ | _, XNaN => XNaN
  | Fin a, PInf | PInf, Fin a => if neqb a n0 then XNaN else xinf (nltb n0 a)
  | Fin a, NInf | NInf, Fin a => if neqb a n0 then XNaN else xinf (nltb a n0)
  | PInf, PInf | NInf, NInf => PInf
  | PInf, NInf | NInf, PInf => NInf
  end.

Definition xdiv (x y : xnum) : xnum :=
  match x, y with
  | Fin a, Fin b => np_div a b
  | XNaN, _ | _, XNaN => XNaN
  | Fin _, _ => Fin n0
  | PInf, Fin b => xinf (negb (nltb b n0))
  | NInf, Fin b => xinf (nltb b n0)
  | _, _ => XNaN
  end.

Definition xsum (l : list xnum) : xnum := fold_right xadd (Fin n0) l.
Definition xis_nan (x : xnum) : bool := match x with XNaN => true | _ => false end.
End Derived.
Arguments xnum : clear implicits.
Arguments xnum {K}.

(** ** Reals *)
Definition Rltb (a b : R) : bool := if Rlt_dec a b then true else false.
Definition Reqb (a b : R) : bool := if Req_EM_T a b then true else false.

Definition NumR : Num := {|
  num := R; n0 := 0%R; n1 := 1%R;
  nadd := Rplus; nsub := Rminus; nmul := Rmult; ndiv := Rdiv;
  nopp := Ropp; nabs := Rabs; nexp := exp; ntanh := tanh; nsqrt := sqrt;
  nltb := Rltb; neqb := Reqb |}.

(** ** Rationals in lowest terms (executable).  [exp], [tanh] and [sqrt] have no
    exact rational meaning; witnesses over [NumQ] never depend on them except
    [sqrt] on perfect squares, which [Qsqrt] computes exactly. *)
Definition Zsqrt_q (q : Q) : Q := Qred (Z.sqrt (Qnum q) # (Pos.sqrt (Qden q))).
Definition Qltb (a b : Q) : bool := negb (Qle_bool b a).
Definition NumQ : Num := {|
  num := Q; n0 := 0%Q; n1 := 1%Q;
  nadd := fun a b => Qred (a + b); nsub := fun a b => Qred (a - b);
  nmul := fun a b => Qred (a * b); ndiv := fun a b => Qred (a / b);
  nopp := fun a => Qred (- a); nabs := fun a => if Qltb a 0 then Qred (- a) else a;
  nexp := fun a => Qred (1 + a); ntanh := fun a => a; nsqrt := fun a => Zsqrt_q (Qred a);
  nltb := Qltb; neqb := Qeq_bool |}.
