(** The search over the number of neurons ("MYOPT function") shared by
    mss_v.py:37-77, mss_cv.py:66-110 and mss_loo.py:42-88. *)
From Verif Require Import Base Num.
Local Open Scope Z_scope.

Section Search.
Context {K : Num}.

(** e[i] for a numpy vector: negative indices count from the end. *)
Definition zget (e : list num) (i : Z) : res num :=
  let n := Z.of_nat (length e) in
  let j := if i <? 0 then i + n else i in
  if (0 <=? j) && (j <? n) then Ok (nth (Z.to_nat j) e n0) else Err IndexError.
Definition zset (e : list num) (i : Z) (v : num) : list num :=
  let j := if i <? 0 then i + Z.of_nat (length e) else i in
  list_upd e (Z.to_nat j) v.

Definition minus1 : num := nopp n1.

(** mss_v.py:52-59: evaluate the points not evaluated yet.  [ev idx] is the
    error of the model with [idx] neurons plus idx*penalty. *)
Fixpoint eval_points (ev : Z -> res num) (e : list num) (pts : list Z) : res (list num) :=
  match pts with
  | [] => Ok e
  | i :: r =>
    let? v := zget e i in
    if neqb v minus1 then let? v' := ev i in eval_points ev (zset e i v') r
    else eval_points ev e r
  end.

(** min(...) of Python: the first of the smallest *)
Definition min5 (a b c d e : num) : num :=
  nmin e (nmin d (nmin c (nmin b a))).

(** mss_v.py:50-77.  [fuel]: bound on the number of loop iterations, the
    theorems show that [search_fuel] is never exhausted.  Result: (m, k_opt, e). *)
Fixpoint search (fuel : nat) (ev : Z -> res num) (e : list num) (iA iB iC iD iE : Z)
  : res (num * Z * list num) :=
  match fuel with
  | O => Err OutOfFuel
  | S fuel' =>
    let? e := eval_points ev e [iA; iB; iC; iD; iE] in
    let? a := zget e iA in let? b := zget e iB in let? c := zget e iC in
    let? d := zget e iD in let? f := zget e iE in
    let m := min5 a b c d f in
    let '(iA, iC, iE) :=
      if neqb m a || neqb m b then (iA, iB, iC)
      else if neqb m d || neqb m f then (iC, iD, iE)
      else (iB, iC, iD) in
    let l := iE - iA in
    let iB := iA + l / 4 in
    let iD := iA + (3 * l) / 4 in
    if 2 <? l then search fuel' ev e iA iB iC iD iE
    else
      let? vals := mapM (fun i => let? v := zget e i in Ok (i, v)) [iA; iB; iC; iD; iE] in
      match filter (fun iv => neqb (snd iv) m) vals with
      | iv :: _ => Ok (m, fst iv, e)
      | [] => Err IndexError
      end
  end.

Definition search_fuel (iA L : Z) : nat := Z.to_nat (4 * (Z.abs L + Z.abs iA) + 8).

(** mss_v.py:41-50 (iA = 1), mss_cv.py:70-79 (iA = 3), mss_loo.py:46-54 (iA = 1) *)
Definition search_from (ev : Z -> res num) (e : list num) (iA L : Z) : res (num * Z * list num) :=
  let iE := L in
  let l := iE - iA in
  search (search_fuel iA L) ev e iA (iA + l / 4) (iA + l / 2) (iA + 3 * l / 4) iE.

(** e = np.ones((L+1,)) * -1 ; e[L] = eL *)
Definition init_table (size : nat) (L : Z) (eL : num) : list num :=
  zset (repeat minus1 (S size)) L eL.
End Search.
