(** Base vocabulary of the model: exceptions as values, Python slices, numpy
    batching arithmetic.  Nothing here is specific to hpelm; it models the
    fragment of Python / numpy semantics that hpelm relies on. *)
From Coq Require Export String.
From Coq Require Export List Arith ZArith Lia Bool.
Export ListNotations.
Open Scope list_scope.

(** Python exceptions raised by the modelled code.  [NonFinite] is not a Python
    exception: the real code would continue with inf/nan entries inside a
    matrix; the model stops there and no theorem speaks about what follows.
    [OutOfFuel] is the model's own marker for an exhausted loop bound; the
    theorems show it is never returned. *)
Inductive exn :=
| AssertionError | ValueError | IndexError | TypeError | KeyError | IOError
| AttributeError | LinAlgError | ZeroDivisionError | NonFinite | OutOfFuel.

Inductive res (A : Type) := Ok (a : A) | Err (e : exn).
Arguments Ok {A}. Arguments Err {A}.

Definition rbind {A B} (r : res A) (f : A -> res B) : res B :=
  match r with Ok a => f a | Err e => Err e end.
Notation "'let?' x := r 'in' k" := (rbind r (fun x => k))
  (at level 200, x pattern, r at level 100, k at level 200).

Definition is_ok {A} (r : res A) : bool := match r with Ok _ => true | Err _ => false end.

(** [assert b, ...] *)
Definition py_assert (b : bool) : res unit := if b then Ok tt else Err AssertionError.

(** [mapM f l]: run [f] on each element, stop at the first exception. *)
Fixpoint mapM {A B} (f : A -> res B) (l : list A) : res (list B) :=
  match l with
  | [] => Ok []
  | x :: r => let? y := f x in let? ys := mapM f r in Ok (y :: ys)
  end.

Fixpoint map2 {A B C} (f : A -> B -> C) (l : list A) (m : list B) : list C :=
  match l, m with
  | a :: l', b :: m' => f a b :: map2 f l' m'
  | _, _ => []
  end.

(** Python slice bound normalisation for a sequence of length [n]
    (language reference, "slice objects"): negative indices count from the end,
    then clip to [0, n]. *)
Definition py_bound (n : nat) (i : Z) : nat :=
  if (i <? 0)%Z then Z.to_nat (i + Z.of_nat n) else Nat.min (Z.to_nat i) n.

(** [l[a:b]] *)
Definition slice {A} (l : list A) (a b : Z) : list A :=
  let s := py_bound (length l) a in
  let e := py_bound (length l) b in
  firstn (e - s) (skipn s l).

(** [l[a:b] = rows] for a numpy / PyTables matrix: the right-hand side must
    have exactly as many rows as the slice, or be a single row that is
    broadcast (numpy broadcasting rules for assignment), else ValueError. *)
Definition slice_assign {A} (l : list A) (a b : Z) (rows : list A) : res (list A) :=
  let s := py_bound (length l) a in
  let e := py_bound (length l) b in
  let n := (e - s)%nat in
  let put rs := firstn s l ++ rs ++ skipn (s + n) l in
  if (length rows =? n)%nat then Ok (put rows)
  else match rows with
       | [r] => Ok (put (repeat r n))
       | _ => Err ValueError
       end.

(** [xrange(n)] / [range(n)] for a possibly negative integer. *)
Definition zrange (n : Z) : list Z := map Z.of_nat (seq 0 (Z.to_nat n)).

(** [int(np.ceil(float(n) / b))] for [b > 0], exact (see [NbatchFloat.v] for
    the floating-point evaluation). *)
Definition ceil_div (n b : Z) : Z := (- ((- n) / b))%Z.

(** [np.array_split(l, k, axis=0)] for [k >= 1]: the first [len mod k] pieces
    have [len/k + 1] elements, the others [len/k]. *)
Definition split_sizes (n k : nat) : list nat :=
  repeat (S (n / k)) (n mod k) ++ repeat (n / k) (k - n mod k).

Fixpoint cut {A} (sizes : list nat) (l : list A) : list (list A) :=
  match sizes with
  | [] => []
  | s :: r => firstn s l :: cut r (skipn s l)
  end.

Definition array_split {A} (l : list A) (k : nat) : res (list (list A)) :=
  if (k =? 0)%nat then Err ValueError else Ok (cut (split_sizes (length l) k) l).

(** numpy broadcasting of two row lists along axis 0 in an element-wise
    operation: equal lengths, or one of them has length 1. *)
Definition bcast {A B} (l : list A) (m : list B) : res (list (A * B)) :=
  if (length l =? length m)%nat then Ok (combine l m)
  else match l, m with
       | [a], _ => Ok (map (fun b => (a, b)) m)
       | _, [b] => Ok (map (fun a => (a, b)) l)
       | _, _ => Err ValueError
       end.

Fixpoint list_upd {A} (l : list A) (i : nat) (x : A) : list A :=
  match l, i with
  | [], _ => []
  | _ :: r, O => x :: r
  | y :: r, S j => y :: list_upd r j x
  end.

Definition option_map2 {A B C} (f : A -> B -> C) (x : option A) (y : option B) : option C :=
  match x, y with Some a, Some b => Some (f a b) | _, _ => None end.
