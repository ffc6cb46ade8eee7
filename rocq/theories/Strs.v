(** The Python string operations used by hpelm (ASCII only). *)
From Verif Require Import Base.
From Coq Require Import Ascii.
Local Open Scope string_scope.

Definition lower_ascii (c : ascii) : ascii :=
  let n := nat_of_ascii c in
  if (65 <=? n)%nat && (n <=? 90)%nat then ascii_of_nat (n + 32) else c.
Definition upper_ascii (c : ascii) : ascii :=
  let n := nat_of_ascii c in
  if (97 <=? n)%nat && (n <=? 122)%nat then ascii_of_nat (n - 32) else c.

Fixpoint smap (f : ascii -> ascii) (s : string) : string :=
  match s with EmptyString => EmptyString | String c r => String (f c) (smap f r) end.
Definition lower := smap lower_ascii.        (* s.lower() *)
Definition upper := smap upper_ascii.        (* s.upper() *)

(** [sub in s] *)
Definition contains (sub s : string) : bool :=
  match index 0 sub s with Some _ => true | None => false end.

(** [s in (l)] *)
Definition smem (s : string) (l : list string) : bool := existsb (String.eqb s) l.

(** [s.replace("mc", "ml")] *)
Fixpoint replace_mc (s : string) : string :=
  match s with
  | String "m" (String "c" r) => String "m" (String "l" (replace_mc r))
  | String c r => String c (replace_mc r)
  | EmptyString => EmptyString
  end.
