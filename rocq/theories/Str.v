(** str(model): elm.py:100-106 __str__ *)
From Coq Require Import Decimal DecimalNat DecimalString Ascii.
From Verif Require Import Base Num Mat LinAlg Slfn Strs Elm.
Local Open Scope string_scope.

(** "%d" *)
Definition dec (n : nat) : string := NilEmpty.string_of_uint (Nat.to_uint n).
Section Str.
Context {K : Num}.
(** "%s" of the neuron type; [uname i]: what numpy prints for a ufunc *)
Context (uname : nat -> string).
Definition fname (f : ftype) : string :=
  match f with
  | Lin => "lin" | Sigm => "sigm" | Tanh => "tanh"
  | RbfL1 => "rbf_l1" | RbfL2 => "rbf_l2" | RbfLinf => "rbf_linf" | Ufunc i => uname i
  end.
(** s[:-2] *)
Definition cut2 (s : string) : string := substring 0 (String.length s - 2) s.
Definition newline : string := String (ascii_of_nat 10) "".
Definition elm_str (e : elm) : string :=
  let s := "ELM with " ++ dec (s_inputs (e_net e)) ++ " inputs and " ++ dec (s_outputs (e_net e)) ++ " outputs" ++ newline in
  let s := s ++ "Hidden layer neurons: " in
  cut2 (fold_left (fun s n => s ++ dec (n_num n) ++ " " ++ fname (n_func n) ++ ", ") (s_neurons (e_net e)) s).
End Str.
