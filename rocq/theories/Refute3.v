(** Witnesses for error properties that the code violates (exact rationals). *)
From Coq Require Import QArith.
From Verif Require Import Base Num Mat LinAlg Slfn Strs Elm Mrsr Search Mss Hpelm Demo Refute1.
Local Open Scope Q_scope.

#[local] Existing Instance NumQ.

Section Refute.
Context {SG : Sing}.

(** C19: weighted classification with weights 1 and 2, all samples of class 0 *)
Definition wc_model : elm := demo None "wc" (Some [1; 2]).
Lemma wc_differ :
  elm_error wc_model (Arr2 2 [[1; 0]; [1; 0]]) (Arr2 2 [[1; 0]; [0; 1]]) = Ok (Fin (1 # 6)) /\
  hp_error wc_model (SArr (Arr2 2 [[1; 0]; [1; 0]])) (SArr (Arr2 2 [[1; 0]; [0; 1]])) 0 None = Ok XNaN.
Proof. split; vm_compute; reflexivity. Qed.

(** C20: zero samples give error 0 *)
Lemma empty_perfect :
  hp_error (demo None "" None) (SArr (Arr2 2 [[1; 0]])) (SArr (Arr2 2 [[0; 3]])) 1 None = Ok (Fin 0) /\
  hp_error (demo None "c" None) (SArr (Arr2 2 [[1; 0]])) (SArr (Arr2 2 [[0; 3]])) 0 (Some 0%Z) = Ok (Fin 0) /\
  hp_error (demo None "ml" None) (SArr (Arr2 2 [[1; 0]])) (SArr (Arr2 2 [[0; 3]])) 5 None = Ok (Fin 0) /\
  elm_error wc_model (Arr2 2 []) (Arr2 2 []) = Ok (Fin 0).
Proof. repeat split; vm_compute; reflexivity. Qed.
End Refute.
