(** Witnesses for C82: a failing add_data that leaves half a batch, or loses data (exact rationals). *)
From Coq Require Import QArith.
From Verif Require Import Base Num Mat LinAlg Slfn Strs Elm Mrsr Search Mss Hpelm Demo.
Local Open Scope Q_scope.
Local Open Scope string_scope.
#[local] Existing Instance NumQ.

Section Refute.
Context {SG : Sing}.

(** one linear neuron, norm 1 *)
Definition one_lin : elm := lin_model 1 1 "" None 1000 None 1 1 [[1]] [0].
(** solve, then predict one value *)
Definition after_solve (e : elm) (x : Q) : res (list (list Q)) :=
  match solve (e_net e) with
  | (s, Ok _) => elm_predict (with_net e s) (Arr2 1 [[x]])
  | (_, Err y) => Err y
  end.

Lemma half_batch :
  (exists e1, add_data one_lin [[1]; [1]] [[5]] = (e1, Err ValueError) /\ get_corr (e_net e1) = Ok (Some ([[3]], [[0]])) /\
     exists e2, add_data e1 [[1]] [[2]] = (e2, Ok tt) /\ after_solve e2 1 = Ok [[1 # 2]]) /\
  (exists e1, add_data one_lin [[1]; [1]] [[1; 1]; [1; 1]] = (e1, Err ValueError) /\ get_corr (e_net e1) = Ok (Some ([[3]], [[0]]))) /\
  (exists e2, add_data one_lin [[1]] [[2]] = (e2, Ok tt) /\ after_solve e2 1 = Ok [[1]]).
Proof.
  split; [|split].
  - apply run_err; [vm_compute; reflexivity|]. split; [vm_compute; reflexivity|]. apply run_ok; vm_compute; reflexivity.
  - apply run_err; vm_compute; reflexivity.
  - apply run_ok; vm_compute; reflexivity.
Qed.

(** HPELM.add_data with a missing fHH and an fHT of two columns *)
Definition one_x : src := SArr (Arr2 1 [[1]]).
Definition one_t : src := SArr (Arr2 1 [[2]]).
Lemma data_lost : let f := mkFs None (Some (2%nat, [[0; 0]])) in
  exists e1, hp_add_data one_lin one_x one_t 0 None None = (e1, None, Ok tt) /\ get_corr (e_net e1) = Ok (Some ([[2]], [[2]])) /\
  exists e2, hp_add_data e1 one_x one_t 0 None (Some f) = (e2, Some (mkFs (Some (1%nat, [[1]])) (f_HT f)), Err AssertionError) /\
    after_solve e1 1 = Ok [[1]] /\ after_solve e2 1 = Err TypeError.
Proof.
  cbv zeta. exists (fst (fst (hp_add_data one_lin one_x one_t 0 None None))). split; [vm_compute; reflexivity|].
  split; [vm_compute; reflexivity|]. eexists. split; [vm_compute; reflexivity|]. split; vm_compute; reflexivity.
Qed.
End Refute.
