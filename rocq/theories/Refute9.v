(** Witness: a falling and rising validation error whose minimum the search misses (C66). *)
From Coq Require Import QArith.
From Verif Require Import Base Num Mat LinAlg Slfn Strs Elm Mrsr Search Mss Demo Refute4.
Local Open Scope Q_scope.
Local Open Scope string_scope.
#[local] Existing Instance NumQ.
#[local] Existing Instance no_shuffle.

Section Refute.
Context {SG : Sing} {BR : Brent}.

(** seven neurons, one per input; trained output weights are all 1 *)
Definition u_X : list (list Q) := map (unit_row 7) (seq 0 7).
Definition u_T : list (list Q) := repeat [2] 7.
Definition u_Tv : list (list Q) := [[11 # 2]; [11 # 2]; [11 # 2]; [0]; [0]; [0]; [0]].
Definition u_run := train (id_model 7 1 "" None) (Arr2 7 u_X) (Arr2 1 u_T) ["V"] (kw_v 7 1 u_X u_Tv None).
(** the first j neurons *)
Definition u_sub (j : nat) := train (lin_model 7 1 "" None 1000 None 1 j (map (fun i => firstn j (unit_row 7 i)) (seq 0 7)) (repeat 0 j))
  (Arr2 7 u_X) (Arr2 1 u_T) [] no_kw.
Definition u_error (j : nat) : res xnum := val_error (fst (u_sub j)) u_X u_Tv.

Lemma search_misses : exists e',
  u_run = (e', Ok None) /\ getL (e_net e') = 4%nat /\ elm_project e' (Arr2 7 u_X) = elm_project (fst (u_sub 4)) (Arr2 7 u_X) /\
  (forall j, In j [1; 2; 3; 4; 5; 6; 7]%nat -> snd (u_sub j) = Ok None) /\
  map u_error [1; 2; 3; 4; 5; 6; 7]%nat = map (fun q => Ok (Fin q)) [323 # 28; 283 # 28; 243 # 28; 247 # 28; 251 # 28; 255 # 28; 37 # 4].
Proof.
  exists (fst u_run). split; [apply run_pair; vm_compute; reflexivity|]. split; [vm_compute; reflexivity|]. split; [vm_compute; reflexivity|]. split.
  - intros j H. repeat (destruct H as [<-|H]; [vm_compute; reflexivity|]). destruct H.
  - vm_compute. reflexivity.
Qed.
End Refute.
