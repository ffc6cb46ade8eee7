(** Witnesses for structure-selection properties that the code violates (exact rationals). *)
From Coq Require Import QArith.
From Verif Require Import Base Num Mat LinAlg Slfn Strs Elm Mrsr Search Mss Demo.
Local Open Scope Q_scope.
Local Open Scope string_scope.

#[local] Existing Instance NumQ.

Section Refute.
Context {SG : Sing} {BR : Brent}.

Lemma run_pair : forall {A B} (p : A * B) b, snd p = b -> p = (fst p, b).
Proof. intros A B [a b'] b H. cbn in *. now rewrite H. Qed.

(** the unchanged order is one of the results np.random.shuffle may give *)
Definition no_shuffle : Shuffle := {| shuffle := fun _ l => l |}.
#[local] Existing Instance no_shuffle.

Definition kw_v (c p : nat) (Xv Tv : list (list Q)) (kmax : option nat) : kwargs :=
  mkKw None kmax None None (Some (Arr2 c Xv)) (Some (Arr2 p Tv)).
Definition kw_cv (k : nat) : kwargs := mkKw None None None (Some k) None None.

(** one linear neuron per input, identity weights *)
Definition unit_row (n i : nat) : list Q := map (fun j => if (i =? j)%nat then 1 else 0) (seq 0 n).
Definition id_model (n p : nat) (cls : string) (w : option (list Q)) : elm :=
  lin_model n p cls w 1000 None 1 n (map (unit_row n) (seq 0 n)) (repeat 0 n).

Definition val_error (e : elm) (Xv Tv : list (list Q)) : res xnum :=
  let? Y := elm_predict e (Arr2 (s_inputs (e_net e)) Xv) in
  elm_error e (Arr2 (s_outputs (e_net e)) Tv) (Arr2 (s_outputs (e_net e)) Y).

(** C38: the second neuron is harmful without the third one *)
Definition k_X : list (list Q) := [[1;0;0];[0;1;0];[0;0;1]].
Definition k_T : list (list Q) := [[2];[2];[2]].
Definition k_Xv : list (list Q) := [[10;1;0];[0;2;-2#1];[0;0;1]].
Definition k_Tv : list (list Q) := [[11];[0];[1]].
Definition kmax_run (k : nat) := train (id_model 3 1 "" None) (Arr2 3 k_X) (Arr2 1 k_T) ["V"; "OP"] (kw_v 3 1 k_Xv k_Tv (Some k)).


(** C37: the fourth neuron is harmful *)
Definition c_X : list (list Q) := [[1;0;0;1];[0;1;0;2];[0;0;1;-1#1];[1;1;0;3];[1;0;1;0];[0;1;1;-2#1]].
Definition c_T : list (list Q) := [[1];[2];[3];[3];[4];[5]].
Definition cv_run := train (id_model 4 1 "" None) (Arr2 4 c_X) (Arr2 1 c_T) ["CV"] (kw_cv 3).
Definition rows (M : list (list Q)) (ix : list nat) : list (list Q) := map (fun i => nth i M []) ix.
(* the three-neuron model trained on samples tr, tested on ts *)
Definition c_X3 := map (firstn 3) c_X.
Definition part_run (tr : list nat) := train (id_model 3 1 "" None) (Arr2 3 (rows c_X3 tr)) (Arr2 1 (rows c_T tr)) [] no_kw.
Definition part_error (tr ts : list nat) := val_error (fst (part_run tr)) (rows c_X3 ts) (rows c_T ts).
(** C39: one neuron, two classes of weights 1 and 4 *)
Definition w_X : list (list Q) := [[1];[2];[3]].
Definition w_T : list (list Q) := [[1;0];[0;1];[1;0]].
Definition kw_w3 : kwargs := mkKw (Some [1; 4]) None None None (Some (Arr2 1 w_X)) (Some (Arr2 2 w_T)).
Definition wc_run (args : list string) := train (id_model 1 2 "" None) (Arr2 1 w_X) (Arr2 2 w_T) args kw_w3.

Lemma small_cv : forall n, In n [1; 2]%nat ->
  exists e', train (id_model n 1 "" None) (Arr2 n (map (firstn n) c_X)) (Arr2 1 c_T) ["CV"] (kw_cv 3) = (e', Err IndexError) /\ True.
Proof. intros n [<-|[<-|[]]]; apply run_err; vm_compute; auto. Qed.

Lemma cv_other_model : exists e' err_t w1 w2 w3,
  cv_run = (e', Ok (Some err_t)) /\ elm_project e' (Arr2 4 c_X) = elm_project (id_model 3 1 "" None) (Arr2 3 c_X3) /\
  part_error [0; 3]%nat [2; 5]%nat = Ok (Fin w1) /\ part_error [1; 4]%nat [0; 3]%nat = Ok (Fin w2) /\ part_error [2; 5]%nat [1; 4]%nat = Ok (Fin w3) /\
  ~ err_t == (w1 + w2 + w3) / 3.
Proof.
  exists (fst cv_run), (6035 # 432), (25 # 2), (5 # 18), (9 # 5).
  split; [apply run_pair; vm_compute; reflexivity|].
  split; [vm_compute; reflexivity|]. split; [vm_compute; reflexivity|]. split; [vm_compute; reflexivity|]. split; [vm_compute; reflexivity|]. vm_compute. discriminate.
Qed.

Lemma kmax_worse : exists e2 e1,
  kmax_run 2 = (e2, Ok None) /\ kmax_run 1 = (e1, Ok None) /\ getL (e_net e2) = 2%nat /\ getL (e_net e1) = 1%nat /\
  val_error e2 k_Xv k_Tv = Ok (Fin (5 # 3)) /\ val_error e1 k_Xv k_Tv = Ok (Fin (2 # 3)).
Proof.
  exists (fst (kmax_run 2)), (fst (kmax_run 1)).
  split; [apply run_pair; vm_compute; reflexivity|]. split; [apply run_pair; vm_compute; reflexivity|]. repeat (match goal with |- _ /\ _ => split end); vm_compute; reflexivity.
Qed.

Lemma wc_ignored : exists e1 e2 e3,
  wc_run ["WC"; "V"] = (e1, Ok None) /\ wc_run ["WC"] = (e2, Ok None) /\ wc_run ["C"] = (e3, Ok None) /\
  s_neurons (e_net e1) = s_neurons (e_net e2) /\
  s_B (e_net e1) = Some [[4 # 15; 2 # 15]] /\ s_B (e_net e2) = Some [[4 # 27; 8 # 27]] /\ s_B (e_net e3) = s_B (e_net e1).
Proof.
  exists (fst (wc_run ["WC"; "V"])), (fst (wc_run ["WC"])), (fst (wc_run ["C"])).
  split; [apply run_pair; vm_compute; reflexivity|]. split; [apply run_pair; vm_compute; reflexivity|]. split; [apply run_pair; vm_compute; reflexivity|]. repeat (match goal with |- _ /\ _ => split end); vm_compute; reflexivity.
Qed.

Lemma mrsr_fails : mrsr [[1]; [2]] [[1]; [2]] 1 1 1 = Err ValueError /\ mrsr [[1; 0]; [2; 1]] [[0]; [0]] 2 1 2 = Err ValueError.
Proof. split; vm_compute; reflexivity. Qed.
Lemma mrsr2_short : exists r, mrsr2 [[1; 0]] [[1]] 2 1 2 = Ok r /\ length r = 1%nat.
Proof. exists [0%nat]. split; vm_compute; reflexivity. Qed.
End Refute.
