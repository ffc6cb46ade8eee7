(** Witnesses for C32, C44, C45, C46 (exact rationals). *)
From Coq Require Import QArith.
From Verif Require Import Base Num Mat LinAlg Slfn Strs Elm Mrsr Search Mss Demo Refute4.
Local Open Scope Q_scope.
Local Open Scope string_scope.
#[local] Existing Instance NumQ.

Section Refute.
Context {SG : Sing} {BR : Brent} {SH : Shuffle}.

(** C32 *)
Definition l_target : elm := lin_model 2 1 "" None 10 (Some "basic") 1 1 [[1];[1]] [0].
Definition l_source : elm := lin_model 2 1 "" None 10 None 1 1 [[1];[0]] [0].
Definition l_trained : elm := fst (train l_source (Arr2 2 [[1;0];[0;1]]) (Arr2 1 [[1];[2]]) [] no_kw).
Lemma load_merges :
  (exists e', update_from l_target (output_format l_source) = (e', Ok tt) /\
    elm_project l_source (Arr2 2 [[1;2]]) = Ok [[1]] /\ elm_project e' (Arr2 2 [[1;2]]) = Ok [[3;1]]) /\
  (exists e', update_from l_target (output_format l_trained) = (e', Err AssertionError) /\ is_ok (elm_predict l_trained (Arr2 2 [[1;2]])) = true).
Proof.
  split.
  - apply run_ok; [vm_compute; reflexivity|]. split; vm_compute; reflexivity.
  - apply run_err; vm_compute; reflexivity.
Qed.

(** C44: the third neuron is harmful on the validation data *)
Definition h_Xv : list (list Q) := [[1;0;1]].
Definition h_Tv : list (list Q) := [[1]].
Definition v_run (w : string) := @train NumQ SG BR no_shuffle (id_model 3 1 "" None) (Arr2 3 k_X) (Arr2 1 k_T) [w] (kw_v 3 1 h_Xv h_Tv None).
Definition r_run (args : list string) := train (id_model 1 2 "" None) (Arr2 1 w_X) (Arr2 2 w_T) args no_kw.
Lemma v_case :
  (exists e, v_run "V" = (e, Ok None) /\ nneurons (s_neurons (e_net e)) = 1%nat) /\
  (exists e, v_run "v" = (e, Ok None) /\ nneurons (s_neurons (e_net e)) = 3%nat) /\
  (exists e, r_run ["v"] = (e, Ok None) /\ True) /\ (exists e, r_run ["V"] = (e, Err AssertionError) /\ True).
Proof.
  split; [apply run_ok; vm_compute; reflexivity|]. split; [apply run_ok; vm_compute; reflexivity|].
  split; [apply run_ok; [vm_compute; reflexivity|exact I]|]. apply run_err; [vm_compute; reflexivity|exact I].
Qed.
Lemma r_order :
  (exists e, r_run ["R"; "C"] = (e, Ok None) /\ e_class e = Some "c") /\
  (exists e, r_run ["C"; "R"] = (e, Ok None) /\ e_class e = None).
Proof. split; apply run_ok; vm_compute; reflexivity. Qed.

(** C45 *)
Definition c_model (cls : string) : elm :=
  match elm_init 1 2 cls None 10 None PF64 (Some 1) with Ok e => e | Err _ => dead end.
Lemma upper_class : forall cls, In cls ["C"; "Ml"] ->
  elm_init 1 2 cls None 10 None PF64 (Some 1) = Ok (c_model cls) /\
  elm_init 1 2 (lower cls) None 10 None PF64 (Some 1) = Ok (c_model (lower cls)) /\
  elm_error (c_model cls) (Arr2 2 [[1;0]]) (Arr2 2 [[3;0]]) = Ok (Fin 2) /\
  elm_error (c_model (lower cls)) (Arr2 2 [[1;0]]) (Arr2 2 [[3;0]]) = Ok (Fin 0) /\
  confusion (c_model cls) (Arr2 2 [[1;0]]) (Arr2 2 [[3;0]]) = Err AssertionError /\
  confusion (c_model (lower cls)) (Arr2 2 [[1;0]]) (Arr2 2 [[3;0]]) = Ok [[1;0];[0;0]].
Proof. intros cls [<-|[<-|[]]]; repeat (match goal with |- _ /\ _ => split end); vm_compute; reflexivity. Qed.

(** C46 *)
Definition m_model : elm := id_model 1 2 "c" None.
Definition m_rejected := train m_model (Arr2 1 w_X) (Arr2 2 w_T) ["C"; "ML"] no_kw.
Definition m_batch := train m_model (Arr2 1 w_X) (Arr2 2 w_T) ["V"] (mkKw None None (Some 0%Z) None None None).
Definition m_data := fst (add_data m_model w_X w_T).
Lemma rejected_changes :
  (exists e', m_rejected = (e', Err AssertionError) /\
     elm_error m_model (Arr2 2 [[1;0]]) (Arr2 2 [[3;0]]) = Ok (Fin 0) /\ elm_error e' (Arr2 2 [[1;0]]) (Arr2 2 [[3;0]]) = Ok (Fin 2)) /\
  (exists e', m_batch = (e', Err AssertionError) /\
     snd (train m_model (Arr2 1 w_X) (Arr2 2 w_T) [] no_kw) = Ok None /\ snd (train e' (Arr2 1 w_X) (Arr2 2 w_T) [] no_kw) = Err ZeroDivisionError) /\
  (exists e', train m_data (Arr2 1 w_X) (Arr2 2 w_T) ["C"; "ML"] no_kw = (e', Err AssertionError) /\
     snd (solve (e_net m_data)) = Ok tt /\ is_ok (snd (solve (e_net e'))) = false).
Proof.
  split; [|split].
  - apply run_err; [vm_compute; reflexivity|]. split; vm_compute; reflexivity.
  - apply run_err; [vm_compute; reflexivity|]. split; vm_compute; reflexivity.
  - apply run_err; [vm_compute; reflexivity|]. split; vm_compute; reflexivity.
Qed.
End Refute.
