(** Witnesses for state, range and file properties that the code violates (exact rationals). *)
From Coq Require Import QArith.
From Verif Require Import Base Num Mat LinAlg Slfn Strs Elm Mrsr Search Mss Hpelm WfProofs Demo Refute1.
Local Open Scope Q_scope.

#[local] Existing Instance NumQ.

Section Refute.
Context {SG : Sing}.

(** C10: load into a model with an accelerator *)
Definition load_target : elm :=
  match elm_init 2 1 "" None 10 (Some "basic"%string) PF64 (Some (1 : Q)) with Ok e => e | Err _ => dead end.
Definition load_source : elm := lin_model 3 1 "" None 10 None 1 1 [[1]; [1]; [1]] [0].
Lemma load_inconsistent :
  elm_init 2 1 "" None 10 (Some "basic"%string) PF64 (Some (1 : Q)) = Ok load_target /\
  exists e', update_from load_target (output_format load_source) = (e', Ok tt) /\
    s_inputs (e_net e') = 2%nat /\ map (fun n => length (n_W n)) (s_neurons (e_net e')) = [3%nat] /\
    ~ wf_net (e_net e') /\ elm_project e' (Arr2 2 [[1; 1]]) = Err ValueError.
Proof.
  split; [vm_compute; reflexivity|]. apply run_ok; [vm_compute; reflexivity|].
  split; [vm_compute; reflexivity|]. split; [vm_compute; reflexivity|].
  split; [|vm_compute; reflexivity]. intros HW. pose proof (wf_groups _ HW) as HG. apply Forall_inv in HG. destruct HG as [[HL _] _]. vm_compute in HL. discriminate.
Qed.

(** C16 *)
Definition id_model : elm := lin_model 1 1 "" None 10 None 1 1 [[1]] [0].
Lemma project_range_wrong :
  elm_project id_model (Arr2 1 [[5]; [7]]) = Ok [[5]; [7]] /\
  hp_project id_model (SArr (Arr2 1 [[5]; [7]])) DNew 1 (Some 1%Z) = Ok [[0]].
Proof. split; vm_compute; reflexivity. Qed.

(** C30 *)
Definition basic_model : elm := lin_model 1 1 "" None 10 (Some "basic"%string) 2 1 [[1]] [0].
Lemma files_alias :
  (exists e' fs, hp_add_data basic_model (SArr (Arr2 1 [[1]; [2]])) (SArr (Arr2 1 [[1]; [1]])) 0 None (Some (mkFs None None))
     = (e', Some fs, Ok tt) /\ f_HH fs = Some (1%nat, [[7]]) /\
     exists HH HT, get_corr (e_net e') = Ok (Some (HH, HT)) /\ HH = [[5]]) /\
  (exists e', hp_add_data basic_model (SArr (Arr2 1 [[1]; [2]])) (SArr (Arr2 1 [[1]; [1]])) 0 None None
     = (e', None, Ok tt) /\
     exists HH HT, get_corr (e_net e') = Ok (Some (HH, HT)) /\ HH = [[7]]).
Proof.
  split.
  - set (r := hp_add_data _ _ _ _ _ _).
    exists (fst (fst r)), (match snd (fst r) with Some f => f | None => mkFs None None end).
    split; [vm_compute; reflexivity|]. split; [vm_compute; reflexivity|]. apply run_corr; vm_compute; reflexivity.
  - set (r := hp_add_data _ _ _ _ _ _). exists (fst (fst r)).
    split; [vm_compute; reflexivity|]. apply run_corr; vm_compute; reflexivity.
Qed.

(** C17 / C29: automatic class weights come from the range only *)
Definition rangeT : list (list Q) := part1_T ++ part2_T.
Lemma auto_ranges :
  (exists e1, hp_add_data auto_model (SArr (Arr2 1 (part_X ++ part_X))) (SArr (Arr2 2 rangeT)) 0 None None = (e1, None, Ok tt) /\
     exists HH HT, get_corr (e_net e1) = Ok (Some (HH, HT)) /\ HT = [[50; 50]]) /\
  (exists e' e2, hp_add_data auto_model (SArr (Arr2 1 (part_X ++ part_X))) (SArr (Arr2 2 rangeT)) 0 (Some 25%Z) None = (e', None, Ok tt) /\
     hp_add_data e' (SArr (Arr2 1 (part_X ++ part_X))) (SArr (Arr2 2 rangeT)) 25 (Some 25%Z) None = (e2, None, Ok tt) /\
     exists HH HT, get_corr (e_net e2) = Ok (Some (HH, HT)) /\ HT = [[225 # 8; 800 # 9]]).
Proof.
  split.
  - set (r := hp_add_data _ _ _ _ _ _). exists (fst (fst r)).
    split; [vm_compute; reflexivity|]. apply run_corr; vm_compute; reflexivity.
  - set (r := hp_add_data _ _ _ _ _ _). exists (fst (fst r)).
    set (r' := hp_add_data (fst (fst r)) _ _ _ _ _). exists (fst (fst r')).
    split; [vm_compute; reflexivity|]. split; [vm_compute; reflexivity|]. apply run_corr; vm_compute; reflexivity.
Qed.

(** C53 *)
Definition uf_model : elm * res unit :=
  match elm_init 1 1 "" None 10 None PF64 (Some (1 : Q)) with
  | Ok e => add_neurons e 1 (FUfunc 0) (Some (1%nat, [[1]])) (Some [0]) (fun _ => []) (fun _ => [])
  | Err x => (dead, Err x)
  end.
Lemma ufunc_unusable : snd uf_model = Ok tt /\ exists x, elm_project (fst uf_model) (Arr2 1 [[1]]) = Err x.
Proof. split; [vm_compute; reflexivity|]. exists KeyError. vm_compute. reflexivity. Qed.
End Refute.
