(** Witnesses for training properties that the code violates (exact rationals). *)
From Coq Require Import QArith.
From Verif Require Import Base Num Mat LinAlg Slfn Strs Elm Mrsr Search Mss Hpelm Demo.
Local Open Scope Q_scope.

#[local] Existing Instance NumQ.

(** reading the correlation matrices *)
Definition corrQ (s : slfn) : list (list Q) * list (list Q) :=
  match get_corr s with Ok (Some p) => p | _ => ([], []) end.
Lemma run_corr (s : slfn) (P : list (list Q) -> list (list Q) -> Prop) :
  (match get_corr s with Ok (Some _) => true | _ => false end) = true ->
  P (fst (corrQ s)) (snd (corrQ s)) -> exists HH HT, get_corr s = Ok (Some (HH, HT)) /\ P HH HT.
Proof.
  unfold corrQ. destruct (get_corr s) as [[[HH HT]|]|]; try discriminate. cbn. intros _ H. exists HH, HT. auto.
Qed.

Section Refute.
Context {SG : Sing}.

(** C05 *)
Definition wc_model : elm := lin_model 1 2 "wc" (Some [1; 9]) 10 None 0 1 [[1]] [0].

Lemma wc_misaligned :
  is_wc wc_model = true /\ e_wc wc_model = Some [Fin 1; Fin 9] /\
  (* first row has two ones, second row none: no sample is of class 1 only *)
  exists e', add_data wc_model [[1]; [1]] [[1; 1]; [0; 0]] = (e', Ok tt) /\
  exists HH HT, get_corr (e_net e') = Ok (Some (HH, HT)) /\ HH = [[1 * 1 + 9 * 1]].
Proof.
  split; [vm_compute; reflexivity|]. split; [vm_compute; reflexivity|].
  apply run_ok; [vm_compute; reflexivity|]. apply run_corr; vm_compute; reflexivity.
Qed.

Lemma wc_broadcast : exists e',
  (* only the first row contains a 1; its weight 9 is used for all three samples *)
  add_data wc_model [[1]; [1]; [1]] [[0; 1]; [1 # 2; 1 # 2]; [0; 0]] = (e', Ok tt) /\
  exists HH HT, get_corr (e_net e') = Ok (Some (HH, HT)) /\ HH = [[9 * (1 + 1 + 1)]].
Proof. apply run_ok; [vm_compute; reflexivity|]. apply run_corr; vm_compute; reflexivity. Qed.

(** C03: automatic weights come from the first part only *)
Definition auto_model : elm := lin_model 1 2 "wc" None 10 None 0 1 [[1]] [0].

(** 16 samples of class 0 and 9 of class 1, then 2 of class 0 and 23 of class 1
    (chosen so that all square roots are rational) *)
Definition part1_T : list (list Q) := repeat [1; 0] 16 ++ repeat [0; 1] 9.
Definition part2_T : list (list Q) := repeat [1; 0] 2 ++ repeat [0; 1] 23.
Definition part_X : list (list Q) := repeat [1] 25.

Lemma auto_parts :
  (exists e1, add_data auto_model (part_X ++ part_X) (part1_T ++ part2_T) = (e1, Ok tt) /\
     exists HH HT, get_corr (e_net e1) = Ok (Some (HH, HT)) /\ HT = [[50; 50]]) /\
  (exists e', add_data auto_model part_X part1_T = (e', Ok tt) /\
     exists e2, add_data e' part_X part2_T = (e2, Ok tt) /\
     exists HH HT, get_corr (e_net e2) = Ok (Some (HH, HT)) /\ HT = [[225 # 8; 800 # 9]]).
Proof.
  split.
  - apply run_ok; [vm_compute; reflexivity|]. apply run_corr; vm_compute; reflexivity.
  - apply run_ok; [vm_compute; reflexivity|]. apply run_ok; [vm_compute; reflexivity|].
    apply run_corr; vm_compute; reflexivity.
Qed.

(** C07 *)
Definition rt_model : elm := lin_model 2 1 "" None 10 None 0 2 [[1; 0]; [0; 1]] [0; 0].
Lemma fast_roundtrip :
  s_kind (e_net rt_model) = Fast /\
  exists s', set_corr (e_net rt_model) 2 2 [[2; 1]; [1; 2]] 2 1 [[1]; [1]] = (s', Ok tt) /\
  exists HH HT, get_corr s' = Ok (Some (HH, HT)) /\ HH = [[2; 1]; [2; 2]].
Proof.
  split; [vm_compute; reflexivity|]. apply run_ok; [vm_compute; reflexivity|].
  apply run_corr; vm_compute; reflexivity.
Qed.

(** C09: solve_corr of the default solver given a full symmetric singular matrix
    (this is what HPELM.solve_corr, validation_corr and the structure selection do) *)
Definition fast3 : elm := lin_model 3 1 "" None 10 None 0 3 [[1; 0; 0]; [0; 1; 0]; [0; 0; 1]] [0; 0; 0].
Definition sing3 : list (list Q) := [[1; 1; 1]; [1; 1; 1]; [1; 1; 3]].
Lemma fast_fallback :
  mmul 1 sing3 (solve_corr (e_net fast3) 3 sing3 [[1]; [1]; [0]]) <> [[1]; [1]; [0]] /\
  mmul 1 sing3 [[3 # 2]; [0]; [-1 # 2]] = [[1]; [1]; [0]].
Proof. split; [vm_compute; discriminate|vm_compute; reflexivity]. Qed.

(** the same through the public method HPELM.solve_corr *)
Lemma fast_fallback_api : exists e',
  hp_solve_corr fast3 (mkFs (Some (3%nat, sing3)) (Some (1%nat, [[1]; [1]; [0]]))) = (e', Ok tt) /\
  match s_B (e_net e') with Some B => mmul 1 sing3 B <> [[1]; [1]; [0]] | None => False end.
Proof. apply run_ok; vm_compute; [reflexivity|discriminate]. Qed.
End Refute.
