(** C102: the unit of the targets; C103: training forgets the past. *)
From Coq Require Import Reals QArith Lra Lia.
From Verif Require Import Base Num Mat LinAlg Slfn Strs Elm Mrsr Search Mss Hpelm MssThms Demo Refute10 LooMore OpDemo ScaleTrain ScaleDemo Forget Forget2 Spec.
Local Open Scope string_scope.
Local Open Scope list_scope.

Section Reals.
#[local] Existing Instance NumR.
Local Open Scope R_scope.

(** ** C102: targets in another unit give the same neurons, outputs in the other unit and the error in the other unit *)
Theorem C102_training {SG : Sing} {BR : Brent} {SH : Shuffle} : forall c e X T args kw e1 v, c <> 0 -> unit_free c -> no_class args ->
  (In "C" (map upper args) \/ In "OP" (map upper args) -> 0 < c) -> train e X T args kw = (e1, Ok v) ->
  exists e2, train e X (in_unit c T) args (kw_in_unit c kw) = (e2, Ok (option_map (err_in_unit c (e_class e1)) v)) /\
    s_neurons (e_net e2) = s_neurons (e_net e1) /\ e_class e2 = e_class e1 /\
    forall Z, elm_predict e2 Z = match elm_predict e1 Z with Ok Y => Ok (map (map (Rmult c)) Y) | Err x => Err x end.
Proof. exact train_unit. Qed.
Theorem C102_failure {SG : Sing} {BR : Brent} {SH : Shuffle} : forall c e X T args kw e1 x, c <> 0 -> unit_free c -> no_class args ->
  (In "C" (map upper args) \/ In "OP" (map upper args) -> 0 < c) -> train e X T args kw = (e1, Err x) ->
  exists e2, train e X (in_unit c T) args (kw_in_unit c kw) = (e2, Err x).
Proof. exact train_unit_fails. Qed.
Theorem C102_error {SG : Sing} : forall c e T Y, c <> 0 -> (e_class e = None \/ (e_class e = Some "c" /\ 0 < c)) ->
  elm_error e (in_unit c T) (in_unit c Y) = match elm_error e T Y with Ok x => Ok (xerr_in_unit c (e_class e) x) | Err x => Err x end.
Proof. exact error_unit. Qed.
Theorem C102_ranking {SG : Sing} {BR : Brent} : forall c (H T : list (list R)) m p kmax, 0 < c ->
  mrsr H (map (map (Rmult c)) T) m p kmax = mrsr H T m p kmax /\
  (unit_free c -> mrsr2 H (map (map (Rmult c)) T) m p kmax = mrsr2 H T m p kmax).
Proof. exact ranking_unit. Qed.
Example C102_hyps : exists (SG : @Sing NumR) (BR : @Brent NumR) (SH : Shuffle), (forall c, unit_free c) /\
  no_class ["LOO"; "OP"] /\ no_class ["LOO"; "C"] /\
  (exists e', train op_model (Arr2 2 op_H) (Arr2 1 op_T) ["LOO"; "OP"] no_kw = (e', Ok None)) /\
  (exists e', train loo_model (Arr2 1 loo_H) (Arr2 2 loo_T) ["LOO"; "C"] no_kw = (e', Ok None)).
Proof. exact unit_case. Qed.
End Reals.

(** ** C103: train uses nothing that earlier calls left in the model *)
Theorem C103_train {K : Num} {SG : Sing} {BR : Brent} {SH : Shuffle} : forall e e' X T args kw, same_setup e e' ->
  same_outcome (train e X T args kw) (train e' X T args kw).
Proof. exact train_forgets. Qed.
Theorem C103_hpelm {K : Num} {SG : Sing} {BR : Brent} {SH : Shuffle} : forall e e' fX fT args kw istart icount, same_setup e e' ->
  same_outcome (hp_train e fX fT args kw istart icount) (hp_train e' fX fT args kw istart icount).
Proof. exact hp_train_forgets. Qed.
Theorem C103_calls {K : Num} {SG : Sing} {BR : Brent} {SH : Shuffle} : forall cs e X T args kw, Forall harmless cs ->
  same_outcome (train e X T args kw) (train (fold_left do_call cs e) X T args kw).
Proof. exact train_after. Qed.
Section Rationals.
#[local] Existing Instance NumQ.
(** weighted training, then more data: the model differs, the next training does not *)
Example C103_hyps {SG : @Sing NumQ} {BR : @Brent NumQ} {SH : Shuffle} : let e := lin_model 1 2 "" None 1000 None 1 1 [[1]] [0] in
  let X := [[1]; [2]; [3]] in let T := [[1; 0]; [0; 1]; [0; 1]] in
  let cs := [CTrain (Arr2 1 X) (Arr2 2 T) ["wc"] no_kw; CData X T] in let e' := fold_left do_call cs e in
  Forall harmless cs /\ same_setup e e' /\ s_B (e_net e) = None /\ s_B (e_net e') <> None /\ s_HT (e_net e') <> None /\ e_class e' = Some "wc" /\ e_wc e' <> None /\
  snd (train e' (Arr2 1 X) (Arr2 2 T) [] no_kw) = Ok None.
Proof.
  cbv zeta. split; [repeat constructor|]. split; [vm_compute; repeat split|]. vm_compute. split; [reflexivity|]. split; [discriminate|]. split; [discriminate|]. split; [reflexivity|]. split; [discriminate|reflexivity].
Qed.
End Rationals.
Print Assumptions C102_training.
Print Assumptions C102_failure.
Print Assumptions C102_error.
Print Assumptions C102_ranking.
Print Assumptions C103_train.
Print Assumptions C103_hpelm.
Print Assumptions C103_calls.
