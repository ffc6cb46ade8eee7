(** C106: what one more sample changes. *)
From Coq Require Import Reals Lra.
From Verif Require Import Base Num Mat LinAlg Slfn Strs Elm Mrsr Search Mss MatFacts ElmFacts WfProofs SubThms RegMore RegMore2 Stability OneMore Demo MoreDemo Spec.
Local Open Scope R_scope.
#[local] Existing Instance NumR.

(** ** C106: k copies of a sample (x, t): one direction q in the weights and one number a, given by X, x and the neurons *)
Theorem C106_copies {SG : Sing} {BR : Brent} {SH : Shuffle} : forall e X x, wf_net (e_net e) -> 0 < s_norm (e_net e) -> exists (q : nat -> R) (a : R), 0 <= a /\
  (forall h, elm_project e (Arr2 (s_inputs (e_net e)) [x]) = Ok [h] -> a = 0 -> forall i, (i < length h)%nat -> entry h i = 0) /\
  forall T t k e1 e2 B1 B2 y1 y2, trained e X T e1 -> trained e (X ++ repeat x k) (T ++ repeat t k) e2 ->
    s_B (e_net e1) = Some B1 -> s_B (e_net e2) = Some B2 ->
    elm_predict e1 (Arr2 (s_inputs (e_net e)) [x]) = Ok [y1] -> elm_predict e2 (Arr2 (s_inputs (e_net e)) [x]) = Ok [y2] ->
    forall j, (j < s_outputs (e_net e))%nat -> (1 + INR k * a) * (entry t j - entry y2 j) = entry t j - entry y1 j /\
      forall i, (i < nneurons (s_neurons (e_net e)))%nat -> entry (nth i B2 []) j = entry (nth i B1 []) j + q i * (INR k / (1 + INR k * a) * (entry t j - entry y1 j)).
Proof. exact one_more. Qed.
(** samples that the model predicts exactly teach it nothing *)
Theorem C106_known {SG : Sing} {BR : Brent} {SH : Shuffle} : forall e X T e1 X' T' e2, trained e X T e1 -> elm_predict e1 (Arr2 (s_inputs (e_net e)) X') = Ok T' ->
  trained e (X ++ X') (T ++ T') e2 -> s_B (e_net e2) = s_B (e_net e1).
Proof. exact known_samples. Qed.
(** data that are added are met at least as closely afterwards, and the objective on the old data can only rise *)
Theorem C106_added {SG : Sing} {BR : Brent} {SH : Shuffle} : forall e X T X' T' e1 e2 B1 B2 O1 O2 N1 N2, trained e X T e1 -> trained e (X ++ X') (T ++ T') e2 ->
  s_B (e_net e1) = Some B1 -> s_B (e_net e2) = Some B2 ->
  elm_predict e1 (Arr2 (s_inputs (e_net e)) X) = Ok O1 -> elm_predict e2 (Arr2 (s_inputs (e_net e)) X) = Ok O2 ->
  elm_predict e1 (Arr2 (s_inputs (e_net e)) X') = Ok N1 -> elm_predict e2 (Arr2 (s_inputs (e_net e)) X') = Ok N2 ->
  let rise := total_sq T O2 + s_norm (e_net e) * size_sq B2 - (total_sq T O1 + s_norm (e_net e) * size_sq B1) in
  0 <= rise /\ rise <= total_sq T' N1 - total_sq T' N2.
Proof. exact new_data. Qed.
Example C106_hyps {SG : Sing} {BR : Brent} {SH : Shuffle} : let e := demo_p 2 1 in let x := [1; 2] in let t := [3; 4] in wf_net (e_net e) /\ 0 < s_norm (e_net e) /\
  (exists e1 Y e2, trained e X3 T3 e1 /\ elm_predict e1 (Arr2 2 X3) = Ok Y /\ trained e (X3 ++ X3) (T3 ++ Y) e2) /\
  exists e2, trained e (X3 ++ repeat x 5) (T3 ++ repeat t 5) e2.
Proof.
  cbv zeta. split; [apply demo_p_wf|]. split; [exact Rlt_0_1|]. split.
  - destruct (demo_trains 2 1 X3 T3) as (e1 & Y & H & P); [exact Rlt_0_1|discriminate|reflexivity|repeat constructor|repeat constructor|].
    destruct (trained_predict _ _ _ _ H) as (B & _ & _ & Q).
    destruct (demo_trains 2 1 (X3 ++ X3) (T3 ++ outputs_of 2 B (map (hidden (demo_p 2 1)) X3))) as (e2 & Y2 & H2 & _); [exact Rlt_0_1|discriminate|reflexivity|repeat constructor|repeat constructor|].
    exists e1, (outputs_of 2 B (map (hidden (demo_p 2 1)) X3)), e2. split; [exact H|]. split; [apply (Q X3); repeat constructor|exact H2].
  - destruct (demo_trains 2 1 (X3 ++ repeat [1; 2] 5) (T3 ++ repeat [3; 4] 5)) as (e2 & Y & H & _); [exact Rlt_0_1|discriminate|reflexivity|repeat constructor|repeat constructor|]. exists e2. exact H.
Qed.
Print Assumptions C106_copies.
Print Assumptions C106_known.
Print Assumptions C106_added.
