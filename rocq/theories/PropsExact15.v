(** C101: which neuron mrsr2 takes and how far it goes. *)
From Coq Require Import Reals Lra.
From Verif Require Import Base Num Mat LinAlg Mrsr MatFacts RankThms RLin RidgeProofs RankMore MrsrSpec MrsrPath Mrsr2Path Mrsr2Choice OpDemo ErrThms Spec.
Local Open Scope R_scope.
#[local] Existing Instance NumR.

(** ** C101: the rule of mrsr2. First neuron: largest correlation. Then: the output heads for the fit of the chosen neurons, until a
    remaining neuron reaches the correlation of the neuron chosen last; that one is taken (the last index if none does before the fit);
    the output moves by that fraction towards the fit with the new neuron *)
Theorem C101_choice_partial {SG : Sing} {BR : Brent} : exact_roots BR -> forall n m p (H T : list (list R)), is_mat n m H -> is_mat n p T -> independent n m H ->
  forall kmax r, (0 < Nat.min kmax n)%nat -> mrsr2 H T m p kmax = Ok r -> exists Y Yo, mrsr2_rule n m p H T r Y Yo.
Proof. exact mrsr2_follows. Qed.
Example C101_choice_hyps {SG : Sing} : exact_roots exact_brent /\ is_mat 2 2 op_H /\ is_mat 2 1 op_T /\ independent 2 2 op_H /\ exists r, @mrsr2 NumR SG exact_brent op_H op_T 2 1 2 = Ok r.
Proof. split; [exact exact_brent_ok|]. split; [apply op_wide|]. split; [apply op_wide|]. split; [exact op_independent|]. apply mrsr2_total. lia. Qed.
Print Assumptions C101_choice_partial.
