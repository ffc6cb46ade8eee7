(** C101: mrsr2 against mrsr; C35: cross-validation with the ranking of mrsr. *)
From Coq Require Import Reals QArith Qabs Lra Lia.
From Verif Require Import Base Num Mat LinAlg Slfn Strs Elm Mrsr Search Mss MatFacts ElmFacts WfProofs SolveThms ErrThms MssThms SubThms FoldThms CvThms WorksThms Demo Refute4 SelectDemo MrsrSpec MrsrPath OpWorks OpCv OpDemo OpDemo2 RankMore Mrsr2Demo Mrsr2Path Spec.
Local Open Scope string_scope.
Local Open Scope list_scope.

Section Rationals.
#[local] Existing Instance NumQ.
Local Open Scope Q_scope.
(** ** C101: with one output, and a brentq that returns exact roots, mrsr and mrsr2 rank four neurons differently *)
Theorem C101_refuted {SG : @Sing NumQ} : exists (BR : @Brent NumQ) (H T : list (list Q)) (r1 r2 : list nat),
  (forall y c a b t, @brentq NumQ BR y c [a] [b] = Some t -> 0 < t <= y /\ (1 - t) * c == Qabs (a - t * b)) /\
  @mrsr NumQ SG H T 4 1 4 = Ok r1 /\ @mrsr2 NumQ SG BR H T 4 1 4 = Ok r2 /\ r1 <> r2.
Proof.
  destruct rankings_differ as (BR & A & B & C). exists BR, r4_H, r4_T, [3; 2; 0; 1]%nat, [3; 2; 1; 0]%nat. split; [exact A|]. split; [exact B|]. split; [exact C|discriminate].
Qed.
End Rationals.

Section Reals.
#[local] Existing Instance NumR.
Local Open Scope R_scope.
Context {SG : Sing} {BR : Brent} {SH : Shuffle}.

(** what mrsr2 does: after the new neuron is added, the output moves towards the fit that includes it *)
Theorem C101_path_partial : forall n m p (H T : list (list R)), is_mat n m H -> is_mat n p T -> independent n m H ->
  forall kmax r, (0 < Nat.min kmax n)%nat -> mrsr2 H T m p kmax = Ok r -> exists Y, mrsr2_path n m p H T r Y.
Proof. exact mrsr2_on_path. Qed.
(** hence one step shrinks the correlations of all chosen neurons, the new one included, by one factor *)
Theorem C101_equal_partial : forall n p (H T : list (list R)) ks Yls y Y Y', best_fit n p H T ks Yls ->
  (forall i o, (i < n)%nat -> (o < p)%nat -> Y' i o = (1 - y) * Y i o + y * Yls i o) ->
  forall k, In k ks -> strength2 n p H T Y' k = Rabs (1 - y) * strength2 n p H T Y k.
Proof. exact step_equal. Qed.
(** with one output both start with the same neuron *)
Theorem C101_first_partial : forall (H T : list (list R)) m k1 k2 r1 r2, length H = length T -> (0 < k2)%nat -> H <> [] ->
  mrsr H T m 1 k1 = Ok r1 -> mrsr2 H T m 1 k2 = Ok r2 -> hd_error r1 = hd_error r2.
Proof. exact first_agree. Qed.
Example C101_hyps : is_mat 2 2 op_H /\ is_mat 2 1 op_T /\ independent 2 2 op_H /\ length op_H = length op_T /\
  exists r1 r2, mrsr op_H op_T 2 1 2 = Ok r1 /\ mrsr2 op_H op_T 2 1 1 = Ok r2.
Proof. split; [apply op_wide|]. split; [apply op_wide|]. split; [exact op_independent|]. split; [reflexivity|exact op_first]. Qed.

(** ** C35: cross-validation works with the ranking of mrsr, if the validation part of every fold can be ranked *)
Theorem C35_cv_op_partial : forall e X T args kw k e1 H, shuffles -> wf_net (e_net e) -> 0 < s_norm (e_net e) -> (0 < s_outputs (e_net e) < 10)%nat ->
  parse_args e args kw = (e1, Ok tt) -> smem "V" args = false -> smem "CV" args = true -> kw_k kw = Some k -> (3 <= k <= length X)%nat ->
  ErrThms.plain (e_class e1) -> e_op e1 = true -> (3 <= ranked_size e1 (nneurons (s_neurons (e_net e))))%nat ->
  length X = length T -> wide (s_outputs (e_net e)) T ->
  elm_project e (Arr2 (s_inputs (e_net e)) X) = Ok H ->
  (forall i, (i < k)%nat -> let ix := val_part (fold_parts (length X) k i) in
     rankable (length ix) (nneurons (s_neurons (e_net e))) (s_outputs (e_net e)) (pick H ix) (pick T ix) (ranked_size e1 (nneurons (s_neurons (e_net e))))) ->
  exists e' err_t, train e (Arr2 (s_inputs (e_net e)) X) (Arr2 (s_outputs (e_net e)) T) args kw = (e', Ok (Some err_t)).
Proof. exact train_cv_rankable. Qed.
Example C35_cv_op_hyps : let e := cv_model in wf_net (e_net e) /\ 0 < s_norm (e_net e) /\ s_outputs (e_net e) = 1%nat /\ nneurons (s_neurons (e_net e)) = 3%nat /\
  elm_project e (Arr2 3 cv_H) = Ok cv_H /\
  (exists e1, parse_args e ["CV"; "OP"] cv_kw = (e1, Ok tt) /\ ErrThms.plain (e_class e1) /\ e_op e1 = true /\ ranked_size e1 3 = 3%nat) /\
  length cv_H = 9%nat /\ wide 1 cv_T /\ length cv_T = 9%nat /\
  forall i, (i < 3)%nat -> let ix := val_part (fold_parts 9 3 i) in rankable (length ix) 3 1 (pick cv_H ix) (pick cv_T ix) 3.
Proof. exact cv_model_ok. Qed.
End Reals.
Print Assumptions C101_refuted.
Print Assumptions C101_path_partial.
Print Assumptions C101_equal_partial.
Print Assumptions C101_first_partial.
Print Assumptions C35_cv_op_partial.
