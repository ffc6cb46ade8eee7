(** C11: solving uses only the data supplied after the last change of neurons (reals). *)
From Coq Require Import Reals Lra Permutation.
From Verif Require Import Base Num Mat LinAlg Slfn Strs Elm Mrsr Search Mss MatFacts SplitProofs Spec ElmFacts RLin
  AccProofs TrainProofs RidgeProofs WfProofs TrainThms IncrThms SolveThms History.
Local Open Scope R_scope.
#[local] Existing Instance NumR.

Section Stale.
Context {SG : Sing}.

Lemma fresh_solve : forall e ps,
  no_data (e_net e) -> wf_net (e_net e) -> usable (e_net e) -> 0 < s_norm (e_net e) -> is_wc e = false ->
  ps <> [] -> Forall (call_ok (s_inputs (e_net e)) (s_outputs (e_net e))) ps ->
  exists e1 s2 H B, run_all part_call e ps = (e1, Ok tt) /\ solve (e_net e1) = (s2, Ok tt) /\ s_B s2 = Some B /\
    elm_project e (Arr2 (s_inputs (e_net e)) (parts_X ps)) = Ok H /\
    ridge_solution (nneurons (s_neurons (e_net e))) (s_outputs (e_net e)) (s_norm (e_net e)) (plain H (parts_T ps)) B.
Proof.
  intros e ps Hf HW HU Hn Hw Hne HO.
  destruct (parts_acc (fun _ => 1) ps e [] (no_data_acc _ Hf) HU) as (e1 & E1 & A1 & Es1 & N1); auto.
  { congruence. } { intros. now apply weights_plain. }
  cbn [app] in A1. specialize (N1 (or_introl Hne)).
  pose proof (parts_len _ _ _ HO) as HL.
  destruct (solve_acc (e_net e1) _ A1 N1) as (B & EB & RS).
  { rewrite Es1. exact Hn. }
  { apply good_samples.
    - intros w Hin. apply in_map_iff in Hin. destruct Hin as (t & <- & Hin). lra.
    - intros h Hin. apply in_map_iff in Hin. destruct Hin as (x & <- & Hin).
      rewrite Es1. unfold getL. cbn [s_L with_corr]. pose proof (wf_getL _ HW) as EL. unfold getL in EL. rewrite EL.
      exact (hrow_length (s_inputs (e_net e)) (s_neurons (e_net e)) x (wf_groups _ HW)). }
  exists e1, (with_B (e_net e1) (Some B)), (map (hrow (s_neurons (e_net e))) (parts_X ps)), B.
  split; [exact E1|]. split; [exact EB|]. split; [reflexivity|]. split.
  - unfold elm_project, check_arr. rewrite Nat.eqb_refl. cbn [rbind]. apply project_ok; auto.
    unfold parts_X. rewrite wide_concat, Forall_map. eapply Forall_impl; [|exact HO]. intros p (_ & _ & _ & O4 & _). exact O4.
  - rewrite samples_plain in RS by (rewrite map_length; auto).
    rewrite Es1 in RS. unfold getL in RS. cbn [s_L with_corr s_outputs s_norm] in RS.
    pose proof (wf_getL _ HW) as EL. unfold getL in EL. rewrite EL in RS. exact RS.
Qed.

(** after a successful add_neurons, whatever had been trained before *)
Theorem solve_after_add_neurons : forall e number func W B0 rW rB e1 ps,
  wf_net (e_net e) -> (forall c m, W = Some (c, m) -> Forall (fun r => length r = c) m) ->
  rand_shapes (s_inputs (e_net e)) rW rB -> 0 < s_norm (e_net e) -> is_wc e = false ->
  add_neurons e number func W B0 rW rB = (e1, Ok tt) -> usable (e_net e1) ->
  ps <> [] -> Forall (call_ok (s_inputs (e_net e1)) (s_outputs (e_net e1))) ps ->
  exists e2 s3 H B, run_all part_call e1 ps = (e2, Ok tt) /\ solve (e_net e2) = (s3, Ok tt) /\ s_B s3 = Some B /\
    elm_project e1 (Arr2 (s_inputs (e_net e1)) (parts_X ps)) = Ok H /\
    ridge_solution (nneurons (s_neurons (e_net e1))) (s_outputs (e_net e1)) (s_norm (e_net e1)) (plain H (parts_T ps)) B.
Proof.
  intros e number func W B0 rW rB e1 ps HW HWr HR Hn Hw E HU Hne HO.
  pose proof (add_neurons_clears _ _ _ _ _ _ _ _ E) as (_ & C2 & C3).
  assert (wf_net (e_net e1)) as HW1.
  { pose proof (wf_add_neurons e number func W B0 rW rB HW HWr HR) as Q. rewrite E in Q. exact Q. }
  assert (s_norm (e_net e1) = s_norm (e_net e) /\ is_wc e1 = is_wc e) as [En Ew].
  { unfold add_neurons in E. destruct (parse_func func) as [f|]; [|discriminate]. destruct (number <? 0)%Z; [discriminate|].
    repeat match type of E with (if ?b then _ else _) = _ => destruct b; [|discriminate] end.
    injection E as <-. split; reflexivity. }
  apply fresh_solve; auto; [split; auto| |]; congruence.
Qed.

(** after pruning *)
Theorem solve_after_prune : forall e idx ps, let e1 := with_net e (prune (e_net e) idx) in
  wf_net (e_net e) -> 0 < s_norm (e_net e) -> is_wc e = false -> usable (e_net e1) ->
  ps <> [] -> Forall (call_ok (s_inputs (e_net e1)) (s_outputs (e_net e1))) ps ->
  exists e2 s3 H B, run_all part_call e1 ps = (e2, Ok tt) /\ solve (e_net e2) = (s3, Ok tt) /\ s_B s3 = Some B /\
    elm_project e1 (Arr2 (s_inputs (e_net e1)) (parts_X ps)) = Ok H /\
    ridge_solution (nneurons (s_neurons (e_net e1))) (s_outputs (e_net e1)) (s_norm (e_net e1)) (plain H (parts_T ps)) B.
Proof.
  intros e idx ps e1 HW Hn Hw HU Hne HO.
  apply fresh_solve; auto; [split; reflexivity|]. now apply wf_prune.
Qed.
End Stale.
