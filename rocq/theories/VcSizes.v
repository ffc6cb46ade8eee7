(** validation_corr with the sizes it computes from [steps] (C79; reals). *)
From Coq Require Import Reals Lra Permutation Sorted.
From Verif Require Import Base Num Mat LinAlg Slfn Strs Elm Mrsr Search Mss Hpelm MatFacts SplitProofs ElmFacts RLin
  AccProofs TrainProofs RidgeProofs WfProofs TrainThms IncrThms SolveThms NeuronThms ErrThms RangeThms RangeTrain VcThms Sizes Demo MoreDemo Spec.
Local Open Scope string_scope.
Local Open Scope list_scope.
Local Open Scope R_scope.
#[local] Existing Instance NumR.

Section Steps.
Context {SG : @Sing NumR}.

Theorem validation_steps : forall (e : @elm NumR) fs ss dX dT (X T H : list (list R)) steps,
  let s := e_net e in let L := getL s in let c := s_outputs s in
  wf_net s -> ErrThms.plain (e_class e) -> (0 < c)%nat -> (0 < e_batch e)%Z -> 0 < s_norm s ->
  f_HH fs = Some (L, spec_HH L (s_norm s) ss) -> f_HT fs = Some (c, spec_HT L c ss) -> good L ss ->
  data_ok e dX dT X T -> X <> [] -> elm_project e (Arr2 (s_inputs s) X) = Ok H -> (1 <= steps)%nat ->
  exists e' Ls errs confs, validation_corr e fs dX dT (vc_sizes L steps) = (e', Ok (Ls, errs, confs)) /\
    In 3%nat Ls /\ length errs = length Ls /\
    ((3 <= L)%nat -> (2 <= steps)%nat -> StronglySorted lt Ls /\ (length Ls <= steps)%nat /\ In L Ls /\ forall l, In l Ls -> (3 <= l <= L)%nat).
Proof.
  intros e fs ss dX dT X T H steps s L c HW Hp Hc Hb Hn HHH HHT Hg HD HX HPr Hs.
  assert (In 3%nat (vc_sizes L steps)) as H3 by (now apply vc_sizes_small).
  assert (vc_sizes L steps <> []) as HN by (intros E; rewrite E in H3; contradiction).
  destruct (validation_corr_spec e fs ss dX dT X T H (vc_sizes L steps) HW Hp Hc Hb Hn HHH HHT Hg HD HX HPr HN) as (B & e' & best & _ & E & _).
  eexists _, _, _, _. split; [exact E|]. split; [exact H3|]. split; [apply map_length|].
  intros HL H2. destruct (vc_sizes_range L steps HL H2) as (R1 & R2 & R3 & R4 & R5). auto.
Qed.

(** two neurons: a model with three is reported *)
Definition two_samples : list sample := [((1, [1; 2]), [1; 0]); ((1, [2; 0]), [0; 1])].
Definition two_files : @corrfs NumR := mkFs (Some (2%nat, spec_HH 2 1 two_samples)) (Some (2%nat, spec_HT 2 2 two_samples)).
Lemma lin_p_wf : forall p norm, wf_net (e_net (lin_p p norm)).
Proof.
  assert (forall s, s_inputs s = 2%nat -> s_neurons s = s_neurons (e_net (lin_p 1 1)) ->
    s_L s = Some 2%nat -> s_B s = None -> s_HH s = None -> s_HT s = None -> wf_net s) as Q.
  { intros s Ei En EL EB EH ET. constructor; rewrite ?Ei, ?En, ?EL, ?EB, ?EH, ?ET; try exact I; try tauto.
    - cbn. repeat constructor.
    - cbn. repeat constructor; cbn; intuition discriminate. }
  intros p norm; eapply Q; reflexivity.
Qed.
Theorem validation_two : forall steps, (1 <= steps)%nat ->
  exists (e : @elm NumR) fs dX dT e' Ls errs confs,
    getL (e_net e) = 2%nat /\ validation_corr e fs dX dT (vc_sizes 2 steps) = (e', Ok (Ls, errs, confs)) /\ In 3%nat Ls.
Proof.
  intros steps Hs. exists (lin_p 2 1), two_files, (SArr (Arr2 2 (@demo_X NumR))), (SArr (Arr2 2 (@demo_T NumR))).
  destruct (validation_steps (lin_p 2 1) two_files two_samples (SArr (Arr2 2 (@demo_X NumR))) (SArr (Arr2 2 (@demo_T NumR))) (@demo_X NumR) (@demo_T NumR)
    (map (hrow (s_neurons (e_net (lin_p 2 1)))) (@demo_X NumR)) steps) as (e' & Ls & er & cf & E & H3 & _).
  - apply lin_p_wf.
  - left. reflexivity.
  - apply Nat.lt_0_2.
  - reflexivity.
  - exact Rlt_0_1.
  - reflexivity.
  - reflexivity.
  - intros s [<-|[<-|[]]]; split; cbn; try lra; reflexivity.
  - split; [left; reflexivity|]. split; [left; reflexivity|]. split; [reflexivity|]. split; repeat constructor.
  - discriminate.
  - unfold elm_project. cbn [check_arr]. change (s_inputs (e_net (lin_p 2 1))) with 2%nat. rewrite Nat.eqb_refl. cbn [rbind]. apply (@project_ok NumR).
    + split; [discriminate|reflexivity].
    + repeat constructor.
  - exact Hs.
  - exists e', Ls, er, cf. split; [reflexivity|]. split; [exact E|exact H3].
Qed.
End Steps.
