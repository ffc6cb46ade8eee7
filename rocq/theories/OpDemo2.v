(** Three linear neurons that copy the inputs, nine samples: every third sample is one of three parts. *)
From Coq Require Import Reals Lra Lia.
From Verif Require Import Base Num Mat LinAlg Slfn Strs Elm Mrsr Search Mss MatFacts ElmFacts WfProofs SolveThms ErrThms MssThms SubThms SelThms FoldThms CvThms WorksThms Demo Refute4 SelectDemo MrsrSpec MrsrPath OpWorks OpCv OpDemo RLin RankMore Mrsr2Path Spec.
Local Open Scope string_scope.
Local Open Scope list_scope.
Local Open Scope R_scope.
#[local] Existing Instance NumR.
Definition cv_H : list (list R) := [[1; 0; 0]; [1; 0; 0]; [1; 0; 0]; [0; 1; 0]; [0; 1; 0]; [0; 1; 0]; [0; 0; 1]; [0; 0; 1]; [0; 0; 1]].
Definition cv_T : list (list R) := [[1]; [1]; [1]; [1]; [1]; [1]; [1]; [1]; [1]].
Definition cv_model : @elm NumR := @lin_model NumR 3 1 "" None 2 None 1 3 [[1; 0; 0]; [0; 1; 0]; [0; 0; 1]] [0; 0; 0].
Definition cv_kw : @kwargs NumR := @mkKw NumR None None None (Some 3%nat) None None.
Section D.
Context {SG : @Sing NumR}.
Lemma eye_rankable : rankable 3 3 1 [[1; 0; 0]; [0; 1; 0]; [0; 0; 1]] [[1]; [1]; [1]] 3.
Proof.
  split; [lia|]. split.
  { intros x Hx. pose proof (Hx 0%nat ltac:(lia)) as A. pose proof (Hx 1%nat ltac:(lia)) as B. pose proof (Hx 2%nat ltac:(lia)) as C. unfold total, MrsrSpec.at_ in A, B, C. cbn in A, B, C.
    intros [|[|[|j]]] Hj; [lra|lra|lra|lia]. }
  exists (fun _ _ => 1), [0%nat; 1%nat; 2%nat].
  split. { intros [|[|[|j]]] o Hj Ho; try lia; (destruct o; [|lia]); unfold total, MrsrSpec.at_; cbn; lra. }
  split; [repeat constructor; cbn; intuition lia|]. split; [|split; [discriminate|cbn; lia]].
  intros j [<-|[<-|[<-|[]]]]; (split; [lia|]); exists 0%nat; (split; [lia|]); lra.
Qed.
Lemma cv_rankable : forall i, (i < 3)%nat -> let ix := val_part (fold_parts 9 3 i) in
  rankable (length ix) 3 1 (pick cv_H ix) (pick cv_T ix) 3.
Proof. intros [|[|[|i]]] Hi; try lia; exact eye_rankable. Qed.
Lemma cv_model_eq : cv_model = mkElm (mkSlfn Fast 3 1 1 [mkNeuron 3 Lin [[1; 0; 0]; [0; 1; 0]; [0; 0; 1]] [0; 0; 0]] (Some 3%nat) None None None) 2 true None None None false None.
Proof. reflexivity. Qed.
Lemma cv_project : elm_project cv_model (Arr2 3 cv_H) = Ok cv_H.
Proof.
  rewrite cv_model_eq. unfold elm_project, check_arr. cbn [e_net s_inputs Nat.eqb rbind]. rewrite project_ok.
  - unfold cv_H, hrow. cbn. apply f_equal. repeat f_equal; rring.
  - split; [discriminate|reflexivity].
  - repeat constructor.
Qed.
Lemma cv_model_ok : let e := cv_model in wf_net (e_net e) /\ 0 < s_norm (e_net e) /\ s_outputs (e_net e) = 1%nat /\ nneurons (s_neurons (e_net e)) = 3%nat /\
  elm_project e (Arr2 3 cv_H) = Ok cv_H /\
  (exists e1, parse_args e ["CV"; "OP"] cv_kw = (e1, Ok tt) /\ ErrThms.plain (e_class e1) /\ e_op e1 = true /\ ranked_size e1 3 = 3%nat) /\
  length cv_H = 9%nat /\ wide 1 cv_T /\ length cv_T = 9%nat /\
  forall i, (i < 3)%nat -> let ix := val_part (fold_parts 9 3 i) in rankable (length ix) 3 1 (pick cv_H ix) (pick cv_T ix) 3.
Proof.
  cbv zeta. rewrite !cv_model_eq. split; [constructor; cbn; try exact I; repeat constructor; cbn; auto; intuition discriminate|].
  split; [exact Rlt_0_1|]. split; [reflexivity|]. split; [reflexivity|]. split; [rewrite <- cv_model_eq; exact cv_project|].
  split. { eexists. split; [reflexivity|]. split; [left; reflexivity|]. split; reflexivity. }
  split; [reflexivity|]. split; [repeat constructor|]. split; [reflexivity|]. exact cv_rankable.
Qed.

Lemma op_first {BR : @Brent NumR} : exists r1 r2, @mrsr NumR SG op_H op_T 2 1 2 = Ok r1 /\ @mrsr2 NumR SG BR op_H op_T 2 1 1 = Ok r2.
Proof.
  destruct (mrsr_rankable _ _ _ _ _ _ (proj1 op_wide) (proj2 op_wide) op_rankable) as [r1 E1]. exists r1.
  assert (exists r2, @mrsr2 NumR SG BR op_H op_T 2 1 1 = Ok r2) as [r2 E2]; [|eauto].
  unfold mrsr2. change (Nat.min 1 (length op_H)) with 1%nat. cbn [mrsr2_loop]. unfold mrsr2_step. cbn [rank2 non2 seq first_max].
  rewrite !norm_strength by reflexivity.
  assert (forall i, @nltb NumR (@nopp NumR (@n1 NumR)) (strength_sqr op_H op_T 1 i) = true) as Q.
  { intros i. change (Rltb (- 1) (strength_sqr op_H op_T 1 i) = true). unfold Rltb. destruct (Rlt_dec (-1) (strength_sqr op_H op_T 1 i)) as [|F]; [reflexivity|].
    exfalso. apply F. unfold strength_sqr. eapply Rlt_le_trans; [|apply sqrt_pos]. lra. }
  rewrite Q. destruct (nltb _ _); cbn [rbind]; eauto.
Qed.
End D.
