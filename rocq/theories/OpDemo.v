(** A model of two linear neurons, whose inputs are its hidden layer, for the Examples of the ranking by mrsr. *)
From Coq Require Import Reals Lra Lia.
From Verif Require Import Base Num Mat LinAlg Slfn Strs Elm Mrsr Search Mss MatFacts ElmFacts WfProofs SolveThms ErrThms MssThms SubThms SelThms WorksThms Demo Refute4 SelectDemo MrsrSpec MrsrPath OpWorks RLin Spec.
Local Open Scope string_scope.
Local Open Scope list_scope.
Local Open Scope R_scope.
#[local] Existing Instance NumR.
Definition op_H : list (list R) := [[1; 1]; [0; 1]].
Definition op_T : list (list R) := [[3]; [2]].
Definition op_model : @elm NumR := @lin_model NumR 2 1 "" None 2 None 1 2 [[1; 0]; [0; 1]] [0; 0].
Definition op_kw : @kwargs NumR := @mkKw NumR None None None None (Some (Arr2 2 op_H)) (Some (Arr2 1 op_T)).
Section D.
Context {SG : @Sing NumR}.
Lemma op_wide : @is_mat NumR 2 2 op_H /\ @is_mat NumR 2 1 op_T.
Proof. unfold op_H, op_T. split; (split; [reflexivity|]); repeat constructor. Qed.
Lemma op_independent : independent 2 2 op_H.
Proof.
  intros x Hx. pose proof (Hx 0%nat ltac:(lia)) as A. pose proof (Hx 1%nat ltac:(lia)) as B. unfold total, MrsrSpec.at_, op_H in A, B. cbn in A, B.
  intros [|[|j]] Hj; [lra|lra|lia].
Qed.
Lemma op_rankable : rankable 2 2 1 op_H op_T 2.
Proof.
  split; [lia|]. split; [exact op_independent|]. exists (fun j _ => match j with O => 1 | _ => 2 end), [0%nat; 1%nat].
  split. { intros [|[|j]] o Hj Ho; try lia; (destruct o; [|lia]); unfold total, MrsrSpec.at_, op_H, op_T; cbn; lra. }
  split; [repeat constructor; cbn; intuition lia|]. split; [|split; [discriminate|cbn; lia]].
  intros j [<-|[<-|[]]]; (split; [lia|]); exists 0%nat; (split; [lia|]); lra.
Qed.
Lemma op_data : @is_mat NumR 2 2 op_H /\ @is_mat NumR 2 1 op_T /\ independent 2 2 op_H /\ rankable 2 2 1 op_H op_T 2 /\
  (exists r, @mrsr NumR SG op_H op_T 2 1 2 = Ok r) /\
  (forall i, (i < 2)%nat -> residual_strength 2 1 op_H [[0]; [0]] (fun _ _ => 0) i = 0).
Proof.
  split; [apply op_wide|]. split; [apply op_wide|]. split; [exact op_independent|]. split; [exact op_rankable|].
  split; [exact (mrsr_rankable _ _ _ _ _ _ (proj1 op_wide) (proj2 op_wide) op_rankable)|].
  intros [|[|i]] Hi; try lia; unfold residual_strength, total, MrsrSpec.at_, op_H; cbn; rewrite Rplus_0_r; apply Rabs_eq_0 || idtac.
  all: match goal with |- Rabs ?a = 0 => replace a with 0 by lra end; apply Rabs_R0.
Qed.
Lemma op_model_eq : op_model = mkElm (mkSlfn Fast 2 1 1 [mkNeuron 2 Lin [[1; 0]; [0; 1]] [0; 0]] (Some 2%nat) None None None) 2 true None None None false None.
Proof. reflexivity. Qed.
Lemma op_project : elm_project op_model (Arr2 2 op_H) = Ok op_H.
Proof.
  rewrite op_model_eq. unfold elm_project, check_arr. cbn [e_net s_inputs Nat.eqb rbind]. rewrite project_ok.
  - unfold op_H, hrow. cbn. apply f_equal. repeat f_equal; rring.
  - split; [discriminate|reflexivity].
  - repeat constructor.
Qed.
Lemma op_model_ok : let e := op_model in wf_net (e_net e) /\ 0 < s_norm (e_net e) /\ s_outputs (e_net e) = 1%nat /\ nneurons (s_neurons (e_net e)) = 2%nat /\
  elm_project e (Arr2 2 op_H) = Ok op_H /\
  (exists e1, parse_args e ["LOO"; "OP"] no_kw = (e1, Ok tt) /\ ErrThms.plain (e_class e1) /\ e_op e1 = true /\ ranked_size e1 2 = 2%nat /\ (0 < e_batch e1)%Z) /\
  (exists e1, parse_args e ["V"; "OP"] op_kw = (e1, Ok tt) /\ ErrThms.plain (e_class e1) /\ e_op e1 = true /\ ranked_size e1 2 = 2%nat /\ (0 < e_batch e1)%Z) /\
  kw_Xv op_kw = Some (Arr2 2 op_H) /\ kw_Tv op_kw = Some (Arr2 1 op_T) /\ wide 1 op_T /\ length op_H = length op_T.
Proof.
  cbv zeta. rewrite !op_model_eq. split; [constructor; cbn; try exact I; repeat constructor; cbn; auto; intuition discriminate|].
  split; [exact Rlt_0_1|]. split; [reflexivity|]. split; [reflexivity|]. split; [rewrite <- op_model_eq; exact op_project|].
  split. { eexists. split; [reflexivity|]. split; [left; reflexivity|]. split; [reflexivity|]. split; reflexivity. }
  split. { eexists. split; [reflexivity|]. split; [left; reflexivity|]. split; [reflexivity|]. split; reflexivity. }
  split; [reflexivity|]. split; [reflexivity|]. split; [repeat constructor|reflexivity].
Qed.
End D.
