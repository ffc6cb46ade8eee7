(** Trained models used in the Examples of PropsMore.v (reals). *)
From Coq Require Import Reals Lra Permutation.
From Verif Require Import Base Num Mat LinAlg Slfn Strs Elm Mrsr Search Mss Hpelm MatFacts SplitProofs ElmFacts RLin
  AccProofs TrainProofs RidgeProofs WfProofs TrainThms IncrThms SolveThms NeuronThms ErrThms SearchThms SelectThms RankThms SubThms FeatureThms
  RangeThms RangeTrain RegMore RegMore2 RegOrder Demo Spec.
Local Open Scope string_scope.
Local Open Scope list_scope.
Local Open Scope R_scope.
#[local] Existing Instance NumR.

Section More.
Context {SG : Sing} {BR : Brent} {SH : Shuffle}.

Lemma can_train : forall e X T args kw e1, wf_net (e_net e) -> 0 < s_norm (e_net e) ->
  smem "V" args = false -> smem "CV" args = false -> smem "LOO" args = false ->
  parse_args e args kw = (e1, Ok tt) -> is_wc e1 = false -> (0 < e_batch e1)%Z -> X <> [] -> length X = length T ->
  Forall (fun t => length t = s_outputs (e_net e)) T -> (exists H, elm_project e (Arr2 (s_inputs (e_net e)) X) = Ok H) ->
  exists e' Y, trained e X T e' /\ elm_predict e' (Arr2 (s_inputs (e_net e)) X) = Ok Y.
Proof.
  intros e X T args kw e1 HW Hn HV HCV HLOO HP Hw Hb HX HL HT [H HPr].
  destruct (elm_project_inv _ _ _ HPr) as (HU & WX & _).
  destruct (train_full e X T args kw e1 (fun _ => 1)) as (B & hh & ht & E' & RS); auto; [now apply weights_plain|].
  eexists. assert (forall e', train e (Arr2 (s_inputs (e_net e)) X) (Arr2 (s_outputs (e_net e)) T) args kw = (e', Ok None) -> trained e X T e') as Q.
  { intros e' E. constructor; auto; [eauto|]. exists args, kw, e1. auto 8. }
  apply Q in E'. destruct (trained_predict _ _ _ _ E') as (B' & _ & _ & HY). eexists. split; [exact E'|]. apply HY. exact WX.
Qed.

Lemma can_wtrain : forall e X T ks ws args kw e1, wf_net (e_net e) -> 0 < s_norm (e_net e) ->
  smem "V" args = false -> smem "CV" args = false -> smem "LOO" args = false ->
  parse_args e args kw = (e1, Ok tt) -> is_wc e1 = true -> e_wc e1 = Some (map Fin ws) -> (0 < e_batch e1)%Z -> X <> [] -> length X = length T ->
  Forall2 (has_class (s_outputs (e_net e))) T ks -> length ws = s_outputs (e_net e) -> (forall w, In w ws -> 0 <= w) ->
  (exists H, elm_project e (Arr2 (s_inputs (e_net e)) X) = Ok H) ->
  exists e', wtrained e X T ks ws e'.
Proof.
  intros e X T ks ws args kw e1 HW Hn HV HCV HLOO HP Hw Hwc Hb HX HL HT Hlw Hpos [H HPr].
  destruct (train_ridge_weighted e X T H args kw e1 ws ks) as (e' & B & E' & _); auto.
  exists e'. constructor; auto; [eauto|]. exists args, kw, e1. auto 9.
Qed.

(** the model of Demo.v with p outputs and any norm, and its first two neurons only *)
Definition lin_p (p : nat) (norm : R) : elm := lin_model 2 p "" None 2 None norm 2 [[1; 0]; [0; 1]] [0; 1].
Definition demo_p (p : nat) (norm : R) : elm :=
  fst (add_neurons (lin_p p norm) 1 (FName "tanh") (Some (1%nat, [[1]; [1]])) (Some [0]) (fun _ => []) (fun _ => [])).

Lemma demo_p_wf : forall p norm, wf_net (e_net (demo_p p norm)).
Proof.
  assert (forall s, s_inputs s = 2%nat -> s_neurons s = s_neurons (e_net (demo_p 1 1)) ->
    s_L s = Some 3%nat -> s_B s = None -> s_HH s = None -> s_HT s = None -> wf_net s) as Q.
  { intros s Ei En EL EB EH ET. constructor; rewrite ?Ei, ?En, ?EL, ?EB, ?EH, ?ET; try exact I; try tauto.
    - cbn. repeat constructor.
    - cbn. repeat constructor; cbn; intuition discriminate. }
  intros p norm; eapply Q; reflexivity.
Qed.
Lemma demo_p_proj : forall p norm X, Forall (fun x => length x = 2%nat) X -> exists H, elm_project (demo_p p norm) (Arr2 2 X) = Ok H.
Proof.
  intros p norm X HX. unfold elm_project. cbn [check_arr].
  change (s_inputs (e_net (demo_p p norm))) with 2%nat. rewrite Nat.eqb_refl. cbn [rbind]. eexists. apply project_ok; [|exact HX].
  split; [discriminate|reflexivity].
Qed.

Lemma demo_trains : forall p norm X T, 0 < norm -> X <> [] -> length X = length T ->
  Forall (fun x => length x = 2%nat) X -> Forall (fun t => length t = p) T ->
  exists e' Y, trained (demo_p p norm) X T e' /\ elm_predict e' (Arr2 2 X) = Ok Y.
Proof.
  intros p norm X T Hn HX HL WX WT.
  apply (can_train (demo_p p norm) X T [] no_kw (fst (parse_args (demo_p p norm) [] no_kw))); auto.
  - apply demo_p_wf.
  - reflexivity.
  - now apply demo_p_proj.
Qed.
Lemma lin_p_trains : forall p norm X T, 0 < norm -> X <> [] -> length X = length T ->
  Forall (fun x => length x = 2%nat) X -> Forall (fun t => length t = p) T ->
  exists e' Y, trained (lin_p p norm) X T e' /\ elm_predict e' (Arr2 2 X) = Ok Y.
Proof.
  intros p norm X T Hn HX HL WX WT.
  assert (wf_net (e_net (lin_p p norm))) as HW by (constructor; cbn; try exact I; repeat constructor; cbn; auto; intuition discriminate).
  apply (can_train (lin_p p norm) X T [] no_kw (fst (parse_args (lin_p p norm) [] no_kw))); auto.
  - reflexivity.
  - unfold elm_project. cbn [check_arr]. change (s_inputs (e_net (lin_p p norm))) with 2%nat. rewrite Nat.eqb_refl. cbn [rbind]. eexists. apply project_ok; auto.
    split; [discriminate|reflexivity].
Qed.
(** the data of Demo.v *)
Definition X3 : list (list R) := @demo_X NumR.
Definition T3 : list (list R) := @demo_T NumR.

(** the neurons of demo_p, and in the other order *)
Definition bare : elm := match elm_init 2 2 "" None 2 None PF64 (Some 1) with Ok e => e | Err _ => dead end.
Definition calls : list add_call :=
  [(2%Z, FName "lin", (2%nat, [[1; 0]; [0; 1]]), [0; 1]); (1%Z, FName "tanh", (1%nat, [[1]; [1]]), [0])].
Definition demo_rev : elm := fst (run_all do_add bare (rev calls)).
Lemma calls_run : run_all do_add bare calls = (demo_p 2 1, Ok tt) /\ run_all do_add bare (rev calls) = (demo_rev, Ok tt).
Proof. split; reflexivity. Qed.
Lemma rev_trains : exists e' Y, trained demo_rev X3 T3 e' /\ elm_predict e' (Arr2 2 X3) = Ok Y.
Proof.
  apply (can_train demo_rev X3 T3 [] no_kw (fst (parse_args demo_rev [] no_kw))); auto.
  - constructor; cbn; try exact I; repeat constructor; cbn; auto; intuition discriminate.
  - exact Rlt_0_1.
  - reflexivity.
  - discriminate.
  - repeat constructor.
  - unfold elm_project. cbn [check_arr]. change (s_inputs (e_net demo_rev)) with 2%nat. rewrite Nat.eqb_refl. cbn [rbind]. eexists. apply project_ok.
    + split; [discriminate|reflexivity].
    + repeat constructor.
Qed.

(** with the class weights 1 and 2 *)
Lemma demo_wtrains : exists e', wtrained (demo_p 2 1) X3 T3 [0%nat; 1%nat; 0%nat] (map INR [1%nat; 2%nat]) e'.
Proof.
  set (e := demo_p 2 1). set (kw := @mkKw NumR (Some (map INR [1%nat; 2%nat])) None None None None None).
  assert (snd (parse_args e ["wc"] kw) = Ok tt) as E by reflexivity.
  destruct (parse_args e ["wc"] kw) as [e1 r] eqn:E1. cbn [snd] in E. subst r.
  assert (e1 = fst (parse_args e ["wc"] kw)) as Ee by (rewrite E1; reflexivity).
  apply (can_wtrain e X3 T3 [0%nat; 1%nat; 0%nat] (map INR [1%nat; 2%nat]) ["wc"] kw e1).
  - apply demo_p_wf.
  - exact Rlt_0_1.
  - reflexivity.
  - reflexivity.
  - reflexivity.
  - exact E1.
  - rewrite Ee. reflexivity.
  - rewrite Ee. reflexivity.
  - rewrite Ee. reflexivity.
  - discriminate.
  - reflexivity.
  - change (s_outputs (e_net e)) with 2%nat.
    apply Forall2_cons; [|apply Forall2_cons; [|apply Forall2_cons; [|apply Forall2_nil]]];
    (split; [reflexivity|]); (split; [lia|]); intros [|[|j]] Hj; try reflexivity; lia.
  - reflexivity.
  - intros w Hw. apply in_map_iff in Hw as (n & <- & _). apply pos_INR.
  - apply demo_p_proj. repeat constructor.
Qed.
End More.
