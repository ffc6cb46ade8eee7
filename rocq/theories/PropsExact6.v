(** When structure selection succeeds: C35 without class weights, C96 with class weights. *)
From Coq Require Import Reals QArith Lra Lia.
From Verif Require Import Base Num Mat LinAlg Slfn Strs Elm Mrsr Search Mss ElmFacts WfProofs SolveThms ErrThms MssThms SubThms SelThms WorksThms Demo Refute4 SelectDemo Exact7 Spec.
Local Open Scope string_scope.
Local Open Scope list_scope.

Section Reals.
#[local] Existing Instance NumR.
Local Open Scope R_scope.
Context {SG : Sing} {BR : Brent} {SH : Shuffle}.

(** ** C35: 'CV' works exactly if there are at least three ranked neurons and k samples *)
Theorem C35_exact : forall e X T args kw k e1 H, shuffles -> wf_net (e_net e) -> 0 < s_norm (e_net e) -> (0 < s_outputs (e_net e))%nat ->
  parse_args e args kw = (e1, Ok tt) -> smem "V" args = false -> smem "CV" args = true -> kw_k kw = Some k ->
  ErrThms.plain (e_class e1) -> simple_ranking e1 -> (0 < nneurons (s_neurons (e_net e)))%nat ->
  (forall ws w, kw_w kw = Some ws -> In w ws -> 0 <= w) ->
  length X = length T -> wide (s_outputs (e_net e)) T ->
  elm_project e (Arr2 (s_inputs (e_net e)) X) = Ok H ->
  ((exists e' err_t, train e (Arr2 (s_inputs (e_net e)) X) (Arr2 (s_outputs (e_net e)) T) args kw = (e', Ok (Some err_t))) <->
   (3 <= k <= length X)%nat /\ (3 <= ranked_size e1 (nneurons (s_neurons (e_net e))))%nat).
Proof. exact train_cv_exact. Qed.

(** ** C96: 'V' with given weights works exactly if they do not sum to 0 *)
Theorem C96_validation_given_partial : forall e X T Xv Tv args kw e1 H Hv ws ks, wf_net (e_net e) -> 0 < s_norm (e_net e) ->
  parse_args e args kw = (e1, Ok tt) -> smem "V" args = true ->
  kw_Xv kw = Some (Arr2 (s_inputs (e_net e)) Xv) -> kw_Tv kw = Some (Arr2 (s_outputs (e_net e)) Tv) ->
  e_class e1 = Some "wc" -> e_wc e1 = Some (map Fin ws) -> length ws = s_outputs (e_net e) -> (forall w, In w ws -> 0 <= w) ->
  Forall2 (has_class (s_outputs (e_net e))) T ks ->
  simple_ranking e1 -> (0 < ranked_size e1 (nneurons (s_neurons (e_net e))))%nat ->
  (0 < e_batch e1)%Z -> X <> [] -> length X = length T -> wide (s_outputs (e_net e)) T ->
  Tv <> [] -> length Xv = length Tv -> wide (s_outputs (e_net e)) Tv ->
  elm_project e (Arr2 (s_inputs (e_net e)) X) = Ok H -> elm_project e (Arr2 (s_inputs (e_net e)) Xv) = Ok Hv ->
  shuffles ->
  ((exists e', train e (Arr2 (s_inputs (e_net e)) X) (Arr2 (s_outputs (e_net e)) T) args kw = (e', Ok None)) <-> Rsum ws <> 0).
Proof. exact train_v_given. Qed.

(** 'V' with automatic weights works exactly if every class has a training sample *)
Theorem C96_validation_auto_partial : forall e X T Xv Tv args kw e1 H Hv ks, wf_net (e_net e) -> 0 < s_norm (e_net e) ->
  parse_args e args kw = (e1, Ok tt) -> smem "V" args = true ->
  kw_Xv kw = Some (Arr2 (s_inputs (e_net e)) Xv) -> kw_Tv kw = Some (Arr2 (s_outputs (e_net e)) Tv) ->
  e_class e1 = Some "wc" -> e_wc e1 = None -> Forall2 (has_class (s_outputs (e_net e))) T ks ->
  simple_ranking e1 -> (0 < ranked_size e1 (nneurons (s_neurons (e_net e))))%nat ->
  (0 < e_batch e1)%Z -> X <> [] -> length X = length T -> wide (s_outputs (e_net e)) T ->
  Tv <> [] -> length Xv = length Tv -> wide (s_outputs (e_net e)) Tv ->
  elm_project e (Arr2 (s_inputs (e_net e)) X) = Ok H -> elm_project e (Arr2 (s_inputs (e_net e)) Xv) = Ok Hv ->
  shuffles ->
  ((exists e', train e (Arr2 (s_inputs (e_net e)) X) (Arr2 (s_outputs (e_net e)) T) args kw = (e', Ok None)) <->
   forall k, (k < s_outputs (e_net e))%nat -> In k ks).
Proof. exact train_v_auto. Qed.

(** 'LOO' with automatic weights raises if a class has no training sample *)
Theorem C96_loo_absent : forall e X T args kw e1 H ks k, wf_net (e_net e) -> 0 < s_norm (e_net e) ->
  parse_args e args kw = (e1, Ok tt) -> smem "V" args = false -> smem "CV" args = false -> smem "LOO" args = true ->
  e_class e1 = Some "wc" -> e_wc e1 = None -> Forall2 (has_class (s_outputs (e_net e))) T ks ->
  (0 < e_batch e1)%Z -> X <> [] -> length X = length T -> wide (s_outputs (e_net e)) T ->
  elm_project e (Arr2 (s_inputs (e_net e)) X) = Ok H -> (k < s_outputs (e_net e))%nat -> ~ In k ks ->
  exists e' x, train e (Arr2 (s_inputs (e_net e)) X) (Arr2 (s_outputs (e_net e)) T) args kw = (e', Err x).
Proof. exact train_loo_absent. Qed.

(** 'CV' with given weights works exactly if they do not sum to 0; without given weights it never works *)
Theorem C96_cv_given_partial : forall e X T args kw k e1 H ws, shuffles -> wf_net (e_net e) -> 0 < s_norm (e_net e) ->
  parse_args e args kw = (e1, Ok tt) -> smem "V" args = false -> smem "CV" args = true -> kw_k kw = Some k -> (3 <= k <= length X)%nat ->
  e_class e1 = Some "wc" -> e_wc e1 = Some (map Fin ws) -> length ws = s_outputs (e_net e) -> (forall w, In w ws -> 0 <= w) ->
  simple_ranking e1 -> (3 <= ranked_size e1 (nneurons (s_neurons (e_net e))))%nat ->
  length X = length T -> wide (s_outputs (e_net e)) T ->
  elm_project e (Arr2 (s_inputs (e_net e)) X) = Ok H ->
  ((exists e' err_t, train e (Arr2 (s_inputs (e_net e)) X) (Arr2 (s_outputs (e_net e)) T) args kw = (e', Ok (Some err_t))) <-> Rsum ws <> 0).
Proof. exact train_cv_weighted. Qed.
Theorem C96_cv_auto : forall e X T args kw k e1 H, shuffles -> wf_net (e_net e) -> 0 < s_norm (e_net e) ->
  parse_args e args kw = (e1, Ok tt) -> smem "V" args = false -> smem "CV" args = true -> kw_k kw = Some k -> (3 <= k)%nat ->
  e_class e1 = Some "wc" -> e_wc e1 = None ->
  simple_ranking e1 -> (0 < nneurons (s_neurons (e_net e)))%nat ->
  length X = length T -> wide (s_outputs (e_net e)) T ->
  elm_project e (Arr2 (s_inputs (e_net e)) X) = Ok H ->
  exists e', train e (Arr2 (s_inputs (e_net e)) X) (Arr2 (s_outputs (e_net e)) T) args kw = (e', Err TypeError).
Proof. exact train_cv_auto. Qed.
End Reals.

Section Examples.
#[local] Existing Instance NumR.
#[local] Existing Instance no_shuffle.
Local Open Scope R_scope.
Let e := @demo NumR None "" None.
Let kw (w : option (list R)) : @kwargs NumR := mkKw w None None (Some 3%nat) (Some (Arr2 2 demo_X)) (Some (Arr2 2 demo_T)).

Example C35_exact_hyps {SG : Sing} {BR : Brent} : forall args, In args [["CV"]; ["CV"; "ml"]] ->
  shuffles /\ wf_net (e_net e) /\ 0 < s_norm (e_net e) /\ (0 < nneurons (s_neurons (e_net e)))%nat /\ length (@demo_X NumR) = length (@demo_T NumR) /\
  wide 2 (@demo_T NumR) /\ (exists H, elm_project e (Arr2 2 demo_X) = Ok H) /\
  exists e1, parse_args e args (kw None) = (e1, Ok tt) /\ ErrThms.plain (e_class e1) /\ simple_ranking e1 /\
    (3 <= 3 <= length (@demo_X NumR))%nat /\ (3 <= ranked_size e1 (nneurons (s_neurons (e_net e))))%nat.
Proof.
  intros args HA. destruct (demo_selects args ltac:(destruct HA as [<-|[<-|[]]]; cbn; auto)) as (A1 & A2 & _ & _ & A5 & A6 & A7 & A8 & (e1 & B1 & B2 & _ & _ & B3 & B4 & _) & _).
  split; [exact no_shuffle_ok|]. split; [exact A1|]. split; [exact A2|]. split; [exact (Nat.lt_0_succ 2)|]. split; [reflexivity|]. split; [exact A7|]. split; [exact A8|].
  exists e1. split; [exact B1|]. split; [exact B2|]. split; [exact B3|]. split; [rewrite A5; lia|]. fold e in B4. rewrite B4. lia.
Qed.
Example C96_classes : Forall2 (has_class 2) (@demo_T NumR) [0; 1; 0]%nat.
Proof. repeat constructor; unfold entry; cbn; try lia; intros [|[|j]] Hj; cbn; try lia; reflexivity. Qed.
Example C96_one_class : Forall2 (has_class 2) [[1; 0]; [1; 0]; [1; 0]] [0; 0; 0]%nat.
Proof. repeat constructor; unfold entry; cbn; try lia; intros [|[|j]] Hj; cbn; try lia; reflexivity. Qed.
(** given weights 1 and 4, or 0 and 0; automatic weights *)
Example C96_hyps {SG : Sing} {BR : Brent} : forall w args, In args [["WC"; "V"]; ["WC"; "CV"]; ["WC"; "LOO"]] -> In w [Some [1; 4]; Some [0; 0]; None] ->
  shuffles /\ wf_net (e_net e) /\ 0 < s_norm (e_net e) /\ (exists H, elm_project e (Arr2 2 demo_X) = Ok H) /\ wide 2 (@demo_T NumR) /\
  exists e1, parse_args e args (kw w) = (e1, Ok tt) /\ e_class e1 = Some "wc" /\ e_wc e1 = option_map (map (@Fin NumR)) w /\
    simple_ranking e1 /\ ranked_size e1 (nneurons (s_neurons (e_net e))) = 3%nat /\ (0 < e_batch e1)%Z.
Proof.
  intros w args HA Hw. destruct (demo_selects ["CV"] ltac:(cbn; auto)) as (A1 & A2 & _ & _ & A5 & A6 & A7 & A8 & _).
  split; [exact no_shuffle_ok|]. split; [exact A1|]. split; [exact A2|]. split; [exact A8|]. split; [exact A7|].
  destruct HA as [<-|[<-|[<-|[]]]]; destruct Hw as [<-|[<-|[<-|[]]]]; (apply run_ok; [reflexivity|]);
   (split; [reflexivity|]); (split; [reflexivity|]); (split; [left; reflexivity|]); (split; reflexivity).
Qed.
Example C96_sums : Rsum [1; 4] <> 0 /\ Rsum [0; 0] = 0 /\ (forall k, (k < 2)%nat -> In k [0; 1; 0]%nat) /\ ~ In 1%nat [0; 0; 0]%nat.
Proof. unfold Rsum. cbn. split; [lra|]. split; [lra|]. split; [intros [|[|k]] Hk; cbn; auto; lia|]. intuition discriminate. Qed.
End Examples.

(** ** C96 refuted.  'WC' alone trains; with automatic weights 'CV' raises TypeError, 'V' and 'LOO' raise if a class has no sample;
    with the given weights 1/4, 1/4 'LOO' divides 0 by 0: the PRESS denominators use the weighted matrix but leave out the weight of the sample *)
Section Rationals.
#[local] Existing Instance NumQ.
#[local] Existing Instance no_shuffle.
Local Open Scope Q_scope.
Context {SG : @Sing NumQ} {BR : @Brent NumQ}.
Definition quarter_model : elm := lin_model 1 2 "" None 1000 None (3 # 4) 1 [[1]] [0].
Definition sel_run (X T : list (list Q)) (w : option (list Q)) (args : list string) :=
  snd (train quarter_model (Arr2 1 X) (Arr2 2 T) args (mkKw w None None (Some 3%nat) (Some (Arr2 1 X)) (Some (Arr2 2 T)))).
Theorem C96_refuted :
  (let X := [[1]; [2]; [3]] in let T := [[1; 0]; [0; 1]; [1; 0]] in
   sel_run X T None ["WC"] = Ok None /\ sel_run X T None ["WC"; "CV"] = Err TypeError) /\
  (let X := [[1]; [2]] in let T := [[1; 0]; [1; 0]] in
   sel_run X T None ["WC"] = Ok None /\ sel_run X T None ["WC"; "V"] = Err AssertionError /\ sel_run X T None ["WC"; "LOO"] = Err AssertionError) /\
  (let w := Some [1 # 4; 1 # 4] in
   sel_run [[1]] [[1; 0]] w ["WC"] = Ok None /\ sel_run [[1]] [[1; 0]] w ["C"; "LOO"] = Ok None /\ sel_run [[1]] [[1; 0]] w ["WC"; "LOO"] = Err AssertionError).
Proof. vm_compute. repeat split. Qed.
End Rationals.

Print Assumptions C35_exact.
Print Assumptions C96_validation_given_partial.
Print Assumptions C96_validation_auto_partial.
Print Assumptions C96_loo_absent.
Print Assumptions C96_cv_given_partial.
Print Assumptions C96_cv_auto.
Print Assumptions C96_refuted.
