(** Property theorems: saving and loading, arguments (C31, C32, C44, C45, C46, C55).
    Proofs are in the other files. *)
From Coq Require Import Reals QArith Lra Permutation.
From Verif Require Import Base Num Mat LinAlg Slfn Strs Elm Mrsr Search Mss MatFacts Spec ElmFacts WfProofs
  TrainThms IncrThms SolveThms LoadThms LoadTrain ArgThms Demo Refute4 Refute5.
Local Open Scope nat_scope.
Local Open Scope string_scope.

Section Any.
Context {K : Num} {SG : Sing} {BR : Brent} {SH : Shuffle}.

(** ** C31: loading a saved model into an ELM without accelerator *)
Theorem C31_roundtrip : forall e new,
  wf_net (e_net e) -> (s_neurons (e_net e) <> [] \/ s_B (e_net e) = None) -> e_accel new = None ->
  exists e', update_from new (output_format e) = (e', Ok tt) /\ same_model e e' /\ wf_net (e_net e') /\ no_data (e_net e') /\
    (forall X, elm_project e' X = elm_project e X) /\ (forall X, elm_predict e' X = elm_predict e X) /\
    (forall T Y, elm_error e' T Y = elm_error e T Y) /\ output_format e' = output_format e.
Proof. exact roundtrip. Qed.

(** the model meant by the hypotheses: trained, two groups of neurons *)
Example C31_hyps : let e := with_net (demo None "wc" (Some [n1; n2])) (fst (set_B (e_net (demo None "" None)) 3 2 [[n1; n0]; [n0; n1]; [n1; n1]])) in
  wf_net (e_net e) /\ s_neurons (e_net e) <> [] /\ s_B (e_net e) <> None /\
  exists new, elm_init 7 1 "" None 10 None PF64 None = Ok new /\ e_accel new = None.
Proof.
  cbv zeta. split; [constructor; cbn; try exact I; repeat constructor; cbn; auto; intuition discriminate|].
  split; [discriminate|]. split; [discriminate|]. eexists. split; reflexivity.
Qed.

(** ** C32: what was in the object before does not matter when it has no accelerator *)
Theorem C32_no_accelerator_partial : forall e1 e2 m, e_accel e1 = None -> e_accel e2 = None -> e_prec64 e1 = e_prec64 e2 ->
  let '(r1, v1) := update_from e1 m in let '(r2, v2) := update_from e2 m in
  v1 = v2 /\ e_net r1 = e_net r2 /\ e_class r1 = e_class r2 /\ e_wc r1 = e_wc r2.
Proof. exact load_replaces. Qed.
(** with an accelerator: only into an object without neurons and of the same dimensions *)
Theorem C32_fresh_partial : forall e new, wf_net (e_net e) -> (s_neurons (e_net e) <> [] \/ s_B (e_net e) = None) ->
  (e_accel new = None \/ wf_net (e_net new) /\ s_neurons (e_net new) = [] /\ s_B (e_net new) = None /\ no_data (e_net new) /\
     s_inputs (e_net new) = s_inputs (e_net e) /\ s_outputs (e_net new) = s_outputs (e_net e)) ->
  exists e', update_from new (output_format e) = (e', Ok tt) /\ same_model e e' /\ wf_net (e_net e') /\ no_data (e_net e') /\
    e_batch e' = e_batch new /\ e_accel e' = e_accel new.
Proof. exact load_into. Qed.
Example C32_hyps : forall a, In a [None; Some "basic"; Some "GPU"] ->
  exists new, elm_init 2 2 "" None 10 a PF64 None = Ok new /\ wf_net (e_net new) /\ s_neurons (e_net new) = [] /\
    s_inputs (e_net new) = s_inputs (e_net (demo None "c" None)) /\ s_outputs (e_net new) = s_outputs (e_net (demo None "c" None)) /\
    wf_net (e_net (demo None "c" None)).
Proof.
  intros a Ha. eexists. split; [reflexivity|]. split; [apply wf_init|].
  destruct Ha as [<-|[<-|[<-|[]]]]; (split; [reflexivity|]; split; [reflexivity|]; split; [reflexivity|];
    constructor; cbn; try exact I; repeat constructor; cbn; auto; intuition discriminate).
Qed.

(** ** C44: arguments of train *)
Theorem C44_accepted : forall e args kw, (exists e1, parse_args e args kw = (e1, Ok tt)) <-> valid_args e args kw.
Proof. exact parse_iff. Qed.
Theorem C44_rejected : forall e X T args kw, ~ valid_args e args kw -> exists e', train e X T args kw = (e', Err AssertionError).
Proof. exact train_invalid. Qed.
Theorem C44_type_partial : forall e args kw e1, parse_args e args kw = (e1, Ok tt) -> ~ asked "R" args ->
  (asked "C" args -> e_class e1 = Some "c") /\ (asked "WC" args -> e_class e1 = Some "wc") /\
  (asked "ML" args \/ asked "MC" args -> e_class e1 = Some "ml") /\
  ((forall k, In k classes -> ~ asked k args) -> e_class e1 = None) /\
  e_wc e1 = (if smem "WC" (map upper args) then option_map (map Fin) (kw_w kw) else None).
Proof. exact parse_type. Qed.
Theorem C44_order_partial : forall e X T l l' kw e1 r, Permutation l l' -> ~ asked "R" l ->
  train e X T l kw = (e1, Ok r) -> train e X T l' kw = (e1, Ok r).
Proof. exact train_order. Qed.
Theorem C44_case_partial : forall e X T args kw, (forall k, In k selections -> asked k args -> In k args) ->
  train e X T (map upper args) kw = train e X T args kw.
Proof. exact train_case. Qed.
(** 'v', 'cv', 'Loo', ... are accepted and ignored *)
Theorem C44_lower_case_ignored : forall e X T args kw, (forall k, In k selections -> ~ In k args) ->
  train e X T args kw = train e X T (filter (fun a => negb (smem (upper a) selections)) args) kw \/
  snd (train e X T args kw) = Err AssertionError.
Proof. exact train_lower. Qed.
Theorem C44_R_last : forall e args kw e1 r, upper r = "R" -> parse_args e (args ++ [r]) kw = (e1, Ok tt) -> e_class e1 = None.
Proof. exact parse_R_last. Qed.
Example C44_hyps : valid_args (demo None "" None) ["wC"; "op"; "V"] (mkKw (Some [n1; n2]) None None None None None) /\
  ~ asked "R" ["wC"; "op"; "V"] /\ (forall k, In k selections -> asked k ["wC"; "op"; "V"] -> In k ["wC"; "op"; "V"]) /\
  (forall k, In k selections -> ~ In k ["v"; "c"]) /\ valid_args (demo None "" None) ["v"; "c"; "r"] no_kw.
Proof.
  split; [apply parse_iff; eexists; cbv; reflexivity|]. split; [intros (a & [<-|[<-|[<-|[]]]] & H); discriminate|].
  split; [intros k Hk (a & [<-|[<-|[<-|[]]]] & <-); cbn in Hk; cbn; intuition discriminate|].
  split; [intros k [<-|[<-|[<-|[]]]] [H|[H|[]]]; discriminate|]. apply parse_iff; eexists; cbv; reflexivity.
Qed.

(** ** C45: the task type of the constructor: exactly the lower-case names are honoured *)
Theorem C45_lower_case_partial : forall inputs outputs cls w batch accel prec norm e t,
  elm_init inputs outputs cls w batch accel prec norm = Ok e ->
  (e_class e = Some t /\ In t ["c"; "wc"; "ml"] <->
   (cls = "c" /\ t = "c" \/ cls = "wc" /\ t = "wc" \/ (cls = "ml" \/ cls = "mc") /\ t = "ml")) /\
  (~ In (lower cls) ["c"; "wc"; "ml"; "mc"] -> e_class e = None).
Proof. exact ctor_honoured. Qed.
Example C45_hyps : exists e, elm_init 1 2 "mc" None 10 None PF64 None = Ok e /\ e_class e = Some "ml".
Proof. eexists. split; reflexivity. Qed.

(** ** C46: rejected calls *)
Theorem C46_add_neurons : forall e n f W B rW rB e' x, add_neurons e n f W B rW rB = (e', Err x) -> e' = e.
Proof. exact add_neurons_rejected. Qed.
Theorem C46_train_partial : forall e X T args kw, refused e X T args kw ->
  exists e' x, train e X T args kw = (e', Err x) /\
    (forall X', elm_project e' X' = elm_project e X') /\ (forall X', elm_predict e' X' = elm_predict e X') /\
    (kw_batch kw = None -> forall X' T' args' kw', snd (train e' X' T' args' kw') = snd (train e X' T' args' kw') /\
      (is_ok (checkdata e X' T') = true -> train e' X' T' args' kw' = train e X' T' args' kw')).
Proof. exact train_refused. Qed.
Example C46_hyps : (exists e', add_neurons (demo None "" None) 1 (FName "relu") None None (fun _ => []) (fun _ => []) = (e', Err AssertionError)) /\
  refused (demo None "" None) (Arr2 2 demo_X) (Arr2 2 demo_T) ["V"] no_kw /\
  refused (demo None "" None) (Arr2 2 demo_X) (Arr2 2 demo_T) ["C"; "ml"] no_kw.
Proof.
  split; [eexists; reflexivity|]. split; [right; right; left; split; [reflexivity|left; reflexivity]|].
  right. left. intros (_ & _ & H & _). specialize (H "C" "ML"). discriminate H; cbn; auto; [exists "C"|exists "ml"]; cbn; auto.
Qed.

(** ** C55: validation of the data *)
Theorem C55_project : forall e X,
  (forall m, accepted (s_inputs (e_net e)) X m -> elm_project e X = elm_project e (Arr2 (s_inputs (e_net e)) m) /\
                                                 elm_predict e X = elm_predict e (Arr2 (s_inputs (e_net e)) m)) /\
  ((forall m, ~ accepted (s_inputs (e_net e)) X m) -> elm_project e X = Err AssertionError /\ elm_predict e X = Err AssertionError).
Proof. exact project_checks. Qed.
Theorem C55_error : forall e T Y, let d := s_outputs (e_net e) in
  (forall t y, accepted d T t -> accepted d Y y -> elm_error e T Y = elm_error e (Arr2 d t) (Arr2 d y) /\
      confusion e T Y = confusion e (Arr2 d t) (Arr2 d y)) /\
  ((forall m, ~ accepted d T m) \/ (forall m, ~ accepted d Y m) -> elm_error e T Y = Err AssertionError /\ confusion e T Y = Err AssertionError).
Proof. exact error_checks. Qed.
Theorem C55_train : forall e X T args kw,
  (forall x t, accepted (s_inputs (e_net e)) X x -> accepted (s_outputs (e_net e)) T t -> length x = length t ->
     train e X T args kw = train e (Arr2 (s_inputs (e_net e)) x) (Arr2 (s_outputs (e_net e)) t) args kw) /\
  ((forall x t, accepted (s_inputs (e_net e)) X x -> accepted (s_outputs (e_net e)) T t -> length x <> length t) ->
     train e X T args kw = (e, Err AssertionError)).
Proof. exact train_checks. Qed.
Example C55_hyps : accepted 1 (Arr1 [n1; n0]) [[n1]; [n0]] /\ accepted 2 (Arr2 2 demo_X) demo_X /\
  (forall m, ~ accepted 2 (Arr1 [n1; n0]) m) /\ (forall m, ~ accepted 2 ArrObj m) /\ (forall m, ~ accepted 2 ArrN m).
Proof. split; [reflexivity|]. split; [reflexivity|]. repeat split; intros m; discriminate. Qed.
End Any.

Section Reals.
#[local] Existing Instance NumR.
Local Open Scope R_scope.
Context {SG : Sing} {BR : Brent} {SH : Shuffle}.

(** the loaded model can be trained further, with the same result *)
Theorem C31_retrain : forall e e' X T H args kw e1,
  wf_net (e_net e) -> wf_net (e_net e') -> same_model e e' -> 0 < s_norm (e_net e) ->
  parse_args e args kw = (e1, Ok tt) -> is_wc e1 = false ->
  smem "V" args = false -> smem "CV" args = false -> smem "LOO" args = false ->
  (0 < e_batch e1)%Z -> (0 < match kw_batch kw with Some b => b | None => e_batch e' end)%Z ->
  X <> [] -> length X = length T -> wide (s_outputs (e_net e)) T ->
  elm_project e (Arr2 (s_inputs (e_net e)) X) = Ok H ->
  exists t t', train e (Arr2 (s_inputs (e_net e)) X) (Arr2 (s_outputs (e_net e)) T) args kw = (t, Ok None) /\
    train e' (Arr2 (s_inputs (e_net e)) X) (Arr2 (s_outputs (e_net e)) T) args kw = (t', Ok None) /\
    s_B (e_net t) <> None /\ s_B (e_net t') = s_B (e_net t).
Proof. exact retrain_same. Qed.
Theorem C31_retrain_weighted : forall e e' X T H args kw e1 ws ks,
  wf_net (e_net e) -> wf_net (e_net e') -> same_model e e' -> 0 < s_norm (e_net e) ->
  parse_args e args kw = (e1, Ok tt) -> is_wc e1 = true -> e_wc e1 = Some (map Fin ws) ->
  length ws = s_outputs (e_net e) -> (forall w, In w ws -> 0 <= w) ->
  smem "V" args = false -> smem "CV" args = false -> smem "LOO" args = false ->
  (0 < e_batch e1)%Z -> (0 < match kw_batch kw with Some b => b | None => e_batch e' end)%Z ->
  X <> [] -> length X = length T -> Forall2 (has_class (s_outputs (e_net e))) T ks ->
  elm_project e (Arr2 (s_inputs (e_net e)) X) = Ok H ->
  exists t t', train e (Arr2 (s_inputs (e_net e)) X) (Arr2 (s_outputs (e_net e)) T) args kw = (t, Ok None) /\
    train e' (Arr2 (s_inputs (e_net e)) X) (Arr2 (s_outputs (e_net e)) T) args kw = (t', Ok None) /\
    s_B (e_net t) <> None /\ s_B (e_net t') = s_B (e_net t).
Proof. exact retrain_same_weighted. Qed.
Example C31_retrain_hyps : let e := demo None "" None in let e' := demo (Some "basic") "" None in
  wf_net (e_net e) /\ wf_net (e_net e') /\ same_model e e' /\ 0 < s_norm (e_net e) /\
  (exists H, elm_project e (Arr2 (s_inputs (e_net e)) demo_X) = Ok H) /\
  (exists e1, parse_args e [] no_kw = (e1, Ok tt) /\ (0 < e_batch e1)%Z) /\ (0 < e_batch e')%Z.
Proof.
  cbv zeta. split; [constructor; cbn; try exact I; repeat constructor; cbn; auto; intuition discriminate|].
  split; [constructor; cbn; try exact I; repeat constructor; cbn; auto; intuition discriminate|].
  split; [unfold same_model; cbn; auto 10|]. split; [exact Rlt_0_1|].
  split; [apply get_ok; vm_compute; reflexivity|]. split; [apply run_ok; vm_compute; reflexivity|reflexivity].
Qed.
End Reals.

Section Rationals.
#[local] Existing Instance NumQ.
Local Open Scope Q_scope.
Context {SG : Sing} {BR : Brent} {SH : Shuffle}.

(** an accelerated object keeps its neurons: the loaded model has both *)
Theorem C32_refuted :
  (exists e', update_from l_target (output_format l_source) = (e', Ok tt) /\
    elm_project l_source (Arr2 2 [[1;2]]) = Ok [[1]] /\ elm_project e' (Arr2 2 [[1;2]]) = Ok [[3;1]]) /\
  (exists e', update_from l_target (output_format l_trained) = (e', Err AssertionError) /\ is_ok (elm_predict l_trained (Arr2 2 [[1;2]])) = true).
Proof. exact load_merges. Qed.

Theorem C44_refuted :
  ((exists e, v_run "V" = (e, Ok None) /\ nneurons (s_neurons (e_net e)) = 1%nat) /\
   (exists e, v_run "v" = (e, Ok None) /\ nneurons (s_neurons (e_net e)) = 3%nat) /\
   (exists e, r_run ["v"] = (e, Ok None) /\ True) /\ (exists e, r_run ["V"] = (e, Err AssertionError) /\ True)) /\
  (exists e, r_run ["R"; "C"] = (e, Ok None) /\ e_class e = Some "c") /\
  (exists e, r_run ["C"; "R"] = (e, Ok None) /\ e_class e = None).
Proof. exact (conj v_case r_order). Qed.

Theorem C45_refuted : exists cls, lower cls = "ml" /\
  elm_init 1 2 cls None 10 None PF64 (Some 1) = Ok (c_model cls) /\
  elm_init 1 2 (lower cls) None 10 None PF64 (Some 1) = Ok (c_model (lower cls)) /\
  elm_error (c_model cls) (Arr2 2 [[1;0]]) (Arr2 2 [[3;0]]) = Ok (Fin 2) /\
  elm_error (c_model (lower cls)) (Arr2 2 [[1;0]]) (Arr2 2 [[3;0]]) = Ok (Fin 0) /\
  confusion (c_model cls) (Arr2 2 [[1;0]]) (Arr2 2 [[3;0]]) = Err AssertionError /\
  confusion (c_model (lower cls)) (Arr2 2 [[1;0]]) (Arr2 2 [[3;0]]) = Ok [[1;0];[0;0]].
Proof. exact (ex_intro _ "Ml" (conj eq_refl (upper_class "Ml" (or_intror (or_introl eq_refl))))). Qed.

Theorem C46_refuted :
  (exists e', m_rejected = (e', Err AssertionError) /\
     elm_error m_model (Arr2 2 [[1;0]]) (Arr2 2 [[3;0]]) = Ok (Fin 0) /\ elm_error e' (Arr2 2 [[1;0]]) (Arr2 2 [[3;0]]) = Ok (Fin 2)) /\
  (exists e', m_batch = (e', Err AssertionError) /\
     snd (train m_model (Arr2 1 w_X) (Arr2 2 w_T) [] no_kw) = Ok None /\ snd (train e' (Arr2 1 w_X) (Arr2 2 w_T) [] no_kw) = Err ZeroDivisionError) /\
  (exists e', train m_data (Arr2 1 w_X) (Arr2 2 w_T) ["C"; "ML"] no_kw = (e', Err AssertionError) /\
     snd (solve (e_net m_data)) = Ok tt /\ is_ok (snd (solve (e_net e'))) = false).
Proof. exact rejected_changes. Qed.
End Rationals.

Print Assumptions C31_roundtrip.
Print Assumptions C32_no_accelerator_partial.
Print Assumptions C32_fresh_partial.
Print Assumptions C44_accepted.
Print Assumptions C44_rejected.
Print Assumptions C44_type_partial.
Print Assumptions C44_order_partial.
Print Assumptions C44_case_partial.
Print Assumptions C44_lower_case_ignored.
Print Assumptions C44_R_last.
Print Assumptions C45_lower_case_partial.
Print Assumptions C46_add_neurons.
Print Assumptions C46_train_partial.
Print Assumptions C55_project.
Print Assumptions C55_error.
Print Assumptions C55_train.
Print Assumptions C31_retrain.
Print Assumptions C31_retrain_weighted.
Print Assumptions C32_refuted.
Print Assumptions C44_refuted.
Print Assumptions C45_refuted.
Print Assumptions C46_refuted.
