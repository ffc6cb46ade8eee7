(** The constructor, the precision argument, default neurons: C53, C69-C71. *)
From Coq Require Import Reals Lra.
From Verif Require Import Base Num Mat LinAlg Slfn Strs Elm ElmFacts WfProofs CtorThms Demo Spec.
Local Open Scope string_scope.
Local Open Scope list_scope.

Section Any.
Context {K : Num} {SG : Sing}.

(** ** C53: accepted standard neuron types can be used.  Missing: ufuncs (C53_refuted) *)
Theorem C53_accepted_partial : forall e number name W B rW rB e',
  (s_neurons (e_net e) = [] \/ usable (e_net e)) ->
  add_neurons e number (FName name) W B rW rB = (e', Ok tt) ->
  forall X, wide (s_inputs (e_net e)) X -> exists H, elm_project e' (Arr2 (s_inputs (e_net e)) X) = Ok H /\ length H = length X.
Proof. exact standard_usable. Qed.
Example C53_accepted_hyps : let e := demo None "" None in usable (e_net e) /\
  (exists e', add_neurons e 2 (FName "rbf_l1") (Some (2%nat, [[n1; n2]; [n0; n3]])) (Some [n1; n2]) (fun _ => []) (fun _ => []) = (e', Ok tt)) /\
  wide (s_inputs (e_net e)) demo_X.
Proof. cbv zeta. split; [split; [discriminate|reflexivity]|]. split; [eexists; reflexivity|repeat constructor]. Qed.

(** ** C69: the constructor *)
Theorem C69_accepts : forall inputs outputs cls w batch accel prec norm,
  is_ok (elm_init inputs outputs cls w batch accel prec norm) = true <->
  (0 < batch)%Z /\ (forall ws, w = Some ws -> length ws = outputs).
Proof. exact init_accepts. Qed.
Theorem C69_attributes : forall inputs outputs cls w batch accel prec norm e,
  elm_init inputs outputs cls w batch accel prec norm = Ok e ->
  s_inputs (e_net e) = inputs /\ s_outputs (e_net e) = outputs /\ e_batch e = batch /\ s_neurons (e_net e) = [] /\
  e_wc e = option_map (map Fin) w /\ e_accel e = accel /\ (e_prec64 e = false <-> want_single prec) /\
  s_kind (e_net e) = match accel with
                     | Some "GPU" => if e_prec64 e then Gpu64 else Gpu32
                     | Some "basic" => Basic
                     | _ => Fast
                     end /\
  (forall v, norm = Some v -> s_norm (e_net e) = v).
Proof. exact init_attributes. Qed.
Example C69_hyps : (exists e, elm_init 3 2 "wc" (Some [n1; n2]) 5 (Some "GPU") (PStr "32") None = Ok e) /\
  elm_init 3 2 "wc" (Some [n1; n2]) 0 None PF64 None = Err AssertionError /\ elm_init 3 2 "wc" (Some [n1]) 5 None PF64 None = Err AssertionError.
Proof. split; [eexists; reflexivity|]. split; reflexivity. Qed.

(** ** C70: the precision.  Missing: 'single' in other letter cases. *)
Theorem C70_precision_partial : forall inputs outputs cls w batch accel prec norm e,
  elm_init inputs outputs cls w batch accel prec norm = Ok e ->
  (e_prec64 e = false <->
   match prec with
   | PF64 => False
   | PF32 => True
   | PStr s => ((exists a b, s = (a ++ "single" ++ b)%string) \/ (exists a b, s = (a ++ "32" ++ b)%string)) /\
               ~ (exists a b, lower s = (a ++ "double" ++ b)%string) /\ ~ (exists a b, s = (a ++ "64" ++ b)%string)
   end).
Proof. intros inputs outputs cls w batch accel prec norm e E. apply (init_attributes _ _ _ _ _ _ _ _ _ E). Qed.
Theorem C70_refuted : exists s e, lower s = "single" /\ elm_init 1 1 "" None 1 None (PStr s) None = Ok e /\ e_prec64 e = true.
Proof. exists "Single", (mkElm (slfn_init Fast 1 1 (default_norm true)) 1 true None None None false None). split; [reflexivity|]. split; reflexivity. Qed.
Example C70_hyps : exists e, elm_init 1 1 "" None 1 None (PStr "np.float32") None = Ok e /\ e_prec64 e = false.
Proof. eexists. split; reflexivity. Qed.
End Any.

Section Reals.
#[local] Existing Instance NumR.
Context {SG : Sing}.
Local Open Scope R_scope.

Theorem C69_default_norm : forall inputs outputs cls w batch accel prec e,
  elm_init inputs outputs cls w batch accel prec None = Ok e ->
  (want_single prec -> s_norm (e_net e) = 50 / 2 ^ 23) /\ (~ want_single prec -> s_norm (e_net e) = 50 / 2 ^ 52).
Proof. exact init_norm. Qed.

(** ** C71: default neurons *)
Theorem C71_linear : forall e number rW rB e', s_neurons (e_net e) = [] -> (0 <= number)%Z ->
  add_neurons e number (FName "lin") None None rW rB = (e', Ok tt) ->
  forall X, wide (s_inputs (e_net e)) X ->
  elm_project e' (Arr2 (s_inputs (e_net e)) X) = Ok (map (firstn (Nat.min (Z.to_nat number) (s_inputs (e_net e)))) X).
Proof. exact default_lin. Qed.
Theorem C71_rbf : forall e number name rW rB e', s_neurons (e_net e) = [] -> In name ["rbf_l1"; "rbf_l2"; "rbf_linf"] ->
  (0 < s_inputs (e_net e))%nat -> rand_shapes (s_inputs (e_net e)) rW rB -> (forall n b, In b (rB n) -> b <> 0) ->
  add_neurons e number (FName name) None None rW rB = (e', Ok tt) ->
  forall X H, elm_project e' (Arr2 (s_inputs (e_net e)) X) = Ok H -> Forall (fun h => length h = Z.to_nat number /\ Forall (fun v => 0 < v <= 1) h) H.
Proof. exact default_rbf. Qed.
Theorem C71_scaled : forall e number name g rW rB e', s_neurons (e_net e) = [] ->
  (name = "tanh" /\ g = tanh \/ name = "sigm" /\ g = (fun z => 1 / (1 + exp z))) -> rand_shapes (s_inputs (e_net e)) rW rB ->
  add_neurons e number (FName name) None None rW rB = (e', Ok tt) ->
  let d := s_inputs (e_net e) in let n := Z.to_nat number in
  forall X, wide d X -> elm_project e' (Arr2 d X) = Ok (map (fun x => map (fun j =>
    g (3 / sqrt (INR d) * Rsum (map (fun i => entry x i * entry (nth i (rW n) []) j) (seq 0 d)) + entry (rB n) j)) (seq 0 n)) X).
Proof. exact default_scaled. Qed.

Definition new_model : elm := match elm_init 2 1 "" None 10 None PF64 None with Ok e => e | Err _ => dead end.
Definition some_W (n : nat) : list (list R) := [repeat 1 n; repeat (-2) n].
Definition some_B (n : nat) : list R := repeat (-3) n.
Example C71_hyps : s_neurons (e_net new_model) = [] /\ (0 < s_inputs (e_net new_model))%nat /\
  rand_shapes (s_inputs (e_net new_model)) some_W some_B /\ (forall n b, In b (some_B n) -> b <> 0) /\
  (forall name, In name ["lin"; "rbf_l1"; "rbf_l2"; "rbf_linf"; "tanh"; "sigm"] ->
     exists e', add_neurons new_model 3 (FName name) None None some_W some_B = (e', Ok tt)) /\
  exists X, X <> [] /\ wide (s_inputs (e_net new_model)) X.
Proof.
  split; [reflexivity|]. split; [cbn; lia|]. split.
  { intros n. split; [|apply repeat_length]. split; [reflexivity|]. repeat constructor; apply repeat_length. }
  split. { intros n b Hb. apply repeat_spec in Hb. subst b. lra. }
  split. { intros name H. repeat (destruct H as [<-|H]; [eexists; reflexivity|]). destruct H. }
  exists [[1; 2]]. split; [discriminate|]. repeat constructor.
Qed.
End Reals.

Print Assumptions C53_accepted_partial.
Print Assumptions C69_accepts.
Print Assumptions C69_attributes.
Print Assumptions C70_precision_partial.
Print Assumptions C70_refuted.
Print Assumptions C69_default_norm.
Print Assumptions C71_linear.
Print Assumptions C71_rbf.
Print Assumptions C71_scaled.
