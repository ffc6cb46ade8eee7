(** Property C107: rounding error of a whole network with 'lin', 'sigm' and
    'tanh' neurons, from the inputs to the predictions.  [library RD v] says
    how accurate exp() and tanh() of the library are; [exact_model RD e e']
    says that e' is the network e with the same numbers, computed with reals. *)
From Coq Require Import ZArith Reals Lra Permutation Floats.SpecFloat.
From Verif Require Import Base Num Mat LinAlg Slfn Strs Elm Hpelm MatFacts ElmFacts TrainThms RangeThms ErrThms Demo SumOf Float Rounding RoundThms WfProofs SubThms FeatureThms RoundNet LibDouble Spec.
Local Open Scope string_scope.
Local Open Scope list_scope.
Local Open Scope R_scope.

Section Any.
Context {K : Num} (RD : rounded K).
Theorem C107_neuron : forall v f x w b z, library RD v -> kappa RD v < 1 -> In f [Lin; Sigm; Tanh] -> length x = length w ->
  no_overflow RD x (f, w, b) -> r_fin K RD (act f x w b) ->
  neuron_value (length x) f (map (r_val K RD) x) (map (r_val K RD) w) (r_val K RD b) z ->
  Rabs (r_val K RD (act f x w b) - z) <= c_err RD v x (f, w, b).
Proof. exact (neuron_rounding RD). Qed.

Theorem C107_network : forall v e e' X B Y, library RD v -> kappa RD v < 1 -> wf_net (e_net e) -> exact_model RD e e' ->
  (forall n, In n (s_neurons (e_net e)) -> In (n_func n) [Lin; Sigm; Tanh]) -> s_B (e_net e) = Some B ->
  elm_predict e (Arr2 (s_inputs (e_net e)) X) = Ok Y ->
  exists (H : mat) (Yx : list (list R)), elm_project e (Arr2 (s_inputs (e_net e)) X) = Ok H /\
    @elm_predict NumR e' (@Arr2 NumR (s_inputs (e_net e)) (vals RD X)) = Ok Yx /\
    forall r k, (r < length X)%nat -> (k < s_outputs (e_net e))%nat ->
      (forall c, In c (cells (s_neurons (e_net e))) -> no_overflow RD (nth r X []) c) -> r_fin K RD (mget Y r k) ->
      Rabs (r_val K RD (mget Y r k) - entry (nth r Yx []) k) <=
      bnd RD (length B) (predict1 (mags RD B) (nth r (mags RD H) []) k) (2 * INR (length B)) +
      predict1 (mags RD B) (map (c_err RD v (nth r X [])) (cells (s_neurons (e_net e)))) k.
Proof. exact (network_rounding RD). Qed.
End Any.

(** functions that round the exact value to double precision are such a library *)
Theorem C107_doubles : library (rounded_64 lib_exp lib_tanh) (p2 (-52)) /\ kappa (rounded_64 lib_exp lib_tanh) (p2 (-52)) < p2 (-51).
Proof. exact double_library. Qed.

Section Model.
Context {K : Num}.
Definition c_tenth : num := ndiv n1 (nof_nat 10).
Definition c_fifth : num := ndiv n1 (nof_nat 5).
(** two linear neurons and a tanh neuron *)
Definition c_model : elm := let e := fst (add_neurons (lin_model 2 1 "" None 2 None c_tenth 2 [[c_fifth; n1]; [n1; n0]] [c_tenth; n1])
  1 (FName "tanh") (Some (1%nat, [[c_tenth]; [n1]])) (Some [c_fifth]) (fun _ => []) (fun _ => [])) in
  with_net e (fst (set_B (e_net e) 3 1 [[c_tenth]; [c_fifth]; [n1]])).
Lemma c_model_wf : wf_net (e_net c_model).
Proof. constructor; cbn; try exact I; repeat constructor; cbn; auto; intuition discriminate. Qed.
Lemma c_model_dims : s_inputs (e_net c_model) = 2%nat /\ s_outputs (e_net c_model) = 1%nat.
Proof. split; reflexivity. Qed.
End Model.

Section Double.
#[local] Instance Num64_c : Num := Num64 no_exp coarse_tanh.
Notation RDc := (rounded_64 no_exp coarse_tanh).
(** computed in double precision *)
Example C107_hyps : exists e' B Y, library RDc (1 / 2) /\ kappa RDc (1 / 2) < 1 /\ wf_net (e_net c_model) /\ exact_model RDc c_model e' /\
  map n_func (s_neurons (e_net c_model)) = [Lin; Tanh] /\ s_B (e_net c_model) = Some B /\
  elm_predict c_model (Arr2 2 [[n1; c_tenth]; [c_fifth; n1]]) = Ok Y /\
  (forall x c, In x [[n1; c_tenth]; [c_fifth; n1]] -> In c (cells (s_neurons (e_net c_model))) -> no_overflow RDc x c) /\
  (forall r, (r < 2)%nat -> sf_fin (mget Y r 0)).
Proof.
  exists (@mkElm NumR (@mkSlfn NumR Fast 2 1 0 (map (exact_neuron RDc) (s_neurons (e_net c_model))) None (option_map (vals RDc) (s_B (e_net c_model))) None None) 2 true None None None false None).
  eexists. eexists. split; [exact (proj1 coarse_library)|]. split; [exact (proj2 coarse_library)|]. split.
  { exact c_model_wf. }
  split. { split; [exact (eq_sym (proj1 c_model_dims))|]. split; [exact (eq_sym (proj2 c_model_dims))|]. split; exact eq_refl. }
  split; [vm_compute; reflexivity|]. split; [vm_compute; reflexivity|]. split; [vm_compute; reflexivity|].
  split. { intros x c Hx Hc. vm_compute in Hc. repeat (destruct Hc as [<-|Hc]; [repeat (destruct Hx as [<-|Hx]; [split; [|discriminate]; match goal with |- r_fin _ _ ?t => change (sf_fin t) end; vm_compute; exact I|]); destruct Hx|]). destruct Hc. }
  intros r Hr. do 2 (destruct r as [|r]; [exact I|]). lia.
Qed.
End Double.

Print Assumptions C107_neuron.
Print Assumptions C107_network.
Print Assumptions C107_doubles.
