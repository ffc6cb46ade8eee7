(** Property C109: rounding error of networks that also have 'rbf_l1' and
    'rbf_l2' neurons.  [signs RD] says that changes of the sign are exact (true
    of IEEE arithmetic, C109_formats); [in_range RD x c] that the argument of exp
    is computed from representable numbers, with a width > 0, without overflow. *)
From Coq Require Import ZArith Reals Lra Permutation Floats.SpecFloat.
From Verif Require Import Base Num Mat LinAlg Slfn Strs Elm Hpelm MatFacts ElmFacts TrainThms RangeThms ErrThms Demo SumOf Float Rounding RoundThms WfProofs SubThms FeatureThms RoundNet LibDouble RoundRbf RoundHp Spec.
Local Open Scope string_scope.
Local Open Scope list_scope.
Local Open Scope R_scope.

Section Any.
Context {K : Num} (RD : rounded K).
Theorem C109_neuron : signs RD -> forall v f x w b z, library RD v -> In f [RbfL1; RbfL2] -> length x = length w ->
  in_range RD x (f, w, b) -> r_fin K RD (act f x w b) ->
  neuron_value (length x) f (map (r_val K RD) x) (map (r_val K RD) w) (r_val K RD b) z ->
  Rabs (r_val K RD (act f x w b) - z) <= rbf_err RD v f x w b.
Proof. exact (rbf_rounding RD). Qed.

Theorem C109_network : signs RD -> forall v e e' X B Y, library RD v -> kappa RD v < 1 -> wf_net (e_net e) -> exact_model RD e e' ->
  (forall n, In n (s_neurons (e_net e)) -> In (n_func n) [Lin; Sigm; Tanh; RbfL1; RbfL2]) -> s_B (e_net e) = Some B ->
  elm_predict e (Arr2 (s_inputs (e_net e)) X) = Ok Y ->
  exists (H : mat) (Yx : list (list R)), elm_project e (Arr2 (s_inputs (e_net e)) X) = Ok H /\
    @elm_predict NumR e' (@Arr2 NumR (s_inputs (e_net e)) (vals RD X)) = Ok Yx /\
    forall r k, (r < length X)%nat -> (k < s_outputs (e_net e))%nat ->
      (forall c, In c (cells (s_neurons (e_net e))) -> in_range RD (nth r X []) c) -> r_fin K RD (mget Y r k) ->
      Rabs (r_val K RD (mget Y r k) - entry (nth r Yx []) k) <=
      bnd RD (length B) (predict1 (mags RD B) (nth r (mags RD H) []) k) (2 * INR (length B)) +
      predict1 (mags RD B) (map (any_err RD v (nth r X [])) (cells (s_neurons (e_net e)))) k.
Proof. exact (any_network_rounding RD). Qed.

Theorem C109_hpelm : signs RD -> forall v e e' X B Y d d' fY fY' istart icount Y', library RD v -> kappa RD v < 1 -> wf_net (e_net e) -> exact_model RD e e' ->
  (forall n, In n (s_neurons (e_net e)) -> In (n_func n) [Lin; Sigm; Tanh; RbfL1; RbfL2]) -> s_B (e_net e) = Some B ->
  elm_predict e (Arr2 (s_inputs (e_net e)) X) = Ok Y ->
  (0 < e_batch e)%Z -> (0 < @e_batch NumR e')%Z -> (istart <= length X)%nat -> holds_data d (s_inputs (e_net e)) X -> @holds_data NumR d' (s_inputs (e_net e)) (vals RD X) ->
  fY = DNew \/ fY = DFile -> fY' = DNew \/ fY' = DFile ->
  hp_predict e d fY (Z.of_nat istart) (zcount icount) = Ok Y' ->
  exists (H : mat) (Yx : list (list R)), elm_project e (Arr2 (s_inputs (e_net e)) X) = Ok H /\
    @hp_predict NumR e' d' fY' (Z.of_nat istart) (zcount icount) = Ok Yx /\ length Y' = length (range_of X istart icount) /\
    forall r k, (r < length Y')%nat -> (k < s_outputs (e_net e))%nat ->
      (forall c, In c (cells (s_neurons (e_net e))) -> in_range RD (nth (istart + r) X []) c) -> r_fin K RD (mget Y' r k) ->
      Rabs (r_val K RD (mget Y' r k) - entry (nth r Yx []) k) <=
      bnd RD (length B) (predict1 (mags RD B) (nth (istart + r) (mags RD H) []) k) (2 * INR (length B)) +
      predict1 (mags RD B) (map (any_err RD v (nth (istart + r) X [])) (cells (s_neurons (e_net e)))) k.
Proof. exact (hp_network_rounding RD). Qed.
End Any.

Theorem C109_formats : forall prec emax fe ft (Hp : (0 < prec < emax)%Z), signs (rounded_F prec emax fe ft Hp).
Proof. exact signs_F. Qed.

Section Model.
Context {K : Num}.
Definition r_tenth : num := ndiv n1 (nof_nat 10).
Definition r_fifth : num := ndiv n1 (nof_nat 5).
(** two linear neurons, an rbf_l1 and an rbf_l2 neuron *)
Definition r_model : elm := mkElm (mkSlfn Fast 2 1 r_tenth
  [mkNeuron 2 Lin [[r_fifth; n1]; [n1; n0]] [r_tenth; n1]; mkNeuron 1 RbfL1 [[n0]; [n0]] [n1]; mkNeuron 1 RbfL2 [[n1]; [n0]] [n1]]
  (Some 4%nat) (Some [[r_tenth]; [r_fifth]; [n1]; [r_fifth]]) None None) 2 true None None None false None.
Lemma r_model_wf : wf_net (e_net r_model).
Proof. constructor; cbn; try exact I; unfold wf_neuron, is_mat, wide; cbn; repeat first [apply Forall_cons | apply Forall_nil | apply NoDup_cons | apply NoDup_nil | split]; cbn; auto; intuition discriminate. Qed.
Lemma r_model_dims : s_inputs (e_net r_model) = 2%nat /\ s_outputs (e_net r_model) = 1%nat.
Proof. split; reflexivity. Qed.
End Model.

Section Double.
#[local] Instance Num64_r : Num := Num64 demo_exp coarse_tanh.
Notation RDc := (rounded_64 demo_exp coarse_tanh).
(** computed in double precision: distances 0 and 1 of both kinds *)
Example C109_hyps : exists e' B Y, signs RDc /\ library RDc (1 / 2) /\ kappa RDc (1 / 2) < 1 /\ wf_net (e_net r_model) /\ exact_model RDc r_model e' /\
  map n_func (s_neurons (e_net r_model)) = [Lin; RbfL1; RbfL2] /\ s_B (e_net r_model) = Some B /\
  elm_predict r_model (Arr2 2 [[n1; n0]; [n0; n0]]) = Ok Y /\
  (forall x c, In x [[n1; n0]; [n0; n0]] -> In c (cells (s_neurons (e_net r_model))) -> in_range RDc x c) /\
  (forall r, (r < 2)%nat -> sf_fin (mget Y r 0)).
Proof.
  exists (@mkElm NumR (@mkSlfn NumR Fast 2 1 0 (map (exact_neuron RDc) (s_neurons (e_net r_model))) None (option_map (vals RDc) (s_B (e_net r_model))) None None) 2 true None None None false None).
  eexists. eexists. split; [exact (signs_F 53 1024 demo_exp coarse_tanh _)|]. split; [exact (proj1 demo_library)|]. split; [exact (proj2 demo_library)|]. split.
  { exact r_model_wf. }
  split. { split; [exact (eq_sym (proj1 r_model_dims))|]. split; [exact (eq_sym (proj2 r_model_dims))|]. split; exact eq_refl. }
  split; [vm_compute; reflexivity|]. split; [vm_compute; reflexivity|]. split; [vm_compute; reflexivity|].
  split.
  { assert (0 < sf_val (S754_finite false (2 ^ 52)%positive (-52))) as P1.
    { unfold sf_val, sf_sign. rewrite Rmult_1_l. apply Rmult_lt_0_compat; [apply IZR_lt; reflexivity|apply p2_pos]. }
    assert (forall v : list spec_float, v = [@n1 Num64_r; @n0 Num64_r] \/ v = [@n0 Num64_r; @n0 Num64_r] -> Forall (sf_rep 53 1024) v) as HR.
    { intros v [-> | ->]; repeat constructor; vm_compute; discriminate. }
    intros x c Hx Hc. assert (Forall (sf_rep 53 1024) x) as Rx by (apply HR; destruct Hx as [<-|[<-|[]]]; auto).
    vm_compute in Hc. destruct Hc as [<-|[<-|[<-|[<-|[]]]]].
    1, 2: repeat (destruct Hx as [<-|Hx]; [split; [|discriminate]; match goal with |- r_fin _ _ ?t => change (sf_fin t) end; vm_compute; exact I|]); destruct Hx.
    all: split; [exact Rx|]; split; [apply HR; vm_compute; auto|]; split; [exact I|]; split; [exact P1|];
      repeat (destruct Hx as [<-|Hx]; [match goal with |- r_fin _ _ ?t => change (sf_fin t) end; vm_compute; exact I|]); destruct Hx. }
  intros r Hr. do 2 (destruct r as [|r]; [exact I|]). lia.
Qed.
(** and the second row of them by HPELM *)
Example C109_hpelm_hyps : exists Y', (0 < e_batch r_model)%Z /\ holds_data (SArr (Arr2 2 [[n1; n0]; [n0; n0]])) (s_inputs (e_net r_model)) [[n1; n0]; [n0; n0]] /\
  @holds_data NumR (@SArr NumR (@Arr2 NumR 2 (vals RDc [[n1; n0]; [n0; n0]]))) (s_inputs (e_net r_model)) (vals RDc [[n1; n0]; [n0; n0]]) /\
  hp_predict r_model (SArr (Arr2 2 [[n1; n0]; [n0; n0]])) DNew (Z.of_nat 1) (zcount None) = Ok Y' /\ length Y' = 1%nat /\ sf_fin (mget Y' 0 0).
Proof.
  eexists. split; [reflexivity|]. split; [left; reflexivity|]. split; [left; reflexivity|]. split; [vm_compute; reflexivity|]. split; [reflexivity|exact I].
Qed.
End Double.

Print Assumptions C109_neuron.
Print Assumptions C109_network.
Print Assumptions C109_hpelm.
Print Assumptions C109_formats.
