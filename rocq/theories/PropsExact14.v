(** C105: a change of the inputs that is compensated in the neurons. *)
From Coq Require Import Reals Lra Lia Permutation.
From Verif Require Import Base Num Mat LinAlg Slfn Strs Elm Mrsr Search Mss Demo ElmFacts Coord CoordR.
Local Open Scope string_scope.
Local Open Scope list_scope.
#[local] Existing Instance NumR.
Local Open Scope R_scope.

(** ** C105: features in another order, with the rows of the weights *)
Theorem C105_order {SG : Sing} {BR : Brent} {SH : Shuffle} : forall d q e, Permutation q (seq 0 d) -> shaped d e ->
  equivalent d d (fun x => map (fun i => nth i x 0) q) (reorder q) e.
Proof. exact equivalent_reorder. Qed.
(** features shifted: the biases of the neurons with a product change, the centroids of the RBF neurons move *)
Theorem C105_shift {SG : Sing} {BR : Brent} {SH : Shuffle} : forall d a e, length a = d -> shaped d e -> equivalent d d (fun x => map2 Rplus x a) (shift a) e.
Proof. exact equivalent_shift. Qed.
(** features in other units, without RBF neurons *)
Theorem C105_units {SG : Sing} {BR : Brent} {SH : Shuffle} : forall d s e, length s = d -> Forall (fun c => c <> 0) s -> shaped d e -> all_dotted e ->
  equivalent d d (fun x => map2 Rmult x s) (rescale s) e.
Proof. exact equivalent_rescale. Qed.
(** constant features added: they act as a part of the bias *)
Theorem C105_constant {SG : Sing} {BR : Brent} {SH : Shuffle} : forall d c v e, length v = length c -> shaped d e ->
  equivalent d (d + length c) (fun x => x ++ c) (extend d c v) e.
Proof. exact equivalent_extend. Qed.
(** the changed model is the one to which the changed neurons are added *)
Theorem C105_neurons : forall d d' gw gb e func f W B rW rB, s_inputs (e_net e) = d -> Forall (@rect NumR d) (s_neurons (e_net e)) -> parse_func func = Some f -> length W = d ->
  let old := add_neurons e (Z.of_nat (length B)) func (Some (length B, W)) (Some B) rW rB in
  add_neurons (move d' gw gb e) (Z.of_nat (length B)) func
    (Some (length B, mk d' (length B) (fun i j => vget (gw f (mcol W j) (vget B j)) i))) (Some (mkv (length B) (fun j => gb f (mcol W j) (vget B j)))) rW rB
  = (move d' gw gb (fst old), Ok tt) /\ snd old = Ok tt.
Proof. exact neurons_case. Qed.
Example C105_hyps : let e := rbf_demo in shaped 2 e /\ Forall (@rect NumR 2) (s_neurons (e_net e)) /\ all_dotted (demo None "" None) /\ shaped 2 (demo None "" None) /\ wide 2 demo_X /\ kw_wide 2 no_kw /\
  Permutation [1; 0]%nat (seq 0 2) /\
  map n_func (s_neurons (e_net e)) = [Lin; Tanh; RbfL2] /\ map n_W (s_neurons (e_net e)) = [[[1; 0]; [0; 1]]; [[1]; [1]]; [[1]; [2]]] /\
  map n_W (s_neurons (e_net (reorder [1; 0]%nat e))) = [[[0; 1]; [1; 0]]; [[1]; [1]]; [[2]; [1]]] /\
  map n_W (s_neurons (e_net (shift [5; 7] e))) = [[[1; 0]; [0; 1]]; [[1]; [1]]; [[6]; [9]]] /\
  map n_B (s_neurons (e_net (shift [5; 7] e))) = [[-5; -6]; [-12]; [1]] /\
  map n_W (s_neurons (e_net (extend 2 [3] [4] e))) = [[[1; 0]; [0; 1]; [4; 4]]; [[1]; [1]; [4]]; [[1]; [2]; [3]]].
Proof. exact coord_case. Qed.

Print Assumptions C105_order.
Print Assumptions C105_shift.
Print Assumptions C105_units.
Print Assumptions C105_constant.
Print Assumptions C105_neurons.
