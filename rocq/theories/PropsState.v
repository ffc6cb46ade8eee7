(** Property theorems: model state, neurons, prediction, ranges and files
    (C10-C17, C29, C30, C50, C51, C53).  Proofs are in the other files. *)
From Coq Require Import Reals QArith Lra Permutation.
From Verif Require Import Base Num Mat LinAlg Slfn Strs Elm Mrsr Search Mss Hpelm MatFacts Spec ElmFacts WfProofs
  TrainThms IncrThms SolveThms History StaleThms NeuronThms FeatureThms RangeThms RangeTrain Demo Refute1 Refute2.
Local Open Scope nat_scope.

(** ** C10: consistent state after every history (loading into a model with an
    accelerator restricted to the same number of inputs, see the refutation) *)
Theorem C10_consistent_partial {K : Num} {SG : Sing} {BR : Brent} {SH : Shuffle} :
  forall e, sing_shapes -> reach e -> wf_net (e_net e).
Proof. exact reach_wf. Qed.
Print Assumptions C10_consistent_partial.

Section C10_example.
Context {K : Num}.
(** some results on singular systems that have the right shape *)
Definition any_sing : Sing := {| lstsq_sing := fun _ r => r; pinv_sing := fun a => a; lu_sing := fun _ r => r |}.
#[local] Existing Instance any_sing.
Context {BR : Brent} {SH : Shuffle}.
Example C10_hyps : sing_shapes /\
  (forall e, elm_init 2 2 "" None 2 None PF64 None = Ok e ->
   reach (step (step (step e (CAddNeurons 1 (FName "tanh") (Some (1%nat, [[n1]; [n1]])) (Some [n0]) (fun n => mk 2 n (fun _ _ => n1)) (fun n => mkv n (fun _ => n1))))
     (CAddData demo_X demo_T)) (CLoad (output_format (demo None "" None))))).
Proof.
  split; [split; intros; auto|]. intros e He.
  apply reach_step; [apply reach_step; [apply reach_step; [eapply reach_init; exact He|]|exact I]|].
  - apply Ok_inj in He. subst e. split.
    + intros c m E. apply Some_inj in E. injection E as <- <-. repeat constructor.
    + intros n. split; [apply is_mat_mk|apply mkv_length].
  - apply Ok_inj in He. subst e. split; [|left; reflexivity]. split; cbn; [|exact I].
    repeat constructor.
Qed.
End C10_example.

(** ** C11: no stale output weights *)
Theorem C11_add_neurons_clears {K : Num} {SG : Sing} : forall e number func W B rW rB e',
  add_neurons e number func W B rW rB = (e', Ok tt) ->
  s_B (e_net e') = None /\ s_HH (e_net e') = None /\ s_HT (e_net e') = None.
Proof. exact add_neurons_clears. Qed.
Print Assumptions C11_add_neurons_clears.

Theorem C11_prune_clears {K : Num} {SG : Sing} : forall s idx,
  s_B (prune s idx) = None /\ s_HH (prune s idx) = None /\ s_HT (prune s idx) = None.
Proof. exact prune_clears. Qed.
Print Assumptions C11_prune_clears.

Theorem C11_new_model_clear {K : Num} {SG : Sing} : forall inputs outputs cls w batch accel prec norm e,
  elm_init inputs outputs cls w batch accel prec norm = Ok e ->
  wf_elm e /\ s_B (e_net e) = None /\ s_HH (e_net e) = None /\ s_HT (e_net e) = None.
Proof. exact init_wf. Qed.
Print Assumptions C11_new_model_clear.

Theorem C11_predict_raises {K : Num} {SG : Sing} {BR : Brent} {SH : Shuffle} : forall cs e X,
  s_B (e_net e) = None -> forallb (fun c => negb (gives_weights c)) cs = true ->
  exists x, elm_predict (fold_left step cs e) X = Err x.
Proof. exact no_stale_weights. Qed.
Print Assumptions C11_predict_raises.

Example C11_hyps {K : Num} {SG : Sing} {BR : Brent} {SH : Shuffle} :
  s_B (e_net (demo None "" None)) = None /\
  forallb (fun c => negb (gives_weights c)) [CAddData demo_X demo_T; CPrune [0%nat]; CReset] = true.
Proof. split; reflexivity. Qed.

(** ** C12: adding neurons *)
Theorem C12_add_neurons {K : Num} {SG : Sing} : forall e number func W B rW rB e',
  wf_net (e_net e) ->
  (forall c m, W = Some (c, m) -> Forall (fun r => length r = c) m) ->
  rand_shapes (s_inputs (e_net e)) rW rB ->
  add_neurons e number func W B rW rB = (e', Ok tt) ->
  exists f n W' B' k, parse_func func = Some f /\
    n = match W with
        | None => if is_lin f then Nat.min (Z.to_nat number) (s_inputs (e_net e)) else Z.to_nat number
        | Some _ => Z.to_nat number
        end /\
    (forall c m, W = Some (c, m) -> W' = m) /\ (forall b, B = Some b -> B' = b) /\
    length W' = s_inputs (e_net e) /\ Forall (fun row => length row = n) W' /\ length B' = n /\
    s_inputs (e_net e') = s_inputs (e_net e) /\ s_outputs (e_net e') = s_outputs (e_net e) /\
    s_L (e_net e') = Some (getL (e_net e) + n) /\ k <= getL (e_net e) /\
    k = insert_at (group_sizes (s_neurons (e_net e))) f /\
    (is_ufunc f = false ->
     (forall c X H, elm_project e (Arr2 c X) = Ok H -> exists H', elm_project e' (Arr2 c X) = Ok H' /\
        H' = map2 (fun x h => firstn k h ++ new_features f W' B' n x ++ skipn k h) X H) /\
     (s_neurons (e_net e) = [] -> forall X, Forall (fun x => length x = s_inputs (e_net e)) X ->
        elm_project e' (Arr2 (s_inputs (e_net e)) X) = Ok (map (new_features f W' B' n) X))).
Proof. exact add_neurons_features. Qed.
Print Assumptions C12_add_neurons.

Lemma demo_wf {K : Num} : forall a, In a [None; Some "basic"%string; Some "GPU"%string] -> wf_net (e_net (demo a "" None)).
Proof.
  intros a [<-|[<-|[<-|[]]]]; (constructor; cbn; try exact I; repeat constructor; cbn; auto; intuition discriminate).
Qed.

(** two more lin neurons are merged into the existing group: features 0,1,(new),2 *)
Example C12_hyps {K : Num} {SG : Sing} : let e := demo None "" None in
  wf_net (e_net e) /\ rand_shapes (s_inputs (e_net e)) (fun n => mk 2 n (fun _ _ => n1)) (fun n => mkv n (fun _ => n1)) /\
  (exists e', add_neurons e 5 (FName "lin") None None (fun n => mk 2 n (fun _ _ => n1)) (fun n => mkv n (fun _ => n1)) = (e', Ok tt) /\
     s_L (e_net e') = Some 5%nat) /\
  exists H, elm_project e (Arr2 2 demo_X) = Ok H.
Proof.
  cbv zeta. split; [apply demo_wf; cbn; auto|]. split; [intros n; split; [apply is_mat_mk|apply mkv_length]|].
  split; [apply run_ok; reflexivity|]. apply get_ok. reflexivity.
Qed.

(** ** C13: pruning *)
Theorem C13_prune {K : Num} {SG : Sing} : forall e idx,
  wf_net (e_net e) -> (forall i, In i idx -> i < getL (e_net e)) ->
  let e' := with_net e (prune (e_net e) idx) in
  exists cols, cols = regroup (map n_num (s_neurons (e_net e))) idx /\ Permutation cols idx /\
    s_L (e_net e') = Some (length idx) /\
    map n_func (s_neurons (e_net e')) = map n_func (s_neurons (e_net e)) /\
    forall c X H, elm_project e (Arr2 c X) = Ok H ->
      elm_project e' (Arr2 c X) = Ok (map (fun h => map (fun i => nth i h n0) cols) H).
Proof. exact prune_features. Qed.
Print Assumptions C13_prune.

(** keep the tanh neuron (2) and the second lin neuron (1): the lin column comes first *)
Example C13_hyps {K : Num} {SG : Sing} : let e := demo None "" None in
  wf_net (e_net e) /\ (forall i, In i [2%nat; 1%nat] -> i < getL (e_net e)) /\
  regroup (map n_num (s_neurons (e_net e))) [2%nat; 1%nat] = [1%nat; 2%nat] /\
  exists H, elm_project e (Arr2 2 demo_X) = Ok H.
Proof.
  cbv zeta. split; [apply demo_wf; cbn; auto|]. split; [intros i [<-|[<-|[]]]; apply Nat.ltb_lt; reflexivity|].
  split; [reflexivity|]. apply get_ok. reflexivity.
Qed.

(** ** C14: prediction is sample-wise *)
Theorem C14_samplewise {K : Num} {SG : Sing} : forall e, exists f, forall c X Y, elm_predict e (Arr2 c X) = Ok Y -> Y = map f X.
Proof. exact predict_samplewise. Qed.
Print Assumptions C14_samplewise.

Theorem C14_concat {K : Num} {SG : Sing} : forall e c X X', elm_predict e (Arr2 c (X ++ X')) =
  let? Y := elm_predict e (Arr2 c X) in let? Y' := elm_predict e (Arr2 c X') in Ok (Y ++ Y').
Proof. exact predict_concat. Qed.
Print Assumptions C14_concat.

(** ** C15: HPELM.predict *)
Theorem C15_predict_range {K : Num} {SG : Sing} : forall e d c X Y fY istart icount,
  (0 < e_batch e)%Z -> holds_data d c X -> istart <= length X ->
  elm_predict e (Arr2 c X) = Ok Y ->
  fY = DNew \/ fY = DFile ->
  hp_predict e d fY (Z.of_nat istart) (zcount icount) = Ok (range_of Y istart icount).
Proof. exact hp_predict_range. Qed.
Print Assumptions C15_predict_range.

Theorem C15_predict_into {K : Num} {SG : Sing} : forall e d c X Y M istart icount,
  (0 < e_batch e)%Z -> holds_data d c X -> istart <= length X ->
  elm_predict e (Arr2 c X) = Ok Y -> length (range_of Y istart icount) <= length M ->
  hp_predict e d (DArr (Arr2 (s_outputs (e_net e)) M)) (Z.of_nat istart) (zcount icount) =
    Ok (range_of Y istart icount ++ skipn (length (range_of Y istart icount)) M).
Proof. exact hp_predict_into. Qed.
Print Assumptions C15_predict_into.

(** ** C16: HPELM.project, from the first sample only *)
Theorem C16_project_range_partial {K : Num} {SG : Sing} : forall e d c X H fH icount,
  (0 < e_batch e)%Z -> holds_data d c X ->
  elm_project e (Arr2 c X) = Ok H ->
  fH = DNew \/ fH = DFile ->
  hp_project e d fH 0 (zcount icount) = Ok (range_of H 0 icount).
Proof. exact hp_project_from0. Qed.
Print Assumptions C16_project_range_partial.

Definition solved_demo {K : Num} : elm :=
  let e := demo None "" None in with_net e (with_B (e_net e) (Some [[n1; n0]; [n0; n1]; [n1; n1]])).
Example C15_C16_hyps {K : Num} {SG : Sing} :
  (0 < e_batch solved_demo)%Z /\ holds_data (SFile (Some (2%nat, demo_X))) 2 demo_X /\ 1 <= length demo_X /\
  (exists Y, elm_predict solved_demo (Arr2 2 demo_X) = Ok Y) /\ (exists H, elm_project solved_demo (Arr2 2 demo_X) = Ok H) /\
  range_of [1; 2; 3; 4]%nat 1 (Some 2%nat) = [2; 3]%nat /\ range_of [1; 2; 3; 4]%nat 3 (Some 2%nat) = [4]%nat.
Proof.
  split; [reflexivity|]. split; [right; reflexivity|]. split; [apply Nat.leb_le; reflexivity|].
  split; [apply get_ok; reflexivity|]. split; [apply get_ok; reflexivity|]. split; reflexivity.
Qed.

Section Reals.
#[local] Existing Instance NumR.
Local Open Scope R_scope.

Theorem C11_solve_after_add_neurons {SG : Sing} : forall e number func W B0 rW rB e1 ps,
  wf_net (e_net e) -> (forall c m, W = Some (c, m) -> Forall (fun r => length r = c) m) ->
  rand_shapes (s_inputs (e_net e)) rW rB -> 0 < s_norm (e_net e) -> is_wc e = false ->
  add_neurons e number func W B0 rW rB = (e1, Ok tt) -> usable (e_net e1) ->
  ps <> [] -> Forall (call_ok (s_inputs (e_net e1)) (s_outputs (e_net e1))) ps ->
  exists e2 s3 H B, run_all part_call e1 ps = (e2, Ok tt) /\ solve (e_net e2) = (s3, Ok tt) /\ s_B s3 = Some B /\
    elm_project e1 (Arr2 (s_inputs (e_net e1)) (parts_X ps)) = Ok H /\
    ridge_solution (nneurons (s_neurons (e_net e1))) (s_outputs (e_net e1)) (s_norm (e_net e1)) (plain H (parts_T ps)) B.
Proof. exact solve_after_add_neurons. Qed.

Theorem C11_solve_after_prune {SG : Sing} : forall e idx ps, let e1 := with_net e (prune (e_net e) idx) in
  wf_net (e_net e) -> 0 < s_norm (e_net e) -> is_wc e = false -> usable (e_net e1) ->
  ps <> [] -> Forall (call_ok (s_inputs (e_net e1)) (s_outputs (e_net e1))) ps ->
  exists e2 s3 H B, run_all part_call e1 ps = (e2, Ok tt) /\ solve (e_net e2) = (s3, Ok tt) /\ s_B s3 = Some B /\
    elm_project e1 (Arr2 (s_inputs (e_net e1)) (parts_X ps)) = Ok H /\
    ridge_solution (nneurons (s_neurons (e_net e1))) (s_outputs (e_net e1)) (s_norm (e_net e1)) (plain H (parts_T ps)) B.
Proof. exact solve_after_prune. Qed.

Example C11_solve_hyps {SG : Sing} : let e := fst (add_data (demo None "" None) demo_X demo_T) in
  let e1 := with_net e (prune (e_net e) [1%nat]) in
  s_norm (e_net e) = 1 /\ is_wc e = false /\ usable (e_net e1) /\ s_HH (e_net e) <> None /\
  Forall (call_ok (s_inputs (e_net e1)) (s_outputs (e_net e1))) [(7%Z, (demo_X, demo_T))].
Proof.
  cbv zeta. split; [reflexivity|]. split; [reflexivity|]. split; [split; [discriminate|reflexivity]|].
  split; [discriminate|]. repeat constructor; discriminate.
Qed.

(** the formulas of the neuron types *)
Theorem C12_neuron_formulas : forall n f (x w : list R) b, length x = n -> length w = n -> neuron_value n f x w b (act f x w b).
Proof. exact act_value. Qed.

(** prediction = features times output weights *)
Theorem C14_value {SG : Sing} : forall e c X H B, wf_net (e_net e) -> elm_project e (Arr2 c X) = Ok H ->
  s_B (e_net e) = Some B ->
  elm_predict e (Arr2 c X) = Ok (map (fun h => map (predict1 B h) (seq 0 (s_outputs (e_net e)))) H).
Proof. exact predict_value. Qed.

Example C14_hyps {SG : Sing} : wf_net (e_net solved_demo) /\ s_B (e_net solved_demo) <> None /\
  exists H, elm_project solved_demo (Arr2 2 demo_X) = Ok H.
Proof.
  split; [|split; [discriminate|apply get_ok; reflexivity]].
  constructor; cbn; try exact I; repeat constructor; cbn; auto; intuition discriminate.
Qed.

(** ** C17: training on a range *)
Theorem C17_range {SG : Sing} : forall e dX dT X T H i c,
  no_data (e_net e) -> is_wc e = false -> (0 < e_batch e)%Z -> data_ok e dX dT X T -> (i < length X)%nat -> c <> Some 0%nat ->
  elm_project e (Arr2 (s_inputs (e_net e)) X) = Ok H ->
  exists e', hp_add_data e dX dT (Z.of_nat i) (zcount c) None = (e', None, Ok tt) /\
    get_corr (e_net e') =
      Ok (Some (spec_HH (getL (e_net e)) (s_norm (e_net e)) (plain (range_of H i c) (range_of T i c)),
                spec_HT (getL (e_net e)) (s_outputs (e_net e)) (plain (range_of H i c) (range_of T i c)))).
Proof. exact range_corr. Qed.

Theorem C17_range_weights {SG : Sing} : forall e dX dT X T H i c ws ks,
  no_data (e_net e) -> is_wc e = true -> e_wc e = Some (map Fin ws) ->
  length ws = s_outputs (e_net e) -> (forall w, In w ws -> 0 <= w) ->
  (0 < e_batch e)%Z -> data_ok e dX dT X T -> (i < length X)%nat -> c <> Some 0%nat ->
  Forall2 (has_class (s_outputs (e_net e))) T ks -> elm_project e (Arr2 (s_inputs (e_net e)) X) = Ok H ->
  let ss := samples (map (fun k => nth k ws 0) (range_of ks i c)) (range_of H i c) (range_of T i c) in
  exists e', hp_add_data e dX dT (Z.of_nat i) (zcount c) None = (e', None, Ok tt) /\
    get_corr (e_net e') = Ok (Some (spec_HH (getL (e_net e)) (s_norm (e_net e)) ss,
                                    spec_HT (getL (e_net e)) (s_outputs (e_net e)) ss)).
Proof. exact range_corr_weights. Qed.

Theorem C17_range_auto_weights {SG : Sing} : forall e dX dT X T H i c ks,
  no_data (e_net e) -> is_wc e = true -> e_wc e = None ->
  (0 < e_batch e)%Z -> data_ok e dX dT X T -> (i < length X)%nat -> c <> Some 0%nat ->
  Forall2 (has_class (s_outputs (e_net e))) T ks -> elm_project e (Arr2 (s_inputs (e_net e)) X) = Ok H ->
  let ss := samples (map (auto_weight (range_of ks i c)) (range_of ks i c)) (range_of H i c) (range_of T i c) in
  exists e', hp_add_data e dX dT (Z.of_nat i) (zcount c) None = (e', None, Ok tt) /\
    get_corr (e_net e') = Ok (Some (spec_HH (getL (e_net e)) (s_norm (e_net e)) ss,
                                    spec_HT (getL (e_net e)) (s_outputs (e_net e)) ss)).
Proof. exact range_corr_auto. Qed.

Theorem C17_empty_range {SG : Sing} : forall e dX dT X T i c,
  is_wc e = false -> usable (e_net e) -> (0 < e_batch e)%Z -> data_ok e dX dT X T ->
  (i = length X \/ (i <= length X)%nat /\ c = Some 0%nat) ->
  hp_add_data e dX dT (Z.of_nat i) (zcount c) None = (e, None, Ok tt).
Proof. exact range_empty. Qed.

Theorem C17_consecutive_ranges {SG : Sing} : forall e dX dT X T cs b,
  no_data (e_net e) -> usable (e_net e) -> is_wc e = false -> data_ok e dX dT X T -> X <> [] ->
  (forall p, In p cs -> (0 < fst p)%Z) -> list_sum (map snd cs) = length X -> (0 < b)%Z ->
  exists e1 e2 C, run_all (range_call dX dT) e (consecutive 0 cs) = (e1, Ok tt) /\ get_corr (e_net e1) = Ok (Some C) /\
    add_data (with_batch e b) X T = (e2, Ok tt) /\ get_corr (e_net e2) = Ok (Some C).
Proof. exact ranges_corr. Qed.

Theorem C17_train {SG : Sing} {BR : Brent} {SH : Shuffle} : forall e dX dT X T H i c args kw e1,
  wf_net (e_net e) -> 0 < s_norm (e_net e) -> parse_args e args kw = (e1, Ok tt) -> is_wc e1 = false ->
  (0 < e_batch e1)%Z -> data_ok e dX dT X T -> (i < length X)%nat -> c <> Some 0%nat ->
  elm_project e (Arr2 (s_inputs (e_net e)) X) = Ok H ->
  exists e' B, hp_train e dX dT args kw (Some (Z.of_nat i)) (zcount c) = (e', Ok tt) /\
    s_B (e_net e') = Some B /\ s_neurons (e_net e') = s_neurons (e_net e) /\
    ridge_solution (nneurons (s_neurons (e_net e))) (s_outputs (e_net e)) (s_norm (e_net e))
      (plain (range_of H i c) (range_of T i c)) B.
Proof. exact hp_train_ridge. Qed.

Example C17_hyps {SG : Sing} :
  let dX := SFile (Some (2%nat, demo_X)) in let dT := SArr (Arr2 2 demo_T) in
  forall e, e = demo None "" None \/ e = demo None "wc" (Some [2; 3]) \/ e = demo None "wc" None ->
  no_data (e_net e) /\ usable (e_net e) /\ (0 < e_batch e)%Z /\ data_ok e dX dT demo_X demo_T /\
  Forall2 (has_class (s_outputs (e_net e))) demo_T [0%nat; 1%nat; 0%nat] /\
  (exists H, elm_project e (Arr2 (s_inputs (e_net e)) demo_X) = Ok H) /\
  list_sum (map snd [(1%Z, 2%nat); (7%Z, 1%nat)]) = length demo_X.
Proof.
  intros dX dT e He.
  assert (s_inputs (e_net e) = 2%nat /\ s_outputs (e_net e) = 2%nat) as [Ei Eo] by (destruct He as [He|[He|He]]; subst e; split; reflexivity).
  unfold data_ok. rewrite Ei, Eo.
  split; [destruct He as [He|[He|He]]; subst e; split; reflexivity|].
  split; [destruct He as [He|[He|He]]; subst e; (split; [discriminate|reflexivity])|].
  split; [destruct He as [He|[He|He]]; subst e; reflexivity|].
  split. { split; [right; reflexivity|]. split; [left; reflexivity|]. split; [reflexivity|]. split; repeat constructor. }
  split. { apply Forall2_cons; [|apply Forall2_cons; [|apply Forall2_cons; [|apply Forall2_nil]]];
    (split; [reflexivity|]); (split; [lia|]); intros [|[|j]] Hj; try reflexivity; lia. }
  split; [destruct He as [He|[He|He]]; subst e; apply get_ok; reflexivity|reflexivity].
Qed.

(** ** C29: files *)
Theorem C29_files {SG : Sing} {BR : Brent} {SH : Shuffle} : forall e dX dT X T cs args kw e1,
  wf_net (e_net e) -> usable (e_net e) -> 0 < s_norm (e_net e) -> is_wc e = false ->
  parse_args e args kw = (e1, Ok tt) -> is_wc e1 = false ->
  smem "V" args = false -> smem "CV" args = false -> smem "LOO" args = false ->
  (0 < e_batch e1)%Z -> data_ok e dX dT X T -> X <> [] ->
  (forall p, In p cs -> (0 < fst p)%Z /\ (0 < snd p)%nat) -> list_sum (map snd cs) = length X ->
  exists e2 fs e3 e4 e5 B,
    run_all (file_call dX dT) (e, mkFs None None) (consecutive 0 cs) = ((e2, fs), Ok tt) /\
    hp_solve_corr e2 fs = (e3, Ok tt) /\ s_B (e_net e3) = Some B /\
    train e (Arr2 (s_inputs (e_net e)) X) (Arr2 (s_outputs (e_net e)) T) args kw = (e4, Ok None) /\ s_B (e_net e4) = Some B /\
    hp_train e dX dT args kw (Some 0%Z) None = (e5, Ok tt) /\ s_B (e_net e5) = Some B.
Proof. exact files_train. Qed.

Theorem C29_files_weighted {SG : Sing} {BR : Brent} {SH : Shuffle} : forall e ws ks dX dT X T cs args kw e1,
  wf_net (e_net e) -> usable (e_net e) -> 0 < s_norm (e_net e) ->
  is_wc e = true -> e_wc e = Some (map Fin ws) -> length ws = s_outputs (e_net e) -> (forall w, In w ws -> 0 <= w) ->
  parse_args e args kw = (e1, Ok tt) -> is_wc e1 = true -> e_wc e1 = Some (map Fin ws) ->
  smem "V" args = false -> smem "CV" args = false -> smem "LOO" args = false ->
  (0 < e_batch e1)%Z -> data_ok e dX dT X T -> X <> [] -> Forall2 (has_class (s_outputs (e_net e))) T ks ->
  (forall p, In p cs -> (0 < fst p)%Z /\ (0 < snd p)%nat) -> list_sum (map snd cs) = length X ->
  exists e2 fs e3 e4 e5 B,
    run_all (file_call dX dT) (e, mkFs None None) (consecutive 0 cs) = ((e2, fs), Ok tt) /\
    hp_solve_corr e2 fs = (e3, Ok tt) /\ s_B (e_net e3) = Some B /\
    train e (Arr2 (s_inputs (e_net e)) X) (Arr2 (s_outputs (e_net e)) T) args kw = (e4, Ok None) /\ s_B (e_net e4) = Some B /\
    hp_train e dX dT args kw (Some 0%Z) None = (e5, Ok tt) /\ s_B (e_net e5) = Some B.
Proof. exact files_train_weighted. Qed.

(** hypotheses: as in C08_hyps and C17_hyps; here the remaining ones *)
Example C29_hyps {SG : Sing} : let e := demo (Some "basic"%string) "wc" (Some [2; 3]) in
  wf_net (e_net e) /\ usable (e_net e) /\ is_wc e = true /\ e_wc e = Some (map Fin [2; 3]) /\
  (exists e1, parse_args e ["wc"%string] (mkKw (Some [2; 3]) None None None None None) = (e1, Ok tt) /\ is_wc e1 = true /\
      e_wc e1 = Some (map Fin [2; 3]) /\ (0 < e_batch e1)%Z).
Proof.
  cbv zeta. split; [apply (@demo_wf NumR (Some "basic"%string)); cbn; auto|]. split; [split; [discriminate|reflexivity]|].
  split; [reflexivity|]. split; [reflexivity|]. apply run_ok; vm_compute; repeat split.
Qed.

(** ** C30: the matrices in memory, on the solvers other than Basic *)
Theorem C30_memory_partial {SG : Sing} {BR : Brent} {SH : Shuffle} : forall e dX dT X T i c fs,
  s_kind (e_net e) <> Basic -> no_data (e_net e) -> s_L (e_net e) = Some (nneurons (s_neurons (e_net e))) ->
  usable (e_net e) -> is_wc e = false -> (0 < e_batch e)%Z -> data_ok e dX dT X T ->
  (i <= length X)%nat -> range_of X i c <> [] ->
  fs = mkFs None None ->
  fst (fst (hp_add_data e dX dT (Z.of_nat i) (zcount c) (Some fs))) = fst (fst (hp_add_data e dX dT (Z.of_nat i) (zcount c) None)) /\
  snd (hp_add_data e dX dT (Z.of_nat i) (zcount c) (Some fs)) = Ok tt.
Proof. intros e dX dT X T i c fs. exact (files_memory e dX dT X T i c fs). Qed.

Example C30_hyps {SG : Sing} : forall a, In a [None; Some "GPU"%string] -> let e := demo a "" None in
  s_kind (e_net e) <> Basic /\ no_data (e_net e) /\ s_L (e_net e) = Some (nneurons (s_neurons (e_net e))) /\
  usable (e_net e) /\ is_wc e = false /\ (0 < e_batch e)%Z.
Proof.
  intros a [<-|[<-|[]]]; cbv zeta; (split; [discriminate|]); (split; [split; reflexivity|]); (split; [reflexivity|]);
    (split; [split; [discriminate|reflexivity]|]); split; reflexivity.
Qed.

(** ** C50: ranges of the neuron outputs *)
Theorem C50_ranges : forall n f (x w : list R) b, length x = n -> length w = n ->
  match f with
  | Sigm => 0 < act f x w b < 1
  | Tanh => -1 < act f x w b < 1
  | RbfL1 | RbfL2 | RbfLinf => 0 < b -> 0 < act f x w b <= 1 /\ (act f x w b = 1 <-> x = w)
  | _ => True
  end.
Proof. exact act_ranges. Qed.

(** ** C51: sigm *)
Theorem C51_mirrored_partial : forall n (x w : list R) b, length x = n -> length w = n ->
  act Sigm x w b = logistic (- (inner n x w + b)).
Proof. exact sigm_mirrored. Qed.

Theorem C51_negated_partial : forall n (x w : list R) b, length x = n -> length w = n ->
  act Sigm x (map Ropp w) (- b) = logistic (inner n x w + b).
Proof. exact sigm_negated. Qed.

Theorem C51_refuted : exists (x w : list R) b, length x = 1%nat /\ length w = 1%nat /\
  act Sigm x w b <> logistic (inner 1 x w + b).
Proof. exists [1], [1], 0. split; [reflexivity|]. split; [reflexivity|]. exact sigm_wrong. Qed.
End Reals.

(** ** C53: standard neuron types *)
Theorem C53_standard_partial {K : Num} {SG : Sing} : forall s X, usable s -> wide (s_inputs s) X ->
  project s X = Ok (map (hrow (s_neurons s)) X).
Proof. exact project_ok. Qed.
Print Assumptions C53_standard_partial.

Example C53_hyps {K : Num} {SG : Sing} : usable (e_net (demo None "" None)) /\ wide (s_inputs (e_net (demo None "" None))) demo_X.
Proof. split; [split; [discriminate|reflexivity]|repeat constructor]. Qed.

(** ** Violations found *)
Section Rationals.
#[local] Existing Instance NumQ.
Local Open Scope Q_scope.

Theorem C10_load_refuted {SG : @Sing NumQ} :
  elm_init 2 1 "" None 10 (Some "basic"%string) PF64 (Some (1 : Q)) = Ok load_target /\
  exists e', update_from load_target (output_format load_source) = (e', Ok tt) /\
    s_inputs (e_net e') = 2%nat /\ map (fun n => length (n_W n)) (s_neurons (e_net e')) = [3%nat] /\
    ~ wf_net (e_net e') /\ elm_project e' (Arr2 2 [[1; 1]]) = Err ValueError.
Proof. exact load_inconsistent. Qed.

Theorem C16_refuted {SG : @Sing NumQ} :
  elm_project id_model (Arr2 1 [[5]; [7]]) = Ok [[5]; [7]] /\
  hp_project id_model (SArr (Arr2 1 [[5]; [7]])) DNew 1 (Some 1%Z) = Ok [[0]].
Proof. exact project_range_wrong. Qed.

Theorem C29_auto_weights_refuted {SG : @Sing NumQ} :
  (exists e1, hp_add_data auto_model (SArr (Arr2 1 (part_X ++ part_X))) (SArr (Arr2 2 rangeT)) 0 None None = (e1, None, Ok tt) /\
     exists HH HT, get_corr (e_net e1) = Ok (Some (HH, HT)) /\ HT = [[50; 50]]) /\
  (exists e' e2, hp_add_data auto_model (SArr (Arr2 1 (part_X ++ part_X))) (SArr (Arr2 2 rangeT)) 0 (Some 25%Z) None = (e', None, Ok tt) /\
     hp_add_data e' (SArr (Arr2 1 (part_X ++ part_X))) (SArr (Arr2 2 rangeT)) 25 (Some 25%Z) None = (e2, None, Ok tt) /\
     exists HH HT, get_corr (e_net e2) = Ok (Some (HH, HT)) /\ HT = [[225 # 8; 800 # 9]]).
Proof. exact auto_ranges. Qed.

Theorem C30_basic_refuted {SG : @Sing NumQ} :
  (exists e' fs, hp_add_data basic_model (SArr (Arr2 1 [[1]; [2]])) (SArr (Arr2 1 [[1]; [1]])) 0 None (Some (mkFs None None))
     = (e', Some fs, Ok tt) /\ f_HH fs = Some (1%nat, [[7]]) /\
     exists HH HT, get_corr (e_net e') = Ok (Some (HH, HT)) /\ HH = [[5]]) /\
  (exists e', hp_add_data basic_model (SArr (Arr2 1 [[1]; [2]])) (SArr (Arr2 1 [[1]; [1]])) 0 None None
     = (e', None, Ok tt) /\
     exists HH HT, get_corr (e_net e') = Ok (Some (HH, HT)) /\ HH = [[7]]).
Proof. exact files_alias. Qed.

Theorem C53_refuted {SG : @Sing NumQ} : snd uf_model = Ok tt /\ exists x, elm_project (fst uf_model) (Arr2 1 [[1]]) = Err x.
Proof. exact ufunc_unusable. Qed.
End Rationals.

Print Assumptions C11_solve_after_add_neurons.
Print Assumptions C11_solve_after_prune.
Print Assumptions C12_neuron_formulas.
Print Assumptions C14_value.
Print Assumptions C17_range.
Print Assumptions C17_range_weights.
Print Assumptions C17_range_auto_weights.
Print Assumptions C17_empty_range.
Print Assumptions C17_consecutive_ranges.
Print Assumptions C17_train.
Print Assumptions C29_files.
Print Assumptions C29_files_weighted.
Print Assumptions C30_memory_partial.
Print Assumptions C50_ranges.
Print Assumptions C51_mirrored_partial.
Print Assumptions C51_negated_partial.
Print Assumptions C51_refuted.
Print Assumptions C10_load_refuted.
Print Assumptions C16_refuted.
Print Assumptions C29_auto_weights_refuted.
Print Assumptions C30_basic_refuted.
Print Assumptions C53_refuted.
