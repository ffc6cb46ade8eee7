(** Property theorems: structure selection (C33-C41).  Proofs are in the other files. *)
From Coq Require Import Reals QArith Lra Permutation.
From Verif Require Import Base Num Mat LinAlg Slfn Strs Elm Mrsr Search Mss MatFacts Spec ElmFacts RLin WfProofs SolveThms
  ErrThms SearchThms SelectThms RankThms SubThms MssThms LooThms SelThms FoldThms CvThms TermThms WorksThms Demo Refute4 SelectDemo.
Local Open Scope nat_scope.

Section Reals.
#[local] Existing Instance NumR.
Local Open Scope R_scope.
Context {SG : Sing} {BR : Brent} {SH : Shuffle}.

(** ** C33: termination and range *)
Theorem C33_terminates : forall e X T args kw, snd (train e X T args kw) <> Err OutOfFuel.
Proof. exact train_terminates. Qed.

Theorem C33_search : forall (ev : Z -> res R) lo L eL size, (0 <= lo)%Z -> (lo <= L)%Z -> (L <= Z.of_nat size)%Z ->
  (exists m k t, search_from ev (init_table size L eL) lo L = Ok (m, k, t) /\ (lo <= k <= L)%Z) \/
  (exists x i, (lo <= i <= L)%Z /\ ev i = Err x /\ search_from ev (init_table size L eL) lo L = Err x).
Proof. exact search_in_range. Qed.

Theorem C33_validation_works : forall e X T Xv Tv args kw e1 H Hv, wf_net (e_net e) -> 0 < s_norm (e_net e) -> (0 < s_outputs (e_net e))%nat ->
  parse_args e args kw = (e1, Ok tt) -> smem "V" args = true ->
  kw_Xv kw = Some (Arr2 (s_inputs (e_net e)) Xv) -> kw_Tv kw = Some (Arr2 (s_outputs (e_net e)) Tv) ->
  ErrThms.plain (e_class e1) -> simple_ranking e1 -> (0 < ranked_size e1 (nneurons (s_neurons (e_net e))))%nat ->
  (0 < e_batch e1)%Z -> X <> [] -> length X = length T -> wide (s_outputs (e_net e)) T ->
  Tv <> [] -> length Xv = length Tv -> wide (s_outputs (e_net e)) Tv ->
  elm_project e (Arr2 (s_inputs (e_net e)) X) = Ok H -> elm_project e (Arr2 (s_inputs (e_net e)) Xv) = Ok Hv ->
  shuffles ->
  exists e', train e (Arr2 (s_inputs (e_net e)) X) (Arr2 (s_outputs (e_net e)) T) args kw = (e', Ok None).
Proof. exact train_v_works. Qed.

Theorem C33_loo_works : forall e X T args kw e1 H, shuffles -> wf_net (e_net e) -> 0 < s_norm (e_net e) -> (0 < s_outputs (e_net e))%nat ->
  parse_args e args kw = (e1, Ok tt) -> smem "V" args = false -> smem "CV" args = false -> smem "LOO" args = true ->
  ErrThms.plain (e_class e1) -> simple_ranking e1 -> (0 < ranked_size e1 (nneurons (s_neurons (e_net e))))%nat ->
  (0 < e_batch e1)%Z -> X <> [] -> length X = length T -> wide (s_outputs (e_net e)) T ->
  elm_project e (Arr2 (s_inputs (e_net e)) X) = Ok H ->
  exists e', train e (Arr2 (s_inputs (e_net e)) X) (Arr2 (s_outputs (e_net e)) T) args kw = (e', Ok None).
Proof. exact train_loo_works. Qed.

(** ** C34: the best of the evaluated sizes *)
Theorem C34_validation : forall e X T Xv Tv args kw e1 H ws e' v, shuffles ->
  wf_net (e_net e) -> 0 < s_norm (e_net e) ->
  parse_args e args kw = (e1, Ok tt) -> smem "V" args = true ->
  kw_Xv kw = Some (Arr2 (s_inputs (e_net e)) Xv) -> kw_Tv kw = Some (Arr2 (s_outputs (e_net e)) Tv) ->
  (0 < e_batch e1)%Z -> X <> [] -> length X = length T -> wide (s_outputs (e_net e)) T -> weighting e1 T ws ->
  elm_project e (Arr2 (s_inputs (e_net e)) X) = Ok H ->
  train e (Arr2 (s_inputs (e_net e)) X) (Arr2 (s_outputs (e_net e)) T) args kw = (e', Ok v) ->
  v = None /\ exists Hv rank L full k, let N := nneurons (s_neurons (e_net e)) in let norm := s_norm (e_net e) in
    elm_project e (Arr2 (s_inputs (e_net e)) Xv) = Ok Hv /\ ranked e1 N (length Hv) rank L /\
    submodel_error e' norm (samples ws H T) Hv Tv (seq 0 N) full /\
    selects 1 L (fun i => submodel_error e' norm (samples ws H T) Hv Tv (firstn i rank)) full k /\
    fitted e e' (firstn k rank) H T /\ same_task (fill_wc e1 T) e'.
Proof. exact train_v_selects. Qed.

Theorem C34_loo : forall e X T args kw e1 H ws e' v, shuffles ->
  wf_net (e_net e) -> 0 < s_norm (e_net e) ->
  parse_args e args kw = (e1, Ok tt) -> smem "V" args = false -> smem "CV" args = false -> smem "LOO" args = true ->
  (0 < e_batch e1)%Z -> X <> [] -> length X = length T -> wide (s_outputs (e_net e)) T -> weighting e1 T ws ->
  elm_project e (Arr2 (s_inputs (e_net e)) X) = Ok H ->
  train e (Arr2 (s_inputs (e_net e)) X) (Arr2 (s_outputs (e_net e)) T) args kw = (e', Ok v) ->
  v = None /\ exists rank L full k, let N := nneurons (s_neurons (e_net e)) in let norm := s_norm (e_net e) in
    ranked e1 N (length H) rank L /\
    loo_value e' norm (samples ws H T) H T (seq 0 N) full /\
    selects 1 L (fun i => loo_value e' norm (samples ws H T) H T (firstn i rank)) full k /\
    fitted e e' (firstn k rank) H T /\ same_task (fill_wc e1 T) e'.
Proof. exact train_loo_selects. Qed.

Theorem C34_cv : forall e X T args kw k e1 H e' v, shuffles ->
  wf_net (e_net e) -> 0 < s_norm (e_net e) ->
  parse_args e args kw = (e1, Ok tt) -> smem "V" args = false -> smem "CV" args = true -> kw_k kw = Some k ->
  (forall ws w, kw_w kw = Some ws -> In w ws -> 0 <= w) ->
  length X = length T -> wide (s_outputs (e_net e)) T ->
  elm_project e (Arr2 (s_inputs (e_net e)) X) = Ok H ->
  train e (Arr2 (s_inputs (e_net e)) X) (Arr2 (s_outputs (e_net e)) T) args kw = (e', Ok v) ->
  exists split ranks L full n err_t, let N := nneurons (s_neurons (e_net e)) in let norm := s_norm (e_net e) in
    v = Some err_t /\ (3 <= k)%nat /\ k_fold (length H) k split /\
    length ranks = k /\ (forall i, (i < k)%nat -> ranked e1 N (length (val_part (split i))) (nth i ranks []) L) /\ (3 <= L)%nat /\
    cv_error e' norm H T k split val_part (fun _ => seq 0 N) full /\
    selects 3 L (fun n => cv_error e' norm H T k split val_part (fun i => firstn n (nth i ranks []))) full n /\
    cv_error e' norm H T k split test_part (fun _ => seq 0 N) err_t /\
    fitted e e' (firstn n (nth (k - 1) ranks [])) H T /\ same_task e1 e'.
Proof. exact train_cv_selects. Qed.

(** ** C35: small models; what remains true *)
Theorem C35_cv_works_partial : forall e X T args kw k e1 H, shuffles -> wf_net (e_net e) -> 0 < s_norm (e_net e) -> (0 < s_outputs (e_net e))%nat ->
  parse_args e args kw = (e1, Ok tt) -> smem "V" args = false -> smem "CV" args = true -> kw_k kw = Some k -> (3 <= k <= length X)%nat ->
  ErrThms.plain (e_class e1) -> simple_ranking e1 -> (3 <= ranked_size e1 (nneurons (s_neurons (e_net e))))%nat ->
  length X = length T -> wide (s_outputs (e_net e)) T ->
  elm_project e (Arr2 (s_inputs (e_net e)) X) = Ok H ->
  exists e' err_t, train e (Arr2 (s_inputs (e_net e)) X) (Arr2 (s_outputs (e_net e)) T) args kw = (e', Ok (Some err_t)).
Proof. exact train_cv_works. Qed.

Theorem C35_cv_small_fails : forall e X T args kw k e1 H, shuffles ->
  wf_net (e_net e) -> 0 < s_norm (e_net e) ->
  parse_args e args kw = (e1, Ok tt) -> smem "V" args = false -> smem "CV" args = true -> kw_k kw = Some k ->
  (forall ws w, kw_w kw = Some ws -> In w ws -> 0 <= w) ->
  length X = length T -> wide (s_outputs (e_net e)) T ->
  elm_project e (Arr2 (s_inputs (e_net e)) X) = Ok H ->
  (ranked_size e1 (nneurons (s_neurons (e_net e))) < 3)%nat ->
  exists e' x, train e (Arr2 (s_inputs (e_net e)) X) (Arr2 (s_outputs (e_net e)) T) args kw = (e', Err x).
Proof. exact train_cv_small. Qed.

(** ** C36: the folds *)
Theorem C36_folds : forall N k, (2 <= k)%nat -> k_fold N k (fold_parts N k).
Proof. exact fold_parts_k_fold. Qed.

(** ** C37: what 'CV' returns *)
Theorem C37_full_model_partial : forall e X T args kw k e1 H e' v, shuffles ->
  wf_net (e_net e) -> 0 < s_norm (e_net e) ->
  parse_args e args kw = (e1, Ok tt) -> smem "V" args = false -> smem "CV" args = true -> kw_k kw = Some k ->
  (forall ws w, kw_w kw = Some ws -> In w ws -> 0 <= w) ->
  length X = length T -> wide (s_outputs (e_net e)) T ->
  elm_project e (Arr2 (s_inputs (e_net e)) X) = Ok H ->
  train e (Arr2 (s_inputs (e_net e)) X) (Arr2 (s_outputs (e_net e)) T) args kw = (e', Ok v) ->
  exists split err_t, v = Some err_t /\ k_fold (length H) k split /\
    cv_error e' (s_norm (e_net e)) H T k split test_part (fun _ => seq 0 (nneurons (s_neurons (e_net e)))) err_t.
Proof. exact train_cv_returns. Qed.

(** ** C38: every size has its own error when all neurons are ranked *)
Theorem C38_all_ranked_partial : forall e X T Xv Tv args kw e1 H Hv ws e' v, shuffles ->
  wf_net (e_net e) -> 0 < s_norm (e_net e) ->
  parse_args e args kw = (e1, Ok tt) -> smem "V" args = true ->
  kw_Xv kw = Some (Arr2 (s_inputs (e_net e)) Xv) -> kw_Tv kw = Some (Arr2 (s_outputs (e_net e)) Tv) ->
  (0 < e_batch e1)%Z -> X <> [] -> length X = length T -> wide (s_outputs (e_net e)) T -> weighting e1 T ws ->
  elm_project e (Arr2 (s_inputs (e_net e)) X) = Ok H -> elm_project e (Arr2 (s_inputs (e_net e)) Xv) = Ok Hv ->
  all_ranked e1 (nneurons (s_neurons (e_net e))) (length Hv) ->
  train e (Arr2 (s_inputs (e_net e)) X) (Arr2 (s_outputs (e_net e)) T) args kw = (e', Ok v) ->
  exists rank full k, let N := nneurons (s_neurons (e_net e)) in let norm := s_norm (e_net e) in
    Permutation rank (seq 0 N) /\
    submodel_error e' norm (samples ws H T) Hv Tv (seq 0 N) full /\
    selects_all 1 N (fun i => submodel_error e' norm (samples ws H T) Hv Tv (firstn i rank)) full k /\
    fitted e e' (firstn k rank) H T.
Proof. exact train_v_full. Qed.

(** ** C39: the final model (no class weights) *)
Theorem C39_unweighted_partial : forall e X T args kw e1 H e' v, shuffles ->
  wf_net (e_net e) -> 0 < s_norm (e_net e) ->
  parse_args e args kw = (e1, Ok tt) -> is_wc e1 = false ->
  smem "V" args = true /\ (exists Xv Tv, kw_Xv kw = Some (Arr2 (s_inputs (e_net e)) Xv) /\ kw_Tv kw = Some (Arr2 (s_outputs (e_net e)) Tv)) \/
  smem "V" args = false /\ smem "CV" args = true /\ (exists k, kw_k kw = Some k) \/
  smem "V" args = false /\ smem "CV" args = false /\ smem "LOO" args = true ->
  (forall ws w, kw_w kw = Some ws -> In w ws -> 0 <= w) ->
  (0 < e_batch e1)%Z -> X <> [] -> length X = length T -> wide (s_outputs (e_net e)) T ->
  elm_project e (Arr2 (s_inputs (e_net e)) X) = Ok H ->
  train e (Arr2 (s_inputs (e_net e)) X) (Arr2 (s_outputs (e_net e)) T) args kw = (e', Ok v) ->
  exists ix, columns (nneurons (s_neurons (e_net e))) ix /\ fitted e e' ix H T.
Proof. exact train_fitted. Qed.

(** ** C40: leave-one-out *)
Theorem C40_loo_error : forall e n c norm (H T : list (list R)), e_class e = None -> s_outputs (e_net e) = c -> (0 < c)%nat -> 0 < norm ->
  Forall (fun h => length h = n) H -> wide c T -> length H = length T -> H <> [] ->
  exists w, loo_error e n H (spec_HH n norm (Spec.plain H T)) (spec_HT n c (Spec.plain H T)) T = Ok w /\ loo_mse n c norm H T w.
Proof. exact loo_error_true. Qed.

Theorem C40_train : forall e X T args kw e1 H e' v, shuffles ->
  wf_net (e_net e) -> 0 < s_norm (e_net e) -> (0 < s_outputs (e_net e))%nat ->
  parse_args e args kw = (e1, Ok tt) -> e_class e1 = None -> smem "V" args = false -> smem "CV" args = false -> smem "LOO" args = true ->
  (0 < e_batch e1)%Z -> X <> [] -> length X = length T -> wide (s_outputs (e_net e)) T ->
  elm_project e (Arr2 (s_inputs (e_net e)) X) = Ok H ->
  train e (Arr2 (s_inputs (e_net e)) X) (Arr2 (s_outputs (e_net e)) T) args kw = (e', Ok v) ->
  v = None /\ exists rank L full k, let N := nneurons (s_neurons (e_net e)) in
    let loo ix w := loo_mse (length ix) (s_outputs (e_net e)) (s_norm (e_net e)) (map (keep ix) H) T w in
    ranked e1 N (length H) rank L /\ loo (seq 0 N) full /\
    selects 1 L (fun i => loo (firstn i rank)) full k /\
    fitted e e' (firstn k rank) H T /\ same_task (fill_wc e1 T) e'.
Proof. exact train_loo_regression. Qed.
End Reals.

(** ** C41: the rankings *)
Theorem C41_mrsr_partial {K : Num} {SG : Sing} : forall X T m p kmax r, mrsr X T m p kmax = Ok r ->
  lists_columns m (Nat.max 1 (Nat.min kmax m)) r.
Proof. exact mrsr_lists. Qed.
Theorem C41_mrsr2_partial {K : Num} {SG : Sing} {BR : Brent} : forall X T m p kmax r, mrsr2 X T m p kmax = Ok r ->
  lists_columns m (Nat.min m (Nat.min kmax (length X))) r.
Proof. exact mrsr2_lists. Qed.
Theorem C41_mrsr2_total {SG : @Sing NumR} {BR : @Brent NumR} : forall X T m p kmax, 0 < m -> exists r, @mrsr2 NumR SG BR X T m p kmax = Ok r.
Proof. exact mrsr2_total. Qed.
Theorem C41_mrsr_single_fails {K : Num} {SG : Sing} : forall X T m p kmax, m < 2 -> exists x, mrsr X T m p kmax = Err x.
Proof. exact mrsr_single. Qed.

(** ** the hypotheses can be met: three neurons, two outputs, three samples, which also
    serve as validation set *)
Section Examples.
#[local] Existing Instance NumR.
#[local] Existing Instance no_shuffle.
Local Open Scope R_scope.

Example no_shuffle_shuffles : shuffles.
Proof. exact no_shuffle_ok. Qed.

Example select_hyps {SG : Sing} {BR : Brent} : forall args, In args [["V"]; ["V"; "c"]; ["CV"]; ["CV"; "ml"]; ["LOO"]; ["LOO"; "c"]]%string ->
  let e := demo None "" None in
  wf_net (e_net e) /\ 0 < s_norm (e_net e) /\ s_inputs (e_net e) = 2%nat /\ s_outputs (e_net e) = 2%nat /\
  length demo_X = 3%nat /\ length demo_T = 3%nat /\ wide 2 demo_T /\ (exists H, elm_project e (Arr2 2 demo_X) = Ok H) /\
  (exists e1, parse_args e args sel_kw = (e1, Ok tt) /\ ErrThms.plain (e_class e1) /\ is_wc e1 = false /\ weighting e1 demo_T (repeat 1 3) /\
     simple_ranking e1 /\ ranked_size e1 (nneurons (s_neurons (e_net e))) = 3%nat /\ (0 < e_batch e1)%Z /\ all_ranked e1 3 3) /\
  (exists e' v, train e (Arr2 2 demo_X) (Arr2 2 demo_T) args sel_kw = (e', Ok v)).
Proof. exact demo_selects. Qed.
End Examples.

Section Rationals.
#[local] Existing Instance NumQ.
#[local] Existing Instance no_shuffle.
Local Open Scope Q_scope.
Context {SG : @Sing NumQ} {BR : @Brent NumQ}.

Theorem C35_refuted : exists n X T, (1 <= n)%nat /\
  exists e', train (id_model n 1 "" None) (Arr2 n X) (Arr2 1 T) ["CV"%string] (kw_cv 3) = (e', Err IndexError) /\ True.
Proof. exact (ex_intro _ 2%nat (ex_intro _ _ (ex_intro _ _ (conj (le_S _ _ (le_n _)) (small_cv 2 (or_intror (or_introl eq_refl))))))). Qed.

(** three of four neurons are selected; the value returned is not the mean test error
    of the model with these three neurons *)
Theorem C37_refuted : exists e' err_t w1 w2 w3,
  cv_run = (e', Ok (Some err_t)) /\ elm_project e' (Arr2 4 c_X) = elm_project (id_model 3 1 "" None) (Arr2 3 c_X3) /\
  part_error [0; 3]%nat [2; 5]%nat = Ok (Fin w1) /\ part_error [1; 4]%nat [0; 3]%nat = Ok (Fin w2) /\ part_error [2; 5]%nat [1; 4]%nat = Ok (Fin w3) /\
  ~ err_t == (w1 + w2 + w3) / 3.
Proof. exact cv_other_model. Qed.

(** kmax = 2 selects two neurons although the first of them alone is better *)
Theorem C38_refuted : exists e2 e1,
  kmax_run 2 = (e2, Ok None) /\ kmax_run 1 = (e1, Ok None) /\ getL (e_net e2) = 2%nat /\ getL (e_net e1) = 1%nat /\
  val_error e2 k_Xv k_Tv = Ok (Fin (5 # 3)) /\ val_error e1 k_Xv k_Tv = Ok (Fin (2 # 3)).
Proof. exact kmax_worse. Qed.

(** one neuron; 'WC' with 'V' gives the unweighted solution *)
Theorem C39_refuted : exists e1 e2 e3,
  wc_run ["WC"; "V"]%string = (e1, Ok None) /\ wc_run ["WC"]%string = (e2, Ok None) /\ wc_run ["C"]%string = (e3, Ok None) /\
  s_neurons (e_net e1) = s_neurons (e_net e2) /\
  s_B (e_net e1) = Some [[4 # 15; 2 # 15]] /\ s_B (e_net e2) = Some [[4 # 27; 8 # 27]] /\ s_B (e_net e3) = s_B (e_net e1).
Proof. exact wc_ignored. Qed.

(** one neuron; zero targets; fewer samples than neurons *)
Theorem C41_refuted :
  mrsr [[1]; [2]] [[1]; [2]] 1 1 1 = Err ValueError /\ mrsr [[1; 0]; [2; 1]] [[0]; [0]] 2 1 2 = Err ValueError /\
  exists r, mrsr2 [[1; 0]] [[1]] 2 1 2 = Ok r /\ length r = 1%nat.
Proof. exact (conj (proj1 mrsr_fails) (conj (proj2 mrsr_fails) mrsr2_short)). Qed.

Example C41_hyps : exists r, mrsr [[1; 0]; [2; 1]; [0; 1]] [[1]; [3]; [1]] 2 1 2 = Ok r.
Proof. apply get_ok. vm_compute. reflexivity. Qed.
End Rationals.

Print Assumptions C33_terminates.
Print Assumptions C33_search.
Print Assumptions C33_validation_works.
Print Assumptions C33_loo_works.
Print Assumptions C34_validation.
Print Assumptions C34_loo.
Print Assumptions C34_cv.
Print Assumptions C35_cv_works_partial.
Print Assumptions C35_cv_small_fails.
Print Assumptions C36_folds.
Print Assumptions C37_full_model_partial.
Print Assumptions C38_all_ranked_partial.
Print Assumptions C39_unweighted_partial.
Print Assumptions C40_loo_error.
Print Assumptions C40_train.
Print Assumptions C41_mrsr_partial.
Print Assumptions C41_mrsr2_partial.
Print Assumptions C41_mrsr2_total.
Print Assumptions C41_mrsr_single_fails.
Print Assumptions C35_refuted.
Print Assumptions C37_refuted.
Print Assumptions C38_refuted.
Print Assumptions C39_refuted.
Print Assumptions C41_refuted.
