(** C99: what 'LOO' minimises; C96: 'LOO' with class weights; C16: given arrays of HPELM.project; C47: errors that are not numbers. *)
From Coq Require Import Reals QArith Lra Lia.
From Verif Require Import Base Num Mat LinAlg Slfn Strs Elm Mrsr Search Mss Hpelm ElmFacts WfProofs SolveThms ErrThms MssThms SubThms SelThms WorksThms RangeThms Demo Refute4 SelectDemo Exact7 LooThms LooSpec LooMore Exact10 Spec.
Local Open Scope string_scope.
Local Open Scope list_scope.

Section Reals.
#[local] Existing Instance NumR.
Local Open Scope R_scope.
Context {SG : Sing} {BR : Brent} {SH : Shuffle}.

(** ** C99: the sizes are compared by the errors of the model of all samples, each divided by (1 - leverage)^2;
    for regression, 'c', 'ml', and for 'wc' if no sample has a weight below 1 *)
Theorem C99_selection : forall e X T args kw e1 H ws wcs e' v, shuffles ->
  wf_net (e_net e) -> 0 < s_norm (e_net e) -> (0 < s_outputs (e_net e))%nat ->
  parse_args e args kw = (e1, Ok tt) -> smem "V" args = false -> smem "CV" args = false -> smem "LOO" args = true ->
  (0 < e_batch e1)%Z -> X <> [] -> length X = length T -> wide (s_outputs (e_net e)) T ->
  weighting e1 T ws -> loo_task (fill_wc e1 T) wcs -> Forall (fun w => 1 <= w) ws ->
  elm_project e (Arr2 (s_inputs (e_net e)) X) = Ok H ->
  train e (Arr2 (s_inputs (e_net e)) X) (Arr2 (s_outputs (e_net e)) T) args kw = (e', Ok v) ->
  v = None /\ exists rank L full k, let N := nneurons (s_neurons (e_net e)) in
    let value ix w := loo_measure (e_class e1) wcs (length ix) (s_outputs (e_net e)) (s_norm (e_net e)) (samples ws (map (keep ix) H) T) (map (keep ix) H) T w in
    ranked e1 N (length H) rank L /\ value (seq 0 N) full /\
    selects 1 L (fun i => value (firstn i rank)) full k /\ fitted e e' (firstn k rank) H T.
Proof. exact train_loo_measured. Qed.

(** that value is at least the error on the training samples, and 0 exactly if there is no error on them *)
Theorem C99_training_error : forall cls wcs n c norm ss H T w B, ErrThms.plain cls -> length H = length T -> T <> [] ->
  loo_measure cls wcs n c norm ss H T w -> ridge_solution n c norm ss B ->
  let Y := outputs_of c B H in
  mean (map (fun i => sample_err cls c (nth i T []) (nth i Y [])) (seq 0 (length T))) <= w /\
  (w = 0 <-> forall i, (i < length T)%nat -> sample_err cls c (nth i T []) (nth i Y []) = 0).
Proof. exact measure_bounds. Qed.

(** ** C99 refuted: the value is 0, the leave-one-out misclassification rate is 1/2 *)
Theorem C99_refuted : shuffles -> exists e', train loo_model (Arr2 1 loo_H) (Arr2 2 loo_T) ["LOO"; "C"] no_kw = (e', Ok None) /\
  elm_project loo_model (Arr2 1 loo_H) = Ok loo_H /\ e_class e' = Some "c" /\
  loo_value e' 1 (Spec.plain loo_H loo_T) loo_H loo_T [0%nat] 0 /\
  loo_rate (Some "c") 1 2 1 loo_H loo_T (1/2).
Proof. exact loo_not_rate. Qed.

(** ** C96: 'LOO' with automatic weights works exactly if every class has a training sample *)
Theorem C96_loo_auto_partial : forall e X T args kw e1 H ks, shuffles -> wf_net (e_net e) -> 0 < s_norm (e_net e) ->
  parse_args e args kw = (e1, Ok tt) -> smem "V" args = false -> smem "CV" args = false -> smem "LOO" args = true ->
  e_class e1 = Some "wc" -> e_wc e1 = None -> Forall2 (has_class (s_outputs (e_net e))) T ks ->
  simple_ranking e1 -> (0 < ranked_size e1 (nneurons (s_neurons (e_net e))))%nat ->
  (0 < e_batch e1)%Z -> X <> [] -> length X = length T -> wide (s_outputs (e_net e)) T ->
  elm_project e (Arr2 (s_inputs (e_net e)) X) = Ok H ->
  ((exists e', train e (Arr2 (s_inputs (e_net e)) X) (Arr2 (s_outputs (e_net e)) T) args kw = (e', Ok None)) <->
   forall k, (k < s_outputs (e_net e))%nat -> In k ks).
Proof. exact train_loo_auto. Qed.

(** with given weights it works if none is below 1 (C96_refuted: with the weights 1/4, 1/4 it may raise) *)
Theorem C96_loo_given_partial : forall e X T args kw e1 H ws ks, shuffles -> wf_net (e_net e) -> 0 < s_norm (e_net e) ->
  parse_args e args kw = (e1, Ok tt) -> smem "V" args = false -> smem "CV" args = false -> smem "LOO" args = true ->
  e_class e1 = Some "wc" -> e_wc e1 = Some (map Fin ws) -> length ws = s_outputs (e_net e) -> (forall w, In w ws -> 1 <= w) ->
  Forall2 (has_class (s_outputs (e_net e))) T ks ->
  simple_ranking e1 -> (0 < ranked_size e1 (nneurons (s_neurons (e_net e))))%nat ->
  (0 < e_batch e1)%Z -> X <> [] -> length X = length T -> wide (s_outputs (e_net e)) T ->
  elm_project e (Arr2 (s_inputs (e_net e)) X) = Ok H ->
  exists e', train e (Arr2 (s_inputs (e_net e)) X) (Arr2 (s_outputs (e_net e)) T) args kw = (e', Ok None).
Proof. exact train_loo_given. Qed.
End Reals.

Section Any.
Context {K : Num} {SG : Sing}.
(** ** C16: from the first sample into a given array: its first rows are replaced, the others kept *)
Theorem C16_into : forall e d c X H M icount,
  (0 < e_batch e)%Z -> holds_data d c X -> elm_project e (Arr2 c X) = Ok H -> (length (range_of H 0 icount) <= length M)%nat ->
  hp_project e d (DArr (Arr2 (getL (e_net e)) M)) 0 (zcount icount) = Ok (range_of H 0 icount ++ skipn (length (range_of H 0 icount)) M).
Proof. exact hp_project_into. Qed.
(** an array with another number of columns than neurons, or with too few rows, is refused *)
Theorem C16_refused : forall e d c X H w M istart icount,
  (0 < e_batch e)%Z -> holds_data d c X -> elm_project e (Arr2 c X) = Ok H -> (istart <= length X)%nat ->
  w <> getL (e_net e) \/ (length M < length (range_of H istart icount))%nat ->
  hp_project e d (DArr (Arr2 w M)) (Z.of_nat istart) (zcount icount) = Err AssertionError.
Proof. exact hp_project_small. Qed.

(** ** C47: if errors are NaN, the first candidate with a NaN error is installed *)
Theorem C47_nan : forall e fs fX fT Ls e' Ls' errs confs,
  validation_corr e fs fX fT Ls = (e', Ok (Ls', errs, confs)) -> In XNaN errs ->
  exists k l confs', nth_error Ls k = Some l /\ nth_error errs k = Some XNaN /\ (forall j, (j < k)%nat -> nth_error errs j <> Some XNaN) /\
    validation_corr e fs fX fT [l] = (e', Ok ([l], [XNaN], confs')).
Proof. exact validation_nan. Qed.
End Any.

Section Examples.
#[local] Existing Instance NumR.
#[local] Existing Instance no_shuffle.
Local Open Scope R_scope.
Let e := @demo NumR None "" None.
Let kw (w : option (list R)) : @kwargs NumR := mkKw w None None None None None.
Lemma demo_classes : Forall2 (has_class 2) (@demo_T NumR) [0; 1; 0]%nat.
Proof. repeat constructor; unfold entry; cbn; try lia; intros [|[|j]] Hj; cbn; try lia; reflexivity. Qed.

(** given weights 1 and 4; automatic weights *)
Example C96_loo_hyps {SG : Sing} {BR : Brent} : forall w, In w [Some [1; 4]; None] ->
  shuffles /\ wf_net (e_net e) /\ 0 < s_norm (e_net e) /\ (exists H, elm_project e (Arr2 2 demo_X) = Ok H) /\ wide 2 (@demo_T NumR) /\
  Forall2 (has_class 2) (@demo_T NumR) [0; 1; 0]%nat /\ (forall k, (k < 2)%nat -> In k [0; 1; 0]%nat) /\ (forall w, In w [1; 4] -> 1 <= w) /\
  exists e1, parse_args e ["WC"; "LOO"] (kw w) = (e1, Ok tt) /\ e_class e1 = Some "wc" /\ e_wc e1 = option_map (map (@Fin NumR)) w /\
    simple_ranking e1 /\ ranked_size e1 (nneurons (s_neurons (e_net e))) = 3%nat /\ (0 < e_batch e1)%Z.
Proof.
  intros w Hw. destruct (demo_selects ["CV"] ltac:(cbn; auto)) as (A1 & A2 & _ & _ & A5 & A6 & A7 & A8 & _).
  split; [exact no_shuffle_ok|]. split; [exact A1|]. split; [exact A2|]. split; [exact A8|]. split; [exact A7|]. split; [exact demo_classes|].
  split; [intros [|[|k]] Hk; cbn; auto; lia|]. split; [intros x [<-|[<-|[]]]; lra|].
  destruct Hw as [<-|[<-|[]]]; (apply run_ok; [reflexivity|]);
   (split; [reflexivity|]); (split; [reflexivity|]); (split; [left; reflexivity|]); (split; reflexivity).
Qed.
(** C99_selection with classes, with labels, with given weights *)
Example C99_selection_hyps {SG : Sing} {BR : Brent} : forall args w ws wcs,
  In (args, w, ws, wcs) [(["LOO"; "c"], None, [1; 1; 1], []); (["LOO"; "ml"], None, [1; 1; 1], []); (["LOO"; "wc"], Some [1; 4], [1; 4; 1], [1; 4])] ->
  exists e1 e', parse_args e args (kw w) = (e1, Ok tt) /\ weighting e1 (@demo_T NumR) ws /\ loo_task (fill_wc e1 demo_T) wcs /\ Forall (fun a => 1 <= a) ws /\
    train e (Arr2 2 demo_X) (Arr2 2 demo_T) args (kw w) = (e', Ok None).
Proof.
  intros args w ws wcs Hin. destruct (demo_selects ["CV"] ltac:(cbn; auto)) as (A1 & A2 & _ & _ & A5 & A6 & A7 & (H & A8) & _).
  assert (exists e1, parse_args e args (kw w) = (e1, Ok tt) /\ (weighting e1 (@demo_T NumR) ws /\ loo_task (fill_wc e1 demo_T) wcs /\ Forall (fun a => 1 <= a) ws /\ e_op e1 = false /\ ranked_size e1 3 = 3%nat /\ (0 < e_batch e1)%Z)) as (e1 & E1 & W & Tk & Ge & Op & Rk & Bt).
  { destruct Hin as [E|[E|[E|[]]]]; injection E as <- <- <- <-; (apply run_ok; [reflexivity|]).
    - split; [apply (W_plain _ (@demo_T NumR)); reflexivity|]. split; [left; right; left; reflexivity|]. split; [repeat constructor; lra|]. repeat split.
    - split; [apply (W_plain _ (@demo_T NumR)); reflexivity|]. split; [left; right; right; reflexivity|]. split; [repeat constructor; lra|]. repeat split.
    - split; [apply (W_given _ (@demo_T NumR) [1; 4] [0; 1; 0]%nat); try reflexivity; [intros x [<-|[<-|[]]]; lra|exact demo_classes]|].
      split; [right; repeat split|]. split; [repeat constructor; lra|]. repeat split. }
  assert (smem "V" args = false /\ smem "CV" args = false /\ smem "LOO" args = true) as (S1 & S2 & S3) by (destruct Hin as [E|[E|[E|[]]]]; injection E as <- <- <- <-; repeat split).
  destruct (train_loo_heavy e demo_X (@demo_T NumR) args (kw w) e1 H ws wcs no_shuffle_ok A1 A2 (le_S 1 1 (le_n 1)) E1 S1 S2 S3 W Tk Ge) as (e' & E); auto.
  - left. exact Op.
  - change (nneurons (s_neurons (e_net e))) with 3%nat. rewrite Rk. lia.
  - discriminate.
  - exists e1, e'. auto.
Qed.
(** C99_training_error and C99_refuted *)
Example C99_training_error_hyps {SG : Sing} : exists w B,
  loo_measure (Some "c") [] 1 2 1 (Spec.plain loo_H loo_T) loo_H loo_T w /\ ridge_solution 1 2 1 (Spec.plain loo_H loo_T) B.
Proof.
  destruct loo_witness as [HB _]. destruct (loo_exact (with_class (@loo_model) (Some "c")) 1 1 (Spec.plain loo_H loo_T) [] loo_H loo_T) as (w & _ & Hm).
  - left. right. left. reflexivity.
  - exact (Nat.lt_0_succ 1).
  - lra.
  - apply good_plain. repeat constructor.
  - intros i Hi. exists 1, (nth i loo_T []). split; [|lra]. destruct i as [|[|i]]; cbn in *; auto. lia.
  - repeat constructor.
  - repeat constructor.
  - reflexivity.
  - discriminate.
  - exists w, [[0; 1/2]]. split; [exact Hm|exact HB].
Qed.
Example C99_refuted_hyps : shuffles.
Proof. exact no_shuffle_ok. Qed.
End Examples.

Example C16_into_hyps {K : Num} {SG : Sing} : let e := demo None "" None in
  (0 < e_batch e)%Z /\ holds_data (SFile (Some (2%nat, demo_X))) 2 demo_X /\ getL (e_net e) = 3%nat /\ length (@demo_X K) = 3%nat /\
  exists H, elm_project e (Arr2 2 demo_X) = Ok H /\ length (range_of H 0 (Some 2%nat)) = 2%nat /\ length (range_of H 1 None) = 2%nat.
Proof.
  cbv zeta. split; [reflexivity|]. split; [right; reflexivity|]. split; [reflexivity|]. split; [reflexivity|]. eexists. split; [reflexivity|]. split; reflexivity.
Qed.

Section Rationals.
#[local] Existing Instance NumQ.
Local Open Scope Q_scope.
Context {SG : @Sing NumQ}.
Definition nan_model : elm := lin_model 1 2 "wc" (Some [1; -1]) 2 None 1 2 [[1; 1]] [0; 1].
Definition nan_run (Ls : list nat) := validation_corr nan_model (mkFs (Some (2%nat, [[1; 0]; [0; 1]])) (Some (2%nat, [[0; 0]; [1; -1]])))
  (SArr (Arr2 1 [[3]; [-5]])) (SArr (Arr2 2 [[1; 0]; [0; 1]])) Ls.
(** weights that sum to 0: errors -inf and NaN; the second candidate is installed *)
Example C47_nan_hyps : exists e' Ls' confs, nan_run [1; 2]%nat = (e', Ok (Ls', [NInf; XNaN], confs)) /\ s_L (e_net e') = Some 2%nat.
Proof.
  destruct (nan_run [1; 2]%nat) as [e' r] eqn:E. vm_compute in E. injection E as <- <-. eexists _, _, _. split; reflexivity.
Qed.
End Rationals.

Print Assumptions C99_selection.
Print Assumptions C99_training_error.
Print Assumptions C99_refuted.
Print Assumptions C96_loo_auto_partial.
Print Assumptions C96_loo_given_partial.
Print Assumptions C16_into.
Print Assumptions C16_refused.
Print Assumptions C47_nan.
