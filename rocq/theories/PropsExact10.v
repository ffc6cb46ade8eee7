(** C100: the path of MRSR; C41: when it succeeds; C33: train with its ranking; C85: validation_corr with named files. *)
From Coq Require Import Reals QArith Lra Lia.
From Verif Require Import Base Num Mat LinAlg Slfn Strs Elm Mrsr Search Mss Hpelm Files FilesThms FilesUse MatFacts ElmFacts WfProofs SolveThms ErrThms MssThms SubThms WorksThms Demo Refute4 SelectDemo Refute10 Refute11 MrsrSpec MrsrPath OpWorks Exact11 OpDemo Spec.
Local Open Scope string_scope.
Local Open Scope list_scope.

Section Reals.
#[local] Existing Instance NumR.
Local Open Scope R_scope.
Context {SG : Sing} {BR : Brent} {SH : Shuffle}.

(** ** C100: a ranking is a path of equal correlations, followed by the neuron most correlated with
    the last residual *)
Theorem C100_path : forall n m p (H T : list (list R)), is_mat n m H -> is_mat n p T -> independent n m H ->
  forall kmax r, mrsr H T m p kmax = Ok r ->
  exists ks Y j, r = ks ++ [j] /\ mrsr_path n m p H T ks Y /\ strongest n m p H T Y ks j.
Proof. exact mrsr_on_path. Qed.

(** ** C41: mrsr fails only if a residual on the path is orthogonal to all neurons *)
Theorem C41_mrsr_outcome : forall n m p (H T : list (list R)), is_mat n m H -> is_mat n p T -> independent n m H ->
  forall kmax, (2 <= m)%nat ->
  (exists r, mrsr H T m p kmax = Ok r) \/
  (mrsr H T m p kmax = Err ValueError /\ exists ks Y, mrsr_path n m p H T ks Y /\ (ks = [] \/ (S (length ks) < Nat.min kmax m)%nat) /\
     forall i, (i < m)%nat -> residual_strength n p H T Y i = 0).
Proof. exact mrsr_outcome. Qed.
Theorem C41_mrsr_orthogonal : forall n m p (H T : list (list R)), is_mat n m H -> is_mat n p T -> independent n m H ->
  forall kmax, (2 <= m)%nat -> (forall i, (i < m)%nat -> residual_strength n p H T (fun _ _ => 0) i = 0) ->
  mrsr H T m p kmax = Err ValueError.
Proof. exact mrsr_orthogonal. Qed.
Theorem C41_mrsr_succeeds : forall n m p (H T : list (list R)) k, is_mat n m H -> is_mat n p T -> rankable n m p H T k ->
  exists r, mrsr H T m p k = Ok r.
Proof. exact mrsr_rankable. Qed.
Example C100_hyps : is_mat 2 2 op_H /\ is_mat 2 1 op_T /\ independent 2 2 op_H /\ rankable 2 2 1 op_H op_T 2 /\
  (exists r, mrsr op_H op_T 2 1 2 = Ok r) /\
  (forall i, (i < 2)%nat -> residual_strength 2 1 op_H [[0]; [0]] (fun _ _ => 0) i = 0).
Proof. exact op_data. Qed.

(** ** C33: selection with the ranking of mrsr *)
Theorem C33_validation_op : forall e X T Xv Tv args kw e1 H Hv, shuffles -> wf_net (e_net e) -> 0 < s_norm (e_net e) -> (0 < s_outputs (e_net e) < 10)%nat ->
  parse_args e args kw = (e1, Ok tt) -> smem "V" args = true ->
  kw_Xv kw = Some (Arr2 (s_inputs (e_net e)) Xv) -> kw_Tv kw = Some (Arr2 (s_outputs (e_net e)) Tv) ->
  ErrThms.plain (e_class e1) -> e_op e1 = true -> (0 < ranked_size e1 (nneurons (s_neurons (e_net e))))%nat ->
  (0 < e_batch e1)%Z -> X <> [] -> length X = length T -> wide (s_outputs (e_net e)) T ->
  Tv <> [] -> length Xv = length Tv -> wide (s_outputs (e_net e)) Tv ->
  elm_project e (Arr2 (s_inputs (e_net e)) X) = Ok H -> elm_project e (Arr2 (s_inputs (e_net e)) Xv) = Ok Hv ->
  rankable (length Xv) (nneurons (s_neurons (e_net e))) (s_outputs (e_net e)) Hv Tv (ranked_size e1 (nneurons (s_neurons (e_net e)))) ->
  exists e', train e (Arr2 (s_inputs (e_net e)) X) (Arr2 (s_outputs (e_net e)) T) args kw = (e', Ok None).
Proof. exact train_v_rankable. Qed.
Theorem C33_loo_op : forall e X T args kw e1 H, shuffles -> wf_net (e_net e) -> 0 < s_norm (e_net e) -> (0 < s_outputs (e_net e) < 10)%nat ->
  parse_args e args kw = (e1, Ok tt) -> smem "V" args = false -> smem "CV" args = false -> smem "LOO" args = true ->
  ErrThms.plain (e_class e1) -> e_op e1 = true -> (0 < ranked_size e1 (nneurons (s_neurons (e_net e))))%nat ->
  (0 < e_batch e1)%Z -> X <> [] -> length X = length T -> wide (s_outputs (e_net e)) T ->
  elm_project e (Arr2 (s_inputs (e_net e)) X) = Ok H ->
  rankable (length X) (nneurons (s_neurons (e_net e))) (s_outputs (e_net e)) H T (ranked_size e1 (nneurons (s_neurons (e_net e)))) ->
  exists e', train e (Arr2 (s_inputs (e_net e)) X) (Arr2 (s_outputs (e_net e)) T) args kw = (e', Ok None).
Proof. exact train_loo_rankable. Qed.
Example C33_op_hyps : let e := op_model in wf_net (e_net e) /\ 0 < s_norm (e_net e) /\ s_outputs (e_net e) = 1%nat /\ nneurons (s_neurons (e_net e)) = 2%nat /\
  elm_project e (Arr2 2 op_H) = Ok op_H /\
  (exists e1, parse_args e ["LOO"; "OP"] no_kw = (e1, Ok tt) /\ ErrThms.plain (e_class e1) /\ e_op e1 = true /\ ranked_size e1 2 = 2%nat /\ (0 < e_batch e1)%Z) /\
  (exists e1, parse_args e ["V"; "OP"] op_kw = (e1, Ok tt) /\ ErrThms.plain (e_class e1) /\ e_op e1 = true /\ ranked_size e1 2 = 2%nat /\ (0 < e_batch e1)%Z) /\
  kw_Xv op_kw = Some (Arr2 2 op_H) /\ kw_Tv op_kw = Some (Arr2 1 op_T) /\ wide 1 op_T /\ length op_H = length op_T.
Proof. exact op_model_ok. Qed.
End Reals.

(** ** C85: with names, validation_corr does what it does with the contents of the files *)
Theorem C85_validation_partial {K : Num} {SG : Sing} : forall e p a b Xv Tv Ls e1 p1 r, p_left p = [] -> f_validation e p a b Xv Tv Ls = (e1, p1, r) ->
  validation_corr e (mkFs (p_store p a) (p_store p b)) (src_of p Xv) (src_of p Tv) Ls = (e1, r) /\ (forall n, p_store p1 n = p_store p n).
Proof. exact validation_named. Qed.
Section Rationals.
#[local] Existing Instance NumQ.
(** the matrices of two files are stored in two more, then used with the same files as validation data *)
Example C85_validation_hyps {SG : @Sing NumQ} : p_left two_files = [] /\
  let '(e, p, r) := f_add_data one_lin two_files cx ct 0 None (Some ("h.h5", "g.h5")) in
  r = Ok tt /\ p_left p = [] /\ is_ok (snd (f_validation e p "h.h5" "g.h5" cx ct [1%nat])) = true.
Proof. split; [reflexivity|]. vm_compute. auto. Qed.
End Rationals.
Print Assumptions C100_path.
Print Assumptions C41_mrsr_outcome.
Print Assumptions C41_mrsr_orthogonal.
Print Assumptions C41_mrsr_succeeds.
Print Assumptions C33_validation_op.
Print Assumptions C33_loo_op.
Print Assumptions C85_validation_partial.
