(** C104: the order of the samples. *)
From Coq Require Import Reals QArith Lra Lia Permutation.
From Verif Require Import Base Num Mat LinAlg Slfn Strs Elm Mrsr Search Mss Demo ElmFacts WfProofs TrainThms MssThms SelThms SelectDemo Refute4 Perm2 PermDemo Spec.
Local Open Scope string_scope.
Local Open Scope list_scope.

Section Reals.
#[local] Existing Instance NumR.
Local Open Scope R_scope.

(** ** C104: training on reordered samples, with validation samples reordered or not, does exactly the same *)
Theorem C104_order {SG : Sing} {BR : Brent} {SH : Shuffle} : forall e X T X' T' H args kw kw' e1 ws,
  wf_net (e_net e) -> parse_args e args kw = (e1, Ok tt) -> smem "CV" args = false -> (0 < e_batch e1)%Z ->
  X <> [] -> length X = length T -> length X' = length T' -> Permutation (combine X T) (combine X' T') ->
  wide (s_outputs (e_net e)) T -> weighting e1 T ws -> elm_project e (Arr2 (s_inputs (e_net e)) X) = Ok H -> reordered kw kw' ->
  train e (Arr2 (s_inputs (e_net e)) X') (Arr2 (s_outputs (e_net e)) T') args kw' = train e (Arr2 (s_inputs (e_net e)) X) (Arr2 (s_outputs (e_net e)) T) args kw.
Proof. exact train_order. Qed.
Example C104_hyps {SG : Sing} {BR : Brent} : let SH := no_shuffle in forall args, In args [["V"]; ["V"; "c"]; ["LOO"]; ["LOO"; "c"]] ->
  let e := demo None "" None in let X := @demo_X NumR in let T := @demo_T NumR in
  wf_net (e_net e) /\ s_inputs (e_net e) = 2%nat /\ s_outputs (e_net e) = 2%nat /\ X <> [] /\ length X = length T /\ Permutation (combine X T) (combine (rev X) (rev T)) /\ wide 2 T /\
  smem "CV" args = false /\ (exists H, elm_project e (Arr2 2 X) = Ok H) /\ reordered sel_kw rev_kw /\
  (exists e1, parse_args e args sel_kw = (e1, Ok tt) /\ (0 < e_batch e1)%Z /\ weighting e1 T (repeat 1 3)) /\
  exists e' v, train e (Arr2 2 X) (Arr2 2 T) args sel_kw = (e', Ok v).
Proof. exact order_case. Qed.

(** with 'CV': if each sample moves by a multiple of k *)
Theorem C104_cv {SG : Sing} {BR : Brent} {SH : Shuffle} : forall e X T args kw k e1 ix,
  parse_args e args kw = (e1, Ok tt) -> smem "V" args = false -> smem "CV" args = true -> kw_k kw = Some k ->
  length X = length T -> wide (s_outputs (e_net e)) T -> Permutation ix (seq 0 (length X)) ->
  (forall j, (j < length X)%nat -> (nth j ix 0 mod k)%nat = (j mod k)%nat) ->
  train e (Arr2 (s_inputs (e_net e)) (map (fun i => nth i X []) ix)) (Arr2 (s_outputs (e_net e)) (map (fun i => nth i T []) ix)) args kw =
  train e (Arr2 (s_inputs (e_net e)) X) (Arr2 (s_outputs (e_net e)) T) args kw.
Proof. exact train_order_cv. Qed.
Example C104_cv_hyps : Permutation [3; 1; 5; 0; 4; 2]%nat (seq 0 6) /\ forall j, (j < 6)%nat -> (nth j [3; 1; 5; 0; 4; 2] 0 mod 3)%nat = (j mod 3)%nat.
Proof. exact cv_index. Qed.

(** the rankings *)
Theorem C104_ranking {SG : Sing} {BR : Brent} : forall (H T H' T' : list (list R)) m p kmax, length H = length T -> length H' = length T' ->
  Permutation (combine H T) (combine H' T') -> mrsr H' T' m p kmax = mrsr H T m p kmax /\ mrsr2 H' T' m p kmax = mrsr2 H T m p kmax.
Proof. exact ranking_order. Qed.
End Reals.

(** six samples in three parts: exchanged inside the parts nothing changes; exchanged across the parts another error is returned *)
Theorem C104_cv_across {SG : @Sing NumQ} {BR : @Brent NumQ} : exists a b, snd (cv_order [0; 1; 2; 3; 4; 5]%nat) = Ok (Some a) /\ snd (cv_order [3; 1; 5; 0; 4; 2]%nat) = Ok (Some a) /\
  snd (cv_order [1; 0; 2; 3; 4; 5]%nat) = Ok (Some b) /\ ~ (a == b)%Q.
Proof. exact cv_parts. Qed.

Print Assumptions C104_order.
Print Assumptions C104_cv.
Print Assumptions C104_ranking.
Print Assumptions C104_cv_across.
