(** Training a loaded model again (C31). *)
From Coq Require Import Reals Lra.
From Verif Require Import Base Num Mat LinAlg Slfn Strs Elm Mrsr Search Mss MatFacts ElmFacts RLin Spec
  AccProofs TrainProofs RidgeProofs WfProofs TrainThms IncrThms SolveThms LoadThms.
Local Open Scope R_scope.
#[local] Existing Instance NumR.

Section LoadTrain.
Context {SG : @Sing NumR} {BR : @Brent NumR} {SH : Shuffle}.

Lemma ridge_same : forall L c norm ss B B', ridge_solution L c norm ss B -> ridge_solution L c norm ss B' -> B' = B.
Proof. intros L c norm ss B B' (_ & _ & H & _) (H1 & H2 & _). now apply H. Qed.

Theorem retrain_same : forall e e' X T H args kw e1,
  wf_net (e_net e) -> wf_net (e_net e') -> same_model e e' -> 0 < s_norm (e_net e) ->
  parse_args e args kw = (e1, Ok tt) -> is_wc e1 = false ->
  smem "V" args = false -> smem "CV" args = false -> smem "LOO" args = false ->
  (0 < e_batch e1)%Z -> (0 < match kw_batch kw with Some b => b | None => e_batch e' end)%Z ->
  X <> [] -> length X = length T -> wide (s_outputs (e_net e)) T ->
  elm_project e (Arr2 (s_inputs (e_net e)) X) = Ok H ->
  exists t t', train e (Arr2 (s_inputs (e_net e)) X) (Arr2 (s_outputs (e_net e)) T) args kw = (t, Ok None) /\
    train e' (Arr2 (s_inputs (e_net e)) X) (Arr2 (s_outputs (e_net e)) T) args kw = (t', Ok None) /\
    s_B (e_net t) <> None /\ s_B (e_net t') = s_B (e_net t).
Proof.
  intros e e' X T H args kw e1 W W' HS Hn HP Hw HV HCV HLOO Hb Hb' HX HL WT HPr.
  destruct (train_ridge e X T H args kw e1 W Hn HP Hw HV HCV HLOO Hb HX HL WT HPr) as (t & B & Et & EB & _ & RS).
  pose proof HS as (S1 & S2 & S3 & S4 & _).
  destruct (parse_same e e' args kw e1 S2 S3 HP) as (e1' & HP' & C1 & C2 & C3).
  rewrite <- S1, <- S2 in *. rewrite <- S4 in Hn. rewrite <- (same_project _ _ (Arr2 (s_inputs (e_net e')) X) HS) in HPr.
  destruct (train_ridge e' X T H args kw e1' W' Hn HP') as (t' & B' & Et' & EB' & _ & RS'); auto.
  { unfold is_wc in *. now rewrite C1. } { now rewrite C3. }
  exists t, t'. rewrite S3, S4 in RS'. split; [exact Et|]. split; [exact Et'|]. split; [rewrite EB; discriminate|].
  rewrite EB, EB'. f_equal. exact (ridge_same _ _ _ _ _ _ RS RS').
Qed.

Theorem retrain_same_weighted : forall e e' X T H args kw e1 ws ks,
  wf_net (e_net e) -> wf_net (e_net e') -> same_model e e' -> 0 < s_norm (e_net e) ->
  parse_args e args kw = (e1, Ok tt) -> is_wc e1 = true -> e_wc e1 = Some (map Fin ws) ->
  length ws = s_outputs (e_net e) -> (forall w, In w ws -> 0 <= w) ->
  smem "V" args = false -> smem "CV" args = false -> smem "LOO" args = false ->
  (0 < e_batch e1)%Z -> (0 < match kw_batch kw with Some b => b | None => e_batch e' end)%Z ->
  X <> [] -> length X = length T -> Forall2 (has_class (s_outputs (e_net e))) T ks ->
  elm_project e (Arr2 (s_inputs (e_net e)) X) = Ok H ->
  exists t t', train e (Arr2 (s_inputs (e_net e)) X) (Arr2 (s_outputs (e_net e)) T) args kw = (t, Ok None) /\
    train e' (Arr2 (s_inputs (e_net e)) X) (Arr2 (s_outputs (e_net e)) T) args kw = (t', Ok None) /\
    s_B (e_net t) <> None /\ s_B (e_net t') = s_B (e_net t).
Proof.
  intros e e' X T H args kw e1 ws ks W W' HS Hn HP Hw Ew Lw Pw HV HCV HLOO Hb Hb' HX HL WT HPr.
  destruct (train_ridge_weighted e X T H args kw e1 ws ks W Hn HP Hw Ew Lw Pw HV HCV HLOO Hb HX HL WT HPr) as (t & B & Et & EB & _ & RS).
  pose proof HS as (S1 & S2 & S3 & S4 & _).
  destruct (parse_same e e' args kw e1 S2 S3 HP) as (e1' & HP' & C1 & C2 & C3).
  rewrite <- S1, <- S2 in *. rewrite <- S4 in Hn. rewrite <- (same_project _ _ (Arr2 (s_inputs (e_net e')) X) HS) in HPr.
  destruct (train_ridge_weighted e' X T H args kw e1' ws ks W' Hn HP') as (t' & B' & Et' & EB' & _ & RS'); auto.
  { unfold is_wc in *. now rewrite C1. } { now rewrite C2. } { now rewrite C3. }
  exists t, t'. rewrite S3, S4 in RS'. split; [exact Et|]. split; [exact Et'|]. split; [rewrite EB; discriminate|].
  rewrite EB, EB'. f_equal. exact (ridge_same _ _ _ _ _ _ RS RS').
Qed.
End LoadTrain.
