(** A weighted training call (for the examples of C62, C83, C98; reals). *)
From Coq Require Import Reals Lra Lia.
From Verif Require Import Base Num Mat LinAlg Slfn Strs Elm Mrsr Search Mss Hpelm ElmFacts WfProofs TrainThms SolveThms ArgThms RegMore RegMore2 Demo MoreDemo Exact8 Exact9 Spec.
Local Open Scope string_scope.
Local Open Scope list_scope.
Local Open Scope R_scope.
#[local] Existing Instance NumR.

Lemma wcall_trains {SG : Sing} {BR : Brent} {SH : Shuffle} : forall norm a b X T ks, 0 < norm -> 0 <= a -> 0 <= b ->
  X <> [] -> length X = length T -> wide 2 X -> Forall2 (has_class 2) T ks ->
  exists e', call_trained (demo_p 2 norm) X T (map (fun k => nth k [a; b] 0) ks) e' /\
    (exists B, s_B (e_net e') = Some B) /\ exists Y, elm_predict e' (Arr2 2 X) = Ok Y.
Proof.
  intros norm a b X T ks Hn Ha Hb HX HL WX HC. set (e := demo_p 2 norm). set (kw := @mkKw NumR (Some [a; b]) None None None None None).
  assert (wf_net (e_net e)) as HW by apply demo_p_wf.
  assert (valid_args e ["WC"] kw) as HV.
  { apply parse_iff. match goal with |- exists a, ?p = _ => destruct (run_ok p tt (fun _ => True) eq_refl I) as (z & E & _); exists z; exact E end. }
  assert (exists H, elm_project e (Arr2 (s_inputs (e_net e)) X) = Ok H) as [H HPr] by (apply demo_p_proj; exact WX).
  assert (call_weights (s_outputs (e_net e)) ["WC"] kw T (map (fun k => nth k [a; b] 0) ks)) as CW.
  { apply CW_given; [exists "WC"; split; [left|]; reflexivity|intros (z & [<-|[]] & E); discriminate|reflexivity|intros w [<-|[<-|[]]]; assumption|exact HC]. }
  assert (forall s, s <> "WC" -> ~ In s ["WC"]) as NI by (intros s Hs [E|[]]; congruence).
  destruct (train_call e X T H ["WC"] kw (map (fun k => nth k [a; b] 0) ks) HW Hn HV (NI "V" ltac:(discriminate)) (NI "CV" ltac:(discriminate)) (NI "LOO" ltac:(discriminate)) eq_refl HX HL CW HPr)
    as (e' & B & E & EB & _).
  assert (call_trained e X T (map (fun k => nth k [a; b] 0) ks) e') as C.
  { split; [exact HW|exact Hn|split; assumption|exists H; exact HPr|].
    exists ["WC"], kw. do 4 (split; [first [exact HV|apply NI; discriminate]|]). split; [reflexivity|]. split; [exact CW|exact E]. }
  exists e'. split; [exact C|]. split; [exists B; exact EB|]. destruct (call_inv _ _ _ _ _ C) as (B2 & _ & _ & _ & _ & _ & _ & P). eexists. exact P.
Qed.
