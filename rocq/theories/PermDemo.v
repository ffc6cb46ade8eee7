(** Cases for C104. *)
From Coq Require Import Reals QArith Lra Permutation.
From Verif Require Import Base Num Mat LinAlg Slfn Strs Elm Mrsr Search Mss MatFacts Demo ElmFacts WfProofs ErrThms TrainThms MssThms SelThms SelectDemo Refute4 Refute7 Perm Perm2 Spec.
Local Open Scope string_scope.
Local Open Scope list_scope.

Section Reals.
#[local] Existing Instance NumR.
#[local] Existing Instance no_shuffle.
Local Open Scope R_scope.
(** three samples in reverse order, validation samples rotated *)
Definition rev_kw : @kwargs NumR := mkKw None None None (Some 3%nat) (Some (Arr2 2 (skipn 1 demo_X ++ firstn 1 demo_X))) (Some (Arr2 2 (skipn 1 demo_T ++ firstn 1 demo_T))).
Lemma order_case {SG : @Sing NumR} {BR : @Brent NumR} : forall args, In args [["V"]; ["V"; "c"]; ["LOO"]; ["LOO"; "c"]] ->
  let e := demo None "" None in let X := @demo_X NumR in let T := @demo_T NumR in
  wf_net (e_net e) /\ s_inputs (e_net e) = 2%nat /\ s_outputs (e_net e) = 2%nat /\ X <> [] /\ length X = length T /\ Permutation (combine X T) (combine (rev X) (rev T)) /\ wide 2 T /\
  smem "CV" args = false /\ (exists H, elm_project e (Arr2 2 X) = Ok H) /\ reordered sel_kw rev_kw /\
  (exists e1, parse_args e args sel_kw = (e1, Ok tt) /\ (0 < e_batch e1)%Z /\ weighting e1 T (repeat 1 3)) /\
  exists e' v, train e (Arr2 2 X) (Arr2 2 T) args sel_kw = (e', Ok v).
Proof.
  intros args HA e X T. destruct (demo_selects args) as (A1 & A2 & A3 & A4 & A5 & A6 & A7 & A8 & (e1 & B1 & B2 & B3 & B4 & B5 & B6 & B7 & _) & A9); [cbn in *; intuition|].
  split; [exact A1|]. split; [reflexivity|]. split; [reflexivity|]. split; [discriminate|]. split; [reflexivity|]. split; [|split; [exact A7|]].
  - unfold X, T, demo_X, demo_T. cbn [rev app combine]. apply (Permutation_rev [(_, _); (_, _); (_, _)]).
  - split; [cbn in HA; destruct HA as [<-|[<-|[<-|[<-|[]]]]]; reflexivity|]. split; [exact A8|]. split.
    + constructor; [reflexivity|reflexivity|]. unfold demo_X, demo_T. cbn [skipn firstn app combine]. apply (Permutation_app_comm [_] [_; _]).
    + split; [|exact A9]. exists e1. auto.
Qed.
End Reals.

Section Rationals.
#[local] Existing Instance NumQ.
#[local] Existing Instance no_shuffle.
Local Open Scope Q_scope.
Definition cv_order (ix : list nat) {SG : @Sing NumQ} {BR : @Brent NumQ} := train (id_model 4 1 "" None) (Arr2 4 (rows c_X ix)) (Arr2 1 (rows c_T ix)) ["CV"] (kw_cv 3).
(** six samples in three parts: exchanged inside the parts nothing changes; exchanged across the parts another error is returned *)
Lemma cv_parts {SG : @Sing NumQ} {BR : @Brent NumQ} : exists a b, snd (cv_order [0; 1; 2; 3; 4; 5]%nat) = Ok (Some a) /\ snd (cv_order [3; 1; 5; 0; 4; 2]%nat) = Ok (Some a) /\
  snd (cv_order [1; 0; 2; 3; 4; 5]%nat) = Ok (Some b) /\ ~ a == b.
Proof.
  eexists _, _. split; [vm_compute; reflexivity|]. split; [vm_compute; reflexivity|]. split; [vm_compute; reflexivity|]. vm_compute. discriminate.
Qed.
Lemma cv_index : Permutation [3; 1; 5; 0; 4; 2]%nat (seq 0 6) /\ forall j, (j < 6)%nat -> (nth j [3; 1; 5; 0; 4; 2] 0 mod 3)%nat = (j mod 3)%nat.
Proof.
  split; [|intros j Hj; do 6 (destruct j as [|j]; [reflexivity|]); lia].
  cbn [seq]. apply NoDup_Permutation; [repeat constructor; cbn; intuition lia|repeat constructor; cbn; intuition lia|]. intros x. cbn. intuition lia.
Qed.
End Rationals.
