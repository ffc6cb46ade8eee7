(** Property C108: a negative istart counts from the end of the data. *)
From Coq Require Import Reals Lra Lia ZArith.
From Verif Require Import Base Num Mat LinAlg Slfn Strs Elm Hpelm MatFacts Spec TrainThms RangeThms RangeTrain ConvertR Demo Negative Refute12.
Local Open Scope string_scope.
Local Open Scope list_scope.

(** ** Where it is true: icount < m.  Missing: larger and absent icount. *)
Section Any.
Context {K : Num} {SG : Sing}.
Theorem C108_add_data_partial : forall e dX dT cx X ct T m c fs, (0 < e_batch e)%Z -> holds_data dX cx X -> holds_data dT ct T -> c < m <= length X ->
  hp_add_data e dX dT (- Z.of_nat m) (Some (Z.of_nat c)) fs = hp_add_data e dX dT (Z.of_nat (length X - m)) (Some (Z.of_nat c)) fs.
Proof. exact inside_add_data. Qed.
Theorem C108_predict_partial : forall e dX cx X fY m c, (0 < e_batch e)%Z -> holds_data dX cx X -> c < m <= length X ->
  hp_predict e dX fY (- Z.of_nat m) (Some (Z.of_nat c)) = hp_predict e dX fY (Z.of_nat (length X - m)) (Some (Z.of_nat c)).
Proof. exact inside_predict. Qed.
Theorem C108_error_partial : forall e dT ct T dY cy Y m c, (0 < e_batch e)%Z -> holds_data dT ct T -> holds_data dY cy Y -> length T = length Y -> c < m <= length T ->
  hp_error e dT dY (- Z.of_nat m) (Some (Z.of_nat c)) = hp_error e dT dY (Z.of_nat (length T - m)) (Some (Z.of_nat c)).
Proof. exact inside_error. Qed.
(** HPELM.train takes a negative istart as 0 *)
Theorem C108_train : forall e dX dT args kw i icount, (i <= 0)%Z -> hp_train e dX dT args kw (Some i) icount = hp_train e dX dT args kw None icount.
Proof. exact train_negative. Qed.
End Any.

(** ** The samples that add_data uses otherwise (exact arithmetic) *)
Section Acc.
Context {SG : @Sing NumR}.
#[local] Existing Instance NumR.
(** without icount: [neg_used batch m] is the last m samples if all data fit into one batch; otherwise
    most of the last m samples followed by most of all samples *)
Theorem C108_all : forall (e : elm) dX dT X T H m batch, no_data (e_net e) -> is_wc e = false -> 0 < batch -> e_batch e = Z.of_nat batch ->
  data_ok e dX dT X T -> 1 <= m <= length X -> elm_project e (Arr2 (s_inputs (e_net e)) X) = Ok H ->
  exists e', hp_add_data e dX dT (- Z.of_nat m) None None = (e', None, Ok tt) /\
    get_corr (e_net e') = Ok (Some (spec_HH (getL (e_net e)) (s_norm (e_net e)) (plain (neg_used batch m H) (neg_used batch m T)),
                                    spec_HT (getL (e_net e)) (s_outputs (e_net e)) (plain (neg_used batch m H) (neg_used batch m T)))).
Proof. exact negative_all. Qed.
(** with icount = m: the last batch is empty, so the last sample is never used *)
Theorem C108_last : forall (e : elm) dX dT X T H m batch, no_data (e_net e) -> is_wc e = false -> 0 < batch -> e_batch e = Z.of_nat batch ->
  data_ok e dX dT X T -> 1 <= m <= length X -> elm_project e (Arr2 (s_inputs (e_net e)) X) = Ok H ->
  let j := length X - m + (m - 1) / batch * batch in j < length X /\
  exists e', hp_add_data e dX dT (- Z.of_nat m) (Some (Z.of_nat m)) None = (e', None, Ok tt) /\
    get_corr (e_net e') = Ok (Some (spec_HH (getL (e_net e)) (s_norm (e_net e)) (plain (between H (length X - m) j) (between T (length X - m) j)),
                                    spec_HT (getL (e_net e)) (s_outputs (e_net e)) (plain (between H (length X - m) j) (between T (length X - m) j)))).
Proof. exact negative_last. Qed.
End Acc.

Section Example_.
Context {SG : @Sing NumR}.
#[local] Existing Instance NumR.
Example C108_hyps : let e := lin_model 1 1 "" None 2 None 1%R 1 [[1%R]] [0%R] in let X := [[1%R]; [2%R]; [4%R]] in let d := SArr (Arr2 1 X) in
  no_data (e_net e) /\ is_wc e = false /\ e_batch e = Z.of_nat 2 /\ holds_data d 1 X /\ data_ok e d d X X /\ 1 < 2 <= length X /\
  (exists H, elm_project e (Arr2 (s_inputs (e_net e)) X) = Ok H) /\
  (* batch 2, m = 2: all three samples; m = 1: the last two; batch 3: the last one *)
  neg_used 2 2 X = X /\ neg_used 2 1 X = [[2%R]; [4%R]] /\ neg_used 3 1 X = [[4%R]].
Proof.
  cbv zeta. split; [split; reflexivity|]. split; [reflexivity|]. split; [reflexivity|]. split; [left; reflexivity|].
  split. { split; [left; reflexivity|]. split; [left; reflexivity|]. split; [reflexivity|]. split; repeat constructor. }
  split; [cbn; lia|]. split; [eexists; reflexivity|]. split; [reflexivity|]. split; reflexivity.
Qed.
End Example_.

Theorem C108_refuted : exists (e : @elm NumQ) (d : @src NumQ) (Y : list (list QArith_base.Q)), exists C1 C2 : (list (list QArith_base.Q) * list (list QArith_base.Q)),
  corr_after (hp_add_data e d d 1 None None) = Ok (Some C1) /\ corr_after (hp_add_data e d d (-2) None None) = Ok (Some C2) /\
  corr_after (hp_add_data e d d (-2) (Some 2%Z) None) <> Ok (Some C1) /\ C1 <> C2 /\ (exists X, holds_data d 1 X /\ length X = 3) /\
  hp_predict e d DNew 1 None = Ok Y /\ hp_predict e d DNew (-2) None = Err ValueError.
Proof. exact negative_refuted. Qed.

Print Assumptions C108_add_data_partial.
Print Assumptions C108_predict_partial.
Print Assumptions C108_error_partial.
Print Assumptions C108_train.
Print Assumptions C108_all.
Print Assumptions C108_last.
Print Assumptions C108_refuted.
