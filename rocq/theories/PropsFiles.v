(** Data arguments of HPELM, failing additions of data, energy balance, repeated data: C16, C81-C84. *)
From Coq Require Import Reals Lra QArith Permutation.
From Verif Require Import Base Num Mat LinAlg Slfn Strs Elm Mrsr Search Mss Hpelm Async WfProofs ElmFacts TrainThms RangeThms RangeTrain ErrThms SolveThms RidgeProofs
  ArgThms RegMore RegMore2 HpCheck RangeProj Refute2 Refute10 Stability Demo MoreDemo Spec.
Local Open Scope string_scope.
Local Open Scope list_scope.
Local Open Scope nat_scope.

(** ** C16: what HPELM.project does with istart >= 1 *)
Theorem C16_later {K : Num} {SG : Sing} : forall e d c X H fH M istart icount,
  (0 < e_batch e)%Z -> holds_data d c X -> 1 <= istart <= length X ->
  elm_project e (Arr2 c X) = Ok H ->
  let n := length (range_of X istart icount) in project_target e n fH M ->
  hp_project e d fH (Z.of_nat istart) (zcount icount) =
    if (Z.min (e_batch e) (Z.of_nat n) <=? 1)%Z then Ok M else Err ValueError.
Proof. exact hp_project_later. Qed.
Example C16_later_hyps {K : Num} {SG : Sing} : let e := demo None "" None in
  (0 < e_batch e)%Z /\ holds_data (SFile (Some (2, demo_X))) 2 demo_X /\ 1 <= 1 <= length demo_X /\
  (exists H, elm_project e (Arr2 2 demo_X) = Ok H) /\
  project_target e (length (range_of demo_X 1 None)) DNew (zero_mat (length (range_of demo_X 1 None)) 3).
Proof.
  cbv zeta. split; [reflexivity|]. split; [right; reflexivity|]. split; [cbn; lia|]. split; [eexists; reflexivity|reflexivity].
Qed.

(** ** C81: HPELM checks data files and arrays before using them *)
Theorem C81_source {K : Num} {SG : Sing} : forall e fX fT x t, given2 e fX fT x t ->
  let aX := arr2 (s_inputs (e_net e)) x in let aT := arr2 (s_outputs (e_net e)) t in
  (forall args kw i c, hp_train e fX fT args kw i c = hp_train e aX aT args kw i c) /\
  (forall i c fs, hp_add_data e fX fT i c fs = hp_add_data e aX aT i c fs) /\
  (forall fs Ls, validation_corr e fs fX fT Ls = validation_corr e fs aX aT Ls).
Proof. exact hp_source. Qed.
Theorem C81_source_predict {K : Num} {SG : Sing} : forall e fX x, given (s_inputs (e_net e)) fX x -> let aX := arr2 (s_inputs (e_net e)) x in
  (forall d i c, hp_predict e fX d i c = hp_predict e aX d i c) /\ (forall d i c, hp_project e fX d i c = hp_project e aX d i c).
Proof. exact hp_source1. Qed.
Theorem C81_source_error {K : Num} {SG : Sing} : forall e fT fY t y, let c := s_outputs (e_net e) in given c fT t -> given c fY y ->
  forall i n, hp_error e fT fY i n = hp_error e (arr2 c t) (arr2 c y) i n.
Proof. exact hp_source_error. Qed.
Theorem C81_refuses {K : Num} {SG : Sing} : forall e fX fT, (forall x t, ~ given2 e fX fT x t) -> exists y, refusal y /\
  (forall args kw i c, hp_train e fX fT args kw i c = (e, Err y)) /\
  (forall i c fs, hp_add_data e fX fT i c fs = (e, fs, Err (match s_neurons (e_net e) with [] => AssertionError | _ => y end))) /\
  (forall fs Ls, validation_corr e fs fX fT Ls = (e, Err y)) /\
  (forall args kw i c o pc, train_async e fX fT args kw i c o pc = (e, Err y)) /\
  (forall i c fs o pc, add_data_async e fX fT i c fs o pc = (e, fs, Err (match s_neurons (e_net e) with [] => AssertionError | _ => y end))).
Proof. exact hp_refuses. Qed.
Theorem C81_refuses_predict {K : Num} {SG : Sing} : forall e fX, (forall x, ~ given (s_inputs (e_net e)) fX x) -> exists y, refusal y /\
  (forall d i c, exists z, refusal z /\ hp_predict e fX d i c = Err z) /\
  (forall d i c, exists z, refusal z /\ hp_project e fX d i c = Err z) /\
  (forall i c pc, exists z, refusal z /\ predict_async e fX i c pc = Err z) /\
  (s_neurons (e_net e) <> [] -> forall d i c, hp_project e fX d i c = Err y) /\
  (s_neurons (e_net e) <> [] -> s_B (e_net e) <> None -> forall d i c, hp_predict e fX d i c = Err y).
Proof. exact hp_refuses1. Qed.
Theorem C81_refuses_error {K : Num} {SG : Sing} : forall e fT fY, let c := s_outputs (e_net e) in
  (forall t, ~ given c fT t) \/ (forall y, ~ given c fY y) -> exists z, refusal z /\ forall i n, hp_error e fT fY i n = Err z.
Proof. exact hp_refuses_error. Qed.
Theorem C81_refuses_corr {K : Num} {SG : Sing} : forall e fs, (forall HH HT, ~ corr_ok e fs HH HT) ->
  (exists y, refusal y /\ hp_solve_corr e fs = (e, Err y)) /\
  (forall fX fT Ls, exists y, refusal y /\ validation_corr e fs fX fT Ls = (e, Err y)).
Proof. exact corr_refuses. Qed.
Example C81_hyps {K : Num} {SG : Sing} : let e := demo None "" None in
  given2 e (SFile (Some (2, demo_X))) (SArr (Arr2 2 demo_T)) demo_X demo_T /\
  (forall x t, ~ given2 e (SFile (Some (3, demo_X))) (SArr (Arr2 2 demo_T)) x t) /\
  (forall x t, ~ given2 e (SFile None) (SArr (Arr2 2 demo_T)) x t) /\
  (forall x t, ~ given2 e (SFile (Some (2, demo_X))) (SArr (Arr2 2 (tl demo_T))) x t) /\
  (forall HH HT, ~ corr_ok e (mkFs (Some (3, [])) None) HH HT).
Proof.
  cbv zeta. split; [split; [reflexivity|split; reflexivity]|]. split; [intros x t (A & _); discriminate A|].
  split; [intros x t (A & _); discriminate A|]. split; [|intros HH HT (_ & A & B & _); injection A as <-; discriminate B].
  intros x t (A & B & C). injection A as <-. injection B as <-. discriminate C.
Qed.

(** ** C82: a failing add_data *)
Theorem C82_elm_partial {K : Num} {SG : Sing} : forall e X T e' x, length X = length T -> wide (s_outputs (e_net e)) T -> (0 < e_batch e)%Z ->
  add_data e X T = (e', Err x) -> exists n, n <= length X /\ took (e_net e) X T n (e_net e').
Proof. exact add_data_fails. Qed.
Theorem C82_plain_partial {K : Num} {SG : Sing} : forall e X T c e' x, is_wc e = false -> length X = length T -> wide c X -> wide (s_outputs (e_net e)) T ->
  (0 < e_batch e)%Z -> add_data e X T = (e', Err x) -> e' = e.
Proof. exact add_data_fails_plain. Qed.
Theorem C82_hpelm {K : Num} {SG : Sing} : forall e fX fT x t i c e' fs' y, given2 e fX fT x t -> wide (s_outputs (e_net e)) t ->
  (0 < e_batch e)%Z -> i <= length x ->
  hp_add_data e fX fT (Z.of_nat i) (zcount c) None = (e', fs', Err y) ->
  exists n, n <= length (range_of x i c) /\ took (e_net e) (range_of x i c) (range_of t i c) n (e_net e').
Proof. exact hp_add_data_fails. Qed.
Theorem C82_files {K : Num} {SG : Sing} : forall e fX fT i c fs e' fs' y,
  hp_add_data e fX fT i c (Some fs) = (e', fs', Err y) -> exists f, fs' = Some f /\
    (forall m, f_HH fs = Some m -> f_HH f = Some m) /\ (forall m, f_HT fs = Some m -> f_HT f = Some m) /\
    (f_HH fs = None -> f_HH f = None \/ f_HH f = Some (nneurons (s_neurons (e_net e)), scaled_eye (nneurons (s_neurons (e_net e))) (s_norm (e_net e)))) /\
    (f_HT fs = None -> f_HT f = None \/ f_HT f = Some (s_outputs (e_net e), zero_mat (nneurons (s_neurons (e_net e))) (s_outputs (e_net e)))).
Proof. exact hp_add_data_files_kept. Qed.
(** inputs of the wrong width *)
Example C82_hyps {K : Num} {SG : Sing} : let e := demo None "" None in
  is_wc e = false /\ length demo_X = length demo_T /\ wide 1 (map (firstn 1) demo_X) /\ wide (s_outputs (e_net e)) demo_T /\ (0 < e_batch e)%Z /\
  (exists e' x, add_data e (map (firstn 1) demo_X) demo_T = (e', Err x)) /\
  (exists e' fs' y, hp_add_data e (SFile (Some (3, demo_X))) (SArr (Arr2 2 demo_T)) 0 None (Some (mkFs None None)) = (e', fs', Err y)).
Proof.
  cbv zeta. split; [reflexivity|]. split; [reflexivity|]. split; [repeat constructor|]. split; [repeat constructor|]. split; [reflexivity|].
  split; [eexists; eexists; reflexivity|]. do 3 eexists. reflexivity.
Qed.
Section Rationals.
#[local] Existing Instance NumQ.
Local Open Scope Q_scope.
(** a model of 2 inputs that loaded neurons of 3 inputs (C10_load_refuted) *)
Example C82_hpelm_hyps {SG : @Sing NumQ} : let e := fst (update_from load_target (output_format load_source)) in let x := [[1; 2]; [3; 4]] in let t := [[1]; [0]] in
  given2 e (SFile (Some (2%nat, x))) (SArr (Arr2 1 t)) x t /\ wide (s_outputs (e_net e)) t /\ (0 < e_batch e)%Z /\ s_neurons (e_net e) <> [] /\
  exists e', hp_add_data e (SFile (Some (2%nat, x))) (SArr (Arr2 1 t)) (Z.of_nat 0) (zcount None) None = (e', None, Err ValueError).
Proof.
  cbv zeta. split; [split; [reflexivity|split; reflexivity]|]. split; [repeat constructor|]. split; [reflexivity|]. split; [discriminate|].
  eexists. vm_compute. reflexivity.
Qed.
Theorem C82_refuted {SG : @Sing NumQ} :
  (exists e1, add_data one_lin [[1]; [1]] [[5]] = (e1, Err ValueError) /\ get_corr (e_net e1) = Ok (Some ([[3]], [[0]])) /\
     exists e2, add_data e1 [[1]] [[2]] = (e2, Ok tt) /\ after_solve e2 1 = Ok [[1 # 2]]) /\
  (exists e1, add_data one_lin [[1]; [1]] [[1; 1]; [1; 1]] = (e1, Err ValueError) /\ get_corr (e_net e1) = Ok (Some ([[3]], [[0]]))) /\
  (exists e2, add_data one_lin [[1]] [[2]] = (e2, Ok tt) /\ after_solve e2 1 = Ok [[1]]).
Proof. exact half_batch. Qed.
Theorem C82_lost_refuted {SG : @Sing NumQ} : let f := mkFs None (Some (2%nat, [[0; 0]])) in
  exists e1, hp_add_data one_lin one_x one_t 0 None None = (e1, None, Ok tt) /\ get_corr (e_net e1) = Ok (Some ([[2]], [[2]])) /\
  exists e2, hp_add_data e1 one_x one_t 0 None (Some f) = (e2, Some (mkFs (Some (1%nat, [[1]])) (f_HT f)), Err AssertionError) /\
    after_solve e1 1 = Ok [[1]] /\ after_solve e2 1 = Err TypeError.
Proof. exact data_lost. Qed.
End Rationals.

Section Reals.
#[local] Existing Instance NumR.
Local Open Scope R_scope.

(** ** C83: how far targets, predictions and output weights can be apart *)
Theorem C83_energy {SG : Sing} {BR : Brent} {SH : Shuffle} : forall e X T e' B Y, trained e X T e' -> s_B (e_net e') = Some B ->
  elm_predict e' (Arr2 (s_inputs (e_net e)) X) = Ok Y ->
  size_sq T = total_sq T Y + size_sq Y + 2 * s_norm (e_net e) * size_sq B.
Proof. exact energy_balance. Qed.
Theorem C83_stability {SG : Sing} {BR : Brent} {SH : Shuffle} : forall e X T1 T2 e1 e2 B1 B2 Y1 Y2, trained e X T1 e1 -> trained e X T2 e2 ->
  s_B (e_net e1) = Some B1 -> s_B (e_net e2) = Some B2 ->
  elm_predict e1 (Arr2 (s_inputs (e_net e)) X) = Ok Y1 -> elm_predict e2 (Arr2 (s_inputs (e_net e)) X) = Ok Y2 ->
  total_sq Y1 Y2 + 2 * s_norm (e_net e) * total_sq B1 B2 <= total_sq T1 T2.
Proof. exact target_stability. Qed.
Example C83_hyps {SG : Sing} {BR : Brent} {SH : Shuffle} : let e := demo_p 2 1 in
  (exists e1 Y, trained e X3 T3 e1 /\ elm_predict e1 (Arr2 2 X3) = Ok Y /\ exists B, s_B (e_net e1) = Some B) /\
  (exists e2 Y, trained e X3 X3 e2 /\ elm_predict e2 (Arr2 2 X3) = Ok Y /\ exists B, s_B (e_net e2) = Some B).
Proof.
  assert (forall T, length T = 3%nat -> Forall (fun t => length t = 2%nat) T ->
    exists e' Y, trained (demo_p 2 1) X3 T e' /\ elm_predict e' (Arr2 2 X3) = Ok Y /\ exists B, s_B (e_net e') = Some B) as Q.
  { intros T HL HT. destruct (demo_trains 2 1 X3 T) as (e' & Y & H & P); [exact Rlt_0_1|discriminate|now rewrite HL|repeat constructor|exact HT|].
    destruct (trained_inv _ _ _ _ H) as (B & EB & _). exists e', Y. split; [exact H|]. split; [exact P|]. exists B. exact EB. }
  cbv zeta. split; apply Q; first [reflexivity|repeat constructor].
Qed.

(** ** C84: the whole data set several times *)
Theorem C84_repeated {SG : Sing} {BR : Brent} {SH : Shuffle} : forall e1 e2 X T k e1' e2', (0 < k)%nat -> trained e1 X T e1' ->
  trained e2 (concat (repeat X k)) (concat (repeat T k)) e2' ->
  s_neurons (e_net e2) = s_neurons (e_net e1) -> s_inputs (e_net e2) = s_inputs (e_net e1) -> s_outputs (e_net e2) = s_outputs (e_net e1) ->
  s_norm (e_net e2) = INR k * s_norm (e_net e1) ->
  s_B (e_net e2') = s_B (e_net e1').
Proof. exact repeated_data. Qed.
Example C84_hyps {SG : Sing} {BR : Brent} {SH : Shuffle} : let e1 := demo_p 2 1 in let e2 := demo_p 2 (INR 2 * 1) in
  (exists e1', trained e1 X3 T3 e1') /\ (exists e2', trained e2 (concat (repeat X3 2)) (concat (repeat T3 2)) e2') /\
  s_neurons (e_net e2) = s_neurons (e_net e1) /\ s_inputs (e_net e2) = s_inputs (e_net e1) /\ s_outputs (e_net e2) = s_outputs (e_net e1) /\
  s_norm (e_net e2) = INR 2 * s_norm (e_net e1).
Proof.
  cbv zeta. split; [|split; [|split; [reflexivity|split; [reflexivity|split; reflexivity]]]].
  - destruct (demo_trains 2 1 X3 T3) as (e' & Y & H & _); [exact Rlt_0_1|discriminate|reflexivity|repeat constructor|repeat constructor|exists e'; exact H].
  - destruct (demo_trains 2 (INR 2 * 1) (concat (repeat X3 2)) (concat (repeat T3 2))) as (e' & Y & H & _);
      [cbn; lra|discriminate|reflexivity|repeat constructor|repeat constructor|exists e'; exact H].
Qed.
End Reals.
Print Assumptions C16_later.
Print Assumptions C81_source.
Print Assumptions C81_source_predict.
Print Assumptions C81_source_error.
Print Assumptions C81_refuses.
Print Assumptions C81_refuses_predict.
Print Assumptions C81_refuses_error.
Print Assumptions C81_refuses_corr.
Print Assumptions C82_elm_partial.
Print Assumptions C82_plain_partial.
Print Assumptions C82_hpelm.
Print Assumptions C82_files.
Print Assumptions C82_refuted.
Print Assumptions C82_lost_refuted.
Print Assumptions C83_energy.
Print Assumptions C83_stability.
Print Assumptions C84_repeated.
