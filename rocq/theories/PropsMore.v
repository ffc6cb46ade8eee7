(** Further properties of training, of the size search and of the ranking: C57-C68. *)
From Coq Require Import Reals Lra QArith Permutation.
From Verif Require Import Base Num Mat LinAlg Slfn Strs Elm Mrsr Search Mss Hpelm WfProofs NeuronThms SubThms RangeThms RangeTrain SearchThms SearchLog RankThms
  RegMore RegMore2 RegOrder RankMore Demo MoreDemo Refute4 Refute9 Spec.
Local Open Scope string_scope.
Local Open Scope list_scope.
Local Open Scope nat_scope.

Section Reals.
#[local] Existing Instance NumR.
Context {SG : Sing} {BR : Brent} {SH : Shuffle}.
Local Open Scope R_scope.

(** ** C57: out-of-core training equals in-memory training *)
Theorem C57_same_model : forall e dX dT X T i c args kw e1 e',
  data_ok e dX dT X T -> (i < length X)%nat -> c <> Some 0%nat ->
  parse_args e args kw = (e1, Ok tt) -> is_wc e1 = false -> (0 < e_batch e1)%Z ->
  trained e (range_of X i c) (range_of T i c) e' ->
  exists e2, hp_train e dX dT args kw (Some (Z.of_nat i)) (zcount c) = (e2, Ok tt) /\
    s_B (e_net e2) = s_B (e_net e') /\ s_neurons (e_net e2) = s_neurons (e_net e').
Proof. exact hpelm_train_same. Qed.
Example C57_hyps : let e := demo_p 2 1 in
  data_ok e (SFile (Some (2%nat, X3))) (SArr (Arr2 2 T3)) X3 T3 /\ (1 < length X3)%nat /\
  (exists e1, parse_args e [] no_kw = (e1, Ok tt) /\ is_wc e1 = false /\ (0 < e_batch e1)%Z) /\
  exists e', trained e (range_of X3 1 (Some 2%nat)) (range_of T3 1 (Some 2%nat)) e'.
Proof.
  cbv zeta. split. { split; [right; reflexivity|]. split; [left; reflexivity|]. split; [reflexivity|]. split; repeat constructor. }
  split; [cbn; lia|]. split; [apply run_ok; repeat split|].
  destruct (demo_trains 2 1 (range_of X3 1 (Some 2%nat)) (range_of T3 1 (Some 2%nat))) as (e' & Y & H & _).
  - exact Rlt_0_1.
  - discriminate.
  - reflexivity.
  - repeat constructor.
  - repeat constructor.
  - exists e'. exact H.
Qed.

(** ** C58: outputs are trained independently *)
Theorem C58_outputs_independent : forall e X T e' e2 e2' ks, trained e X T e' -> trained e2 X (map (keep ks) T) e2' ->
  s_neurons (e_net e2) = s_neurons (e_net e) -> s_inputs (e_net e2) = s_inputs (e_net e) -> s_norm (e_net e2) = s_norm (e_net e) ->
  s_outputs (e_net e2) = length ks -> (forall k, In k ks -> (k < s_outputs (e_net e))%nat) ->
  forall n X' Y, elm_predict e' (Arr2 n X') = Ok Y -> elm_predict e2' (Arr2 n X') = Ok (map (keep ks) Y).
Proof. exact multi_output. Qed.
Example C58_hyps : let e := demo_p 2 1 in let e2 := demo_p 1 1 in
  (exists e' Y, trained e X3 T3 e' /\ elm_predict e' (Arr2 2 X3) = Ok Y) /\
  (exists e2', trained e2 X3 (map (keep [1%nat]) T3) e2') /\
  s_neurons (e_net e2) = s_neurons (e_net e) /\ s_inputs (e_net e2) = s_inputs (e_net e) /\ s_norm (e_net e2) = s_norm (e_net e) /\
  s_outputs (e_net e2) = length [1%nat] /\ (forall k, In k [1%nat] -> (k < s_outputs (e_net e))%nat).
Proof.
  cbv zeta. split; [apply demo_trains; [exact Rlt_0_1|discriminate|reflexivity|repeat constructor|repeat constructor]|].
  split. { destruct (demo_trains 1 1 X3 (map (keep [1%nat]) T3)) as (e' & Y & H & _);
    [exact Rlt_0_1|discriminate|reflexivity|repeat constructor|repeat constructor|exists e'; exact H]. }
  split; [reflexivity|]. split; [reflexivity|]. split; [reflexivity|]. split; [reflexivity|]. intros k [<-|[]]. change (1 < 2)%nat. lia.
Qed.

(** ** C59: predictions are linear in the targets *)
Theorem C59_linear : forall e X T1 T2 a b e1 e2 e3,
  trained e X T1 e1 -> trained e X T2 e2 -> trained e X (map2 (lin2 a b) T1 T2) e3 ->
  forall n X' Y1 Y2, elm_predict e1 (Arr2 n X') = Ok Y1 -> elm_predict e2 (Arr2 n X') = Ok Y2 ->
  elm_predict e3 (Arr2 n X') = Ok (map2 (lin2 a b) Y1 Y2).
Proof. exact linear_in_targets. Qed.
Example C59_hyps : let e := demo_p 2 1 in
  (exists e1 Y, trained e X3 T3 e1 /\ elm_predict e1 (Arr2 2 X3) = Ok Y) /\
  (exists e2 Y, trained e X3 X3 e2 /\ elm_predict e2 (Arr2 2 X3) = Ok Y) /\
  (exists e3 Y, trained e X3 (map2 (lin2 5 (-2)) T3 X3) e3 /\ elm_predict e3 (Arr2 2 X3) = Ok Y).
Proof.
  cbv zeta. split; [|split]; apply demo_trains; first [exact Rlt_0_1|discriminate|reflexivity|repeat constructor].
Qed.

(** ** C60: the order of the add_neurons calls does not matter *)
Theorem C60_neuron_order : forall e cs cs' e1 e2 X T e1' e2',
  wf_net (e_net e) -> Forall rect cs -> Permutation cs cs' ->
  run_all do_add e cs = (e1, Ok tt) -> run_all do_add e cs' = (e2, Ok tt) ->
  trained e1 X T e1' -> trained e2 X T e2' ->
  forall n X' Y, elm_predict e1' (Arr2 n X') = Ok Y -> elm_predict e2' (Arr2 n X') = Ok Y.
Proof. exact neuron_order. Qed.
Example C60_hyps : wf_net (e_net bare) /\ Forall rect calls /\ Permutation calls (rev calls) /\
  exists e1 e2 e1' e2', run_all do_add bare calls = (e1, Ok tt) /\ run_all do_add bare (rev calls) = (e2, Ok tt) /\
    trained e1 X3 T3 e1' /\ trained e2 X3 T3 e2' /\ exists Y, elm_predict e1' (Arr2 2 X3) = Ok Y.
Proof.
  split; [constructor; cbn; try exact I; repeat constructor; cbn; auto; intuition discriminate|].
  split; [repeat constructor|]. split; [apply Permutation_rev|].
  destruct (demo_trains 2 1 X3 T3) as (e1' & Y1 & H1 & P1); [exact Rlt_0_1|discriminate|reflexivity|repeat constructor|repeat constructor|].
  destruct rev_trains as (e2' & Y2 & H2 & _). destruct calls_run as [C1 C2].
  exists (demo_p 2 1), demo_rev, e1', e2'. split; [exact C1|]. split; [exact C2|]. split; [exact H1|]. split; [exact H2|]. exists Y1. exact P1.
Qed.

(** ** C61: integer class weights count repetitions of the samples *)
Theorem C61_weights_are_repetitions : forall e X T ks ns e1 e2, wtrained e X T ks (map INR ns) e1 ->
  trained e (repeat_by ns ks X) (repeat_by ns ks T) e2 ->
  s_B (e_net e1) = s_B (e_net e2) /\ s_neurons (e_net e1) = s_neurons (e_net e2).
Proof. exact weights_are_repetitions. Qed.
Example C61_hyps : let e := demo_p 2 1 in let ks := [0%nat; 1%nat; 0%nat] in let ns := [1%nat; 2%nat] in
  (exists e1, wtrained e X3 T3 ks (map INR ns) e1) /\
  (exists e2, trained e (repeat_by ns ks X3) (repeat_by ns ks T3) e2) /\ length (repeat_by ns ks X3) = 4%nat.
Proof.
  cbv zeta. split; [exact demo_wtrains|]. split; [|reflexivity].
  destruct (demo_trains 2 1 (repeat_by [1%nat; 2%nat] [0%nat; 1%nat; 0%nat] X3) (repeat_by [1%nat; 2%nat] [0%nat; 1%nat; 0%nat] T3)) as (e' & Y & H & _);
    [exact Rlt_0_1|discriminate|reflexivity|repeat constructor|repeat constructor|exists e'; exact H].
Qed.

(** ** C62: a larger norm shrinks the output weights and fits less closely *)
Theorem C62_norm : forall e1 e2 X T e1' e2' n1 n2 B1 B2 Y1 Y2,
  trained e1 X T e1' -> trained e2 X T e2' ->
  s_neurons (e_net e2) = s_neurons (e_net e1) -> s_inputs (e_net e2) = s_inputs (e_net e1) -> s_outputs (e_net e2) = s_outputs (e_net e1) ->
  s_norm (e_net e1) = n1 -> s_norm (e_net e2) = n2 -> n1 <= n2 ->
  s_B (e_net e1') = Some B1 -> s_B (e_net e2') = Some B2 ->
  elm_predict e1' (Arr2 (s_inputs (e_net e1)) X) = Ok Y1 -> elm_predict e2' (Arr2 (s_inputs (e_net e1)) X) = Ok Y2 ->
  size_sq B2 <= size_sq B1 /\ total_sq T Y1 <= total_sq T Y2.
Proof. exact norm_shrinks. Qed.
Example C62_hyps : let e1 := demo_p 2 1 in let e2 := demo_p 2 3 in
  (exists e1' Y1, trained e1 X3 T3 e1' /\ elm_predict e1' (Arr2 2 X3) = Ok Y1 /\ exists B, s_B (e_net e1') = Some B) /\
  (exists e2' Y2, trained e2 X3 T3 e2' /\ elm_predict e2' (Arr2 2 X3) = Ok Y2 /\ exists B, s_B (e_net e2') = Some B) /\
  s_neurons (e_net e2) = s_neurons (e_net e1) /\ s_inputs (e_net e2) = s_inputs (e_net e1) /\ s_outputs (e_net e2) = s_outputs (e_net e1) /\
  s_norm (e_net e1) <= s_norm (e_net e2).
Proof.
  assert (forall norm, 0 < norm -> exists e' Y, trained (demo_p 2 norm) X3 T3 e' /\ elm_predict e' (Arr2 2 X3) = Ok Y /\ exists B, s_B (e_net e') = Some B) as Q.
  { intros norm Hn. destruct (demo_trains 2 norm X3 T3) as (e' & Y & H & P); [exact Hn|discriminate|reflexivity|repeat constructor|repeat constructor|].
    destruct (trained_inv _ _ _ _ H) as (B & EB & _). exists e', Y. split; [exact H|]. split; [exact P|]. exists B. exact EB. }
  cbv zeta. split; [apply Q; lra|]. split; [apply Q; lra|]. split; [reflexivity|]. split; [reflexivity|]. split; [reflexivity|]. change (1 <= 3). lra.
Qed.

(** ** C63: more neurons never raise the training objective *)
Theorem C63_more_neurons : forall e number func W b rW rB e1 X T ea eb Ba Bb Ya Yb,
  (forall c m, W = Some (c, m) -> Forall (fun r => length r = c) m) -> rand_shapes (s_inputs (e_net e)) rW rB ->
  add_neurons e number func W b rW rB = (e1, Ok tt) ->
  trained e X T ea -> trained e1 X T eb ->
  s_B (e_net ea) = Some Ba -> s_B (e_net eb) = Some Bb ->
  elm_predict ea (Arr2 (s_inputs (e_net e)) X) = Ok Ya -> elm_predict eb (Arr2 (s_inputs (e_net e)) X) = Ok Yb ->
  total_sq T Yb + s_norm (e_net e) * size_sq Bb <= total_sq T Ya + s_norm (e_net e) * size_sq Ba.
Proof. exact more_neurons. Qed.
Example C63_hyps : let e := lin_p 2 1 in let W := Some (1%nat, [[1]; [1]]) in
  let rW := fun n => map (fun _ => repeat 0 n) (seq 0 2) in let rB := fun n => repeat 0 n in
  (forall c m, W = Some (c, m) -> Forall (fun r => length r = c) m) /\ rand_shapes (s_inputs (e_net e)) rW rB /\
  exists e1, add_neurons e 1 (FName "tanh") W (Some [0]) rW rB = (e1, Ok tt) /\
  (exists ea Ya, trained e X3 T3 ea /\ elm_predict ea (Arr2 2 X3) = Ok Ya) /\
  (exists eb Yb, trained e1 X3 T3 eb /\ elm_predict eb (Arr2 2 X3) = Ok Yb).
Proof.
  cbv zeta. split. { intros c m E. injection E as <- <-. repeat constructor. }
  split. { intros n. split; [|apply repeat_length]. split; [reflexivity|]. repeat constructor; apply repeat_length. }
  exists (demo_p 2 1). split; [reflexivity|]. split; [apply lin_p_trains|apply demo_trains]; first [exact Rlt_0_1|discriminate|reflexivity|repeat constructor].
Qed.

(** ** C64: the fit is never worse than predicting zero *)
Theorem C64_no_worse_than_zero : forall e X T e' B Y, trained e X T e' -> s_B (e_net e') = Some B ->
  elm_predict e' (Arr2 (s_inputs (e_net e)) X) = Ok Y ->
  total_sq T Y + s_norm (e_net e) * size_sq B <= size_sq T.
Proof. exact no_worse_than_zero. Qed.
Example C64_hyps : exists e' Y, trained (demo_p 2 1) X3 T3 e' /\ elm_predict e' (Arr2 2 X3) = Ok Y /\ exists B, s_B (e_net e') = Some B.
Proof.
  destruct (demo_trains 2 1 X3 T3) as (e' & Y & H & P); [exact Rlt_0_1|discriminate|reflexivity|repeat constructor|repeat constructor|].
  destruct (trained_inv _ _ _ _ H) as (B & EB & _). exists e', Y. split; [exact H|]. split; [exact P|]. exists B. exact EB.
Qed.

(** ** C65: the search evaluates few sizes (and C34 says the same of the sizes tried in training) *)
Theorem C65_few_evaluations : forall (ev : Z -> res R) lo L eL size, (1 <= lo)%Z -> (lo <= L)%Z -> (L <= Z.of_nat size)%Z ->
  exists qs : list Z, (Z.of_nat (length qs) <= 6 * Z.log2_up L + 5)%Z /\ Forall (fun i => (lo <= i <= L)%Z) qs /\
    (forall ev', (forall i, In i qs -> ev' i = ev i) ->
       @search_from NumR ev' (@init_table NumR size L eL) lo L = @search_from NumR ev (@init_table NumR size L eL) lo L) /\
    (forall m k t, @search_from NumR ev (@init_table NumR size L eL) lo L = Ok (m, k, t) ->
       forall i, (0 <= i <= Z.of_nat size)%Z -> at_ t i <> (-1)%R -> In i qs).
Proof. exact search_queries. Qed.
Example C65_hyps : (1 <= 3)%Z /\ (3 <= 100)%Z /\ (100 <= Z.of_nat 100)%Z /\ (6 * Z.log2_up 100 + 5 = 47)%Z.
Proof. split; [lia|]. split; [lia|]. split; [lia|reflexivity]. Qed.

(** ** C66: falling-then-rising errors.  Missing: the best size itself; it is missed by at
    most 4 log2 L. *)
Theorem C66_near_partial : forall (ev : Z -> res R) (f : Z -> R) lo L o size, (1 <= lo)%Z -> (lo <= L)%Z -> (L <= Z.of_nat size)%Z ->
  (forall i j, (lo <= i)%Z -> (i < j)%Z -> (j <= o)%Z -> f j < f i) -> (forall i j, (o <= i)%Z -> (i < j)%Z -> (j <= L)%Z -> f i < f j) -> (lo <= o <= L)%Z ->
  (forall i, (lo <= i <= L)%Z -> ev i = Ok (f i) /\ 0 <= f i) ->
  forall m k t, @search_from NumR ev (@init_table NumR size L (f L)) lo L = Ok (m, k, t) -> m = f k /\ (Z.abs (k - o) <= 4 * Z.log2_up L)%Z.
Proof. intros ev f lo L o size H0 H1 H2 A B. exact (search_unimodal ev f lo L o size H0 H1 H2 (conj A B)). Qed.
Example C66_near_hyps : let f := fun i : Z => Rabs (IZR i - 40) in let ev := fun i => Ok (f i) in
  (1 <= 1)%Z /\ (1 <= 100)%Z /\ (100 <= Z.of_nat 100)%Z /\
  (forall i j, (1 <= i)%Z -> (i < j)%Z -> (j <= 40)%Z -> f j < f i) /\ (forall i j, (40 <= i)%Z -> (i < j)%Z -> (j <= 100)%Z -> f i < f j) /\ (1 <= 40 <= 100)%Z /\
  (forall i, (1 <= i <= 100)%Z -> ev i = Ok (f i) /\ 0 <= f i) /\
  exists m k t, @search_from NumR ev (@init_table NumR 100 100 (f 100%Z)) 1 100 = Ok (m, k, t).
Proof.
  cbv zeta. split; [lia|]. split; [lia|]. split; [lia|].
  split. { intros i j Hi Hij Hj. apply IZR_lt in Hij. apply IZR_le in Hj. rewrite !Rabs_left1 by lra. lra. }
  split. { intros i j Hi Hij Hj. apply IZR_lt in Hij. apply IZR_le in Hi. rewrite !Rabs_right by lra. lra. }
  split; [lia|]. split; [intros i Hi; split; [reflexivity|apply Rabs_pos]|].
  destruct (search_from_spec (fun i => Ok (Rabs (IZR i - 40))) 1 100 (Rabs (IZR 100 - 40)) 100 ltac:(lia) ltac:(lia) ltac:(lia))
    as [(m & k & t & E & _)|(x & i & _ & E & _)]; [exists m, k, t; exact E|discriminate].
Qed.

(** ** C68: the first neuron of the ranking *)
Theorem C68_first_choice : forall H T m p kmax r, @mrsr NumR SG H T m p kmax = Ok r ->
  exists j, hd_error r = Some j /\ (j < m)%nat /\ (forall i, (i < m)%nat -> strength_abs H T p i <= strength_abs H T p j) /\
    (forall i, (i < j)%nat -> strength_abs H T p i < strength_abs H T p j).
Proof. exact mrsr_first_choice. Qed.
Theorem C68_first_choice2 : forall H T m p kmax r, length H = length T -> (0 < kmax)%nat -> H <> [] -> @mrsr2 NumR SG BR H T m p kmax = Ok r ->
  exists j, hd_error r = Some j /\ (j < m)%nat /\ (forall i, (i < m)%nat -> strength_sqr H T p i <= strength_sqr H T p j).
Proof. exact mrsr2_first_choice. Qed.
Example C68_hyps : (exists r, @mrsr NumR SG [[2; 1]] [[1]] 2 1 1 = Ok r) /\ length X3 = length T3 /\ (0 < 1)%nat /\ X3 <> [] /\
  exists r, @mrsr2 NumR SG BR X3 T3 2 2 1 = Ok r.
Proof.
  split. { apply get_ok. unfold mrsr, mrsr_first. cbn. 
  assert (Rabs (1 * 2 + 0) = 2) as R2 by (rewrite Rabs_right; lra). assert (Rabs (1 * 1 + 0) = 1) as R1 by (rewrite Rabs_right; lra). rewrite R1, R2.
  assert (Rltb (2 + 0) (1 + 0) = false) as -> by (unfold Rltb; destruct (Rlt_dec _ _); [lra|reflexivity]). cbn.
  assert (forall a b : R, b <> 0 -> np_div a b = Fin (a / b)) as D. { intros a b Hb. unfold np_div. cbn. unfold Reqb. destruct (Req_EM_T _ _); [contradiction|reflexivity]. }
  rewrite !D by (cbn; try lra). cbn. unfold min_step. cbn. unfold Rltb.
  repeat (destruct (Rlt_dec _ _); cbn; try reflexivity).
 all: exfalso; lra. }
  split; [reflexivity|]. split; [lia|]. split; [discriminate|]. apply mrsr2_total. lia.
Qed.
End Reals.

Section Any.
Context {K : Num} {SG : Sing} {BR : Brent}.

(** ** C67: a shorter ranking is a prefix of a longer one *)
Theorem C67_prefix : forall X T m p k1 k2 r, k1 <= k2 -> mrsr X T m p k2 = Ok r ->
  exists r1 l, mrsr X T m p k1 = Ok r1 /\ r = r1 ++ l.
Proof. exact mrsr_prefix. Qed.
Theorem C67_prefix2 : forall X T m p k1 k2 r, k1 <= k2 -> mrsr2 X T m p k2 = Ok r ->
  exists r1 l, mrsr2 X T m p k1 = Ok r1 /\ r = r1 ++ l.
Proof. exact mrsr2_prefix. Qed.
End Any.

Section Rationals.
#[local] Existing Instance NumQ.
#[local] Existing Instance no_shuffle.
Context {SG : Sing} {BR : Brent}.
Local Open Scope Q_scope.

Example C67_hyps : (1 <= 2)%nat /\
  mrsr [[1; 0; 2]; [0; 1; 1]; [1; 1; 0]] [[1]; [3]; [2]] 3 1 3 = Ok [1; 2; 0]%nat /\
  exists r, mrsr2 [[1; 0; 2]; [0; 1; 1]; [1; 1; 0]] [[1]; [3]; [2]] 3 1 1 = Ok r.
Proof. split; [lia|]. split; [vm_compute; reflexivity|]. apply get_ok. vm_compute. reflexivity. Qed.

(** C66: the validation error of the first j neurons falls until j = 3 and rises after it; the
    penalty (1% of the full error over 7) does not change that; training selects 4 neurons *)
Theorem C66_refuted : exists e',
  u_run = (e', Ok None) /\ getL (e_net e') = 4%nat /\ elm_project e' (Arr2 7 u_X) = elm_project (fst (u_sub 4)) (Arr2 7 u_X) /\
  (forall j, In j [1; 2; 3; 4; 5; 6; 7]%nat -> snd (u_sub j) = Ok None) /\
  map u_error [1; 2; 3; 4; 5; 6; 7]%nat = map (fun q => Ok (Fin q)) [323 # 28; 283 # 28; 243 # 28; 247 # 28; 251 # 28; 255 # 28; 37 # 4].
Proof. exact search_misses. Qed.
End Rationals.

Print Assumptions C57_same_model.
Print Assumptions C58_outputs_independent.
Print Assumptions C59_linear.
Print Assumptions C60_neuron_order.
Print Assumptions C61_weights_are_repetitions.
Print Assumptions C62_norm.
Print Assumptions C63_more_neurons.
Print Assumptions C64_no_worse_than_zero.
Print Assumptions C65_few_evaluations.
Print Assumptions C66_near_partial.
Print Assumptions C68_first_choice.
Print Assumptions C68_first_choice2.
Print Assumptions C67_prefix.
Print Assumptions C67_prefix2.
Print Assumptions C66_refuted.
