(** Property theorems: weighted training in any arithmetic (C72, C73), weighted training in exact arithmetic
    (C62, C83, C98), solving from full correlation matrices (C09). *)
From Coq Require Import ZArith Reals QArith Lra Lia Floats.SpecFloat.
From Verif Require Import Base Num Mat LinAlg Slfn Strs Elm Mrsr Search Mss Hpelm MatFacts ElmFacts WfProofs TrainThms RangeThms ErrThms Demo SumOf Float Rounding RoundThms WeightSums RoundWeight
  SolveThms ArgThms RegMore RegMore2 MoreDemo Exact8 Exact9 WeightDemo PropsRound Spec.
Local Open Scope string_scope.
Local Open Scope list_scope.

Section Any.
Context {K : Num} {SG : Sing}.
(** ** C72: every sample is counted exactly once, scaled by the square root of the weight of its class *)
Theorem C72_weighted : forall e ps H wc (g : list num -> num), no_data (e_net e) -> is_wc e = true -> (0 < e_batch e)%Z -> ps <> [] ->
  (forall X T, In (X, T) ps -> X <> [] /\ length X = length T /\ wide (s_outputs (e_net e)) T) ->
  weights_for e (snd (hd ([], []) ps)) wc -> (forall t, In t (targets_of ps) -> weighs wc g t) ->
  elm_project e (Arr2 (s_inputs (e_net e)) (rows_of ps)) = Ok H ->
  let wH := scaled_rows g H (targets_of ps) in let wT := scaled_targets g (targets_of ps) in
  exists e' HH HT, run_all (fun e p => add_data e (fst p) (snd p)) e ps = (e', Ok tt) /\
    get_corr (e_net e') = Ok (Some (HH, HT)) /\
    is_mat (getL (e_net e)) (getL (e_net e)) HH /\ is_mat (getL (e_net e)) (s_outputs (e_net e)) HT /\
    length H = length (targets_of ps) /\
    (forall i j, (i < getL (e_net e))%nat -> (j < getL (e_net e))%nat ->
       sum_of (HH_term (s_norm (e_net e)) i j) (HH_index i j wH) (mget HH i j) \/
       sum_of (HH_term (s_norm (e_net e)) j i) (HH_index i j wH) (mget HH i j)) /\
    (forall i k, (i < getL (e_net e))%nat -> (k < s_outputs (e_net e))%nat ->
       sum_of (HT_term i k) (combine wH wT) (mget HT i k)).
Proof. exact weighted_sums. Qed.

Local Open Scope R_scope.
Context (RD : rounded K).
(** ** C73: rounding error of the scaling and of the accumulated matrices *)
Theorem C73_root : forall a w, r_fin K RD (nmul a (nsqrt w)) -> 0 <= r_val K RD w ->
  Rabs (r_val K RD (nmul a (nsqrt w)) - r_val K RD a * sqrt (r_val K RD w)) <=
  ((1 + r_u K RD) ^ 2 - 1) * (Rabs (r_val K RD a) * sqrt (r_val K RD w)) + ((1 + r_u K RD) * Rabs (r_val K RD a) + 1) * r_eta K RD.
Proof. exact (root_rounding RD). Qed.

Theorem C73_weighted : forall e ps H wc (g : list num -> num), no_data (e_net e) -> is_wc e = true -> (0 < e_batch e)%Z -> ps <> [] ->
  (forall X T, In (X, T) ps -> X <> [] /\ length X = length T /\ wide (s_outputs (e_net e)) T) ->
  weights_for e (snd (hd ([], []) ps)) wc -> (forall t, In t (targets_of ps) -> weighs wc g t) ->
  elm_project e (Arr2 (s_inputs (e_net e)) (rows_of ps)) = Ok H ->
  let L := getL (e_net e) in let c := s_outputs (e_net e) in let N := length H in let norm := r_val K RD (s_norm (e_net e)) in
  let wH := scaled_rows g H (targets_of ps) in let wT := scaled_targets g (targets_of ps) in
  exists e' HH HT, run_all (fun e p => add_data e (fst p) (snd p)) e ps = (e', Ok tt) /\
    get_corr (e_net e') = Ok (Some (HH, HT)) /\
    (forall i j, (i < L)%nat -> (j < L)%nat -> r_fin K RD (mget HH i j) ->
       Rabs (r_val K RD (mget HH i j) - entry (nth i (spec_HH L norm (Spec.plain (vals RD wH) (vals RD wT))) []) j) <=
       bnd RD (N + 1) (entry (nth i (spec_HH L (Rabs norm) (Spec.plain (mags RD wH) (mags RD wT))) []) j) (2 * INR N)) /\
    (forall i k, (i < L)%nat -> (k < c)%nat -> r_fin K RD (mget HT i k) ->
       Rabs (r_val K RD (mget HT i k) - entry (nth i (spec_HT L c (Spec.plain (vals RD wH) (vals RD wT))) []) k) <=
       bnd RD (N + 1) (entry (nth i (spec_HT L c (Spec.plain (mags RD wH) (mags RD wT))) []) k) (2 * INR N)).
Proof. exact (weighted_rounding RD). Qed.
End Any.

(** double precision, weights 1/10 and 1/5; two calls, batches of 2 *)
Section Double.
Notation K64 := (Num64 no_fun no_fun).
#[local] Instance Num64_w : Num := K64.
Context {SG : Sing}.
Definition w_model (w : option (list spec_float)) : elm := lin_model 2 2 "wc" w 2 None d_tenth 2 [[d_fifth; n1]; [n1; n0]] [d_tenth; n1].
Definition w_data : list (mat * mat) := [([[n1; d_tenth]; [d_fifth; n1]; [n1; n1]], [[n1; n0]; [n0; n1]; [n1; n0]]); ([[d_tenth; d_tenth]], [[n0; n1]])].
Definition w_of (a b : spec_float) (t : list spec_float) : spec_float := if SFeqb (nth 0 t n0) n1 then a else b.
Definition w_hyps (w : option (list spec_float)) (a b : spec_float) : Prop :=
  let e := w_model w in
  no_data (e_net e) /\ is_wc e = true /\ (0 < e_batch e)%Z /\ w_data <> [] /\ getL (e_net e) = 2%nat /\
  (forall X T, In (X, T) w_data -> X <> [] /\ length X = length T /\ wide (s_outputs (e_net e)) T) /\
  (exists wc, weights_for e (snd (hd ([], []) w_data)) wc /\ forall t, In t (targets_of w_data) -> weighs wc (w_of a b) t) /\
  (exists H, elm_project e (Arr2 2 (rows_of w_data)) = Ok H) /\
  sf_fin (nmul d_tenth (nsqrt a)) /\ (0 <= sf_val d_tenth)%R /\
  match get_corr (e_net (fst (run_all (fun e p => add_data e (fst p) (snd p)) e w_data))) with
  | Ok (Some (HH, HT)) => forall i j, (i < 2)%nat -> (j < 2)%nat -> sf_fin (mget HH i j) /\ sf_fin (mget HT i j)
  | _ => False end.
(** the weights 1/10 and 1/5, and the weights 3/2 and 3 computed from the first call *)
Example C72_C73_weighted_hyps : w_hyps (Some [d_tenth; d_fifth]) d_tenth d_fifth /\ w_hyps None (SFdiv 53 1024 (nof_nat 3) (nof_nat 2)) (nof_nat 3).
Proof.
  assert (0 <= sf_val d_tenth)%R as HP.
  { unfold d_tenth. cbv [sf_val sf_sign]. vm_compute SFdiv. cbv iota beta. rewrite Rmult_1_l. apply Rmult_le_pos; [apply IZR_le; lia|apply Rlt_le, p2_pos]. }
  split; unfold w_hyps; cbv zeta.
  - split; [repeat constructor|]. split; [reflexivity|]. split; [reflexivity|]. split; [discriminate|]. split; [reflexivity|].
    split. { intros X T H. repeat (destruct H as [E|H]; [injection E as <- <-; split; [discriminate|]; split; [reflexivity|repeat constructor]|]). destruct H. }
    split.
    { exists [@Fin Num64_w d_tenth; @Fin Num64_w d_fifth]. split; [reflexivity|]. intros t Ht.
      assert (t = [n1; n0] \/ t = [n0; n1]) as Q by (change (In t [[n1; n0]; [n0; n1]; [n1; n0]; [n0; n1]]) in Ht; repeat (destruct Ht as [<-|Ht]; [auto|]); destruct Ht).
      destruct Q as [-> | ->]; [exists 0%nat|exists 1%nat]; (split; [split; [cbn; lia|]; intros [|[|j]] Hj; cbn in Hj; try lia; vm_compute; reflexivity|]); (split; [reflexivity|vm_compute; reflexivity]). }
    split; [eexists; vm_compute; reflexivity|]. split; [vm_compute; exact I|]. split; [exact HP|].
    vm_compute get_corr. intros i j Hi Hj. do 2 (destruct i as [|i]; [do 2 (destruct j as [|j]; [split; vm_compute; exact I|]); exfalso; lia|]); exfalso; lia.
  - split; [repeat constructor|]. split; [reflexivity|]. split; [reflexivity|]. split; [discriminate|]. split; [reflexivity|].
    split. { intros X T H. repeat (destruct H as [E|H]; [injection E as <- <-; split; [discriminate|]; split; [reflexivity|repeat constructor]|]). destruct H. }
    split.
    { exists [@Fin Num64_w (SFdiv 53 1024 (@nof_nat Num64_w 3) (@nof_nat Num64_w 2)); @Fin Num64_w (@nof_nat Num64_w 3)]. split; [reflexivity|]. intros t Ht.
      assert (t = [n1; n0] \/ t = [n0; n1]) as Q by (change (In t [[n1; n0]; [n0; n1]; [n1; n0]; [n0; n1]]) in Ht; repeat (destruct Ht as [<-|Ht]; [auto|]); destruct Ht).
      destruct Q as [-> | ->]; [exists 0%nat|exists 1%nat]; (split; [split; [cbn; lia|]; intros [|[|j]] Hj; cbn in Hj; try lia; vm_compute; reflexivity|]); (split; [reflexivity|vm_compute; reflexivity]). }
    split; [eexists; vm_compute; reflexivity|]. split; [vm_compute; exact I|]. split; [exact HP|].
    vm_compute get_corr. intros i j Hi Hj. do 2 (destruct i as [|i]; [do 2 (destruct j as [|j]; [split; vm_compute; exact I|]); exfalso; lia|]); exfalso; lia.
Qed.
End Double.

Section Reals.
#[local] Existing Instance NumR.
Local Open Scope R_scope.
Context {SG : Sing} {BR : Brent} {SH : Shuffle}.

(** ** C83: energy balance of weighted training *)
Theorem C83_weighted : forall e X T ws e' B Y, call_trained e X T ws e' -> s_B (e_net e') = Some B ->
  elm_predict e' (Arr2 (s_inputs (e_net e)) X) = Ok Y ->
  wsize ws T = wtotal ws T Y + wsize ws Y + 2 * s_norm (e_net e) * size_sq B.
Proof. exact weighted_energy. Qed.

(** ** C62: a larger norm in weighted training *)
Theorem C62_weighted : forall e1 e2 X T ws e1' e2' B1 B2 Y1 Y2, call_trained e1 X T ws e1' -> call_trained e2 X T ws e2' ->
  s_neurons (e_net e2) = s_neurons (e_net e1) -> s_inputs (e_net e2) = s_inputs (e_net e1) -> s_outputs (e_net e2) = s_outputs (e_net e1) ->
  s_norm (e_net e1) <= s_norm (e_net e2) ->
  s_B (e_net e1') = Some B1 -> s_B (e_net e2') = Some B2 ->
  elm_predict e1' (Arr2 (s_inputs (e_net e1)) X) = Ok Y1 -> elm_predict e2' (Arr2 (s_inputs (e_net e1)) X) = Ok Y2 ->
  size_sq B2 <= size_sq B1 /\ wtotal ws T Y1 <= wtotal ws T Y2.
Proof. exact weighted_norm. Qed.

(** ** C98: weights count relative to norm; weight zero is no sample *)
Theorem C98_scaled : forall e1 e2 X T ws a e1' e2', 0 < a -> call_trained e1 X T ws e1' -> call_trained e2 X T (map (Rmult a) ws) e2' ->
  s_neurons (e_net e2) = s_neurons (e_net e1) -> s_inputs (e_net e2) = s_inputs (e_net e1) -> s_outputs (e_net e2) = s_outputs (e_net e1) ->
  s_norm (e_net e2) = a * s_norm (e_net e1) ->
  s_B (e_net e2') = s_B (e_net e1').
Proof. exact weights_scaled. Qed.

Theorem C98_zero : forall e X T ws bs e1 e2, length bs = length ws -> (forall i, nth i bs true = false -> nth i ws 0 = 0) ->
  call_trained e X T ws e1 -> call_trained e (select bs X) (select bs T) (select bs ws) e2 ->
  s_B (e_net e2) = s_B (e_net e1).
Proof. exact zero_weights. Qed.

Let ks3 : list nat := [0; 1; 0]%nat.
Let classes3 : Forall2 (has_class 2) T3 ks3.
Proof. repeat constructor; unfold entry; cbn; try lia; intros [|[|j]] Hj; cbn; try lia; reflexivity. Qed.
Let wide3 : wide 2 X3.
Proof. repeat constructor. Qed.

(** classes 0, 1, 0 with weights 2, 3 and norms 1, 2 *)
Example C62_C83_weighted_hyps : exists e1' e2',
  call_trained (demo_p 2 1) X3 T3 [2; 3; 2] e1' /\ call_trained (demo_p 2 2) X3 T3 [2; 3; 2] e2' /\
  (exists B, s_B (e_net e1') = Some B) /\ (exists B, s_B (e_net e2') = Some B) /\
  (exists Y, elm_predict e1' (Arr2 2 X3) = Ok Y) /\ (exists Y, elm_predict e2' (Arr2 2 X3) = Ok Y).
Proof.
  destruct (wcall_trains 1 2 3 X3 T3 ks3 ltac:(lra) ltac:(lra) ltac:(lra) ltac:(discriminate) eq_refl wide3 classes3) as (e1' & C1 & B1 & Y1).
  destruct (wcall_trains 2 2 3 X3 T3 ks3 ltac:(lra) ltac:(lra) ltac:(lra) ltac:(discriminate) eq_refl wide3 classes3) as (e2' & C2 & B2 & Y2).
  exists e1', e2'. auto 10.
Qed.
(** the same weights and norm times 2 *)
Example C98_scaled_hyps : exists e1' e2',
  call_trained (demo_p 2 1) X3 T3 [2; 3; 2] e1' /\ call_trained (demo_p 2 (2 * 1)) X3 T3 (map (Rmult 2) [2; 3; 2]) e2'.
Proof.
  destruct (wcall_trains 1 2 3 X3 T3 ks3 ltac:(lra) ltac:(lra) ltac:(lra) ltac:(discriminate) eq_refl wide3 classes3) as (e1' & C1 & _).
  destruct (wcall_trains (2 * 1) (2 * 2) (2 * 3) X3 T3 ks3 ltac:(lra) ltac:(lra) ltac:(lra) ltac:(discriminate) eq_refl wide3 classes3) as (e2' & C2 & _).
  exists e1', e2'. split; [exact C1|exact C2].
Qed.
(** class 1 has weight 0: its sample is dropped *)
Example C98_zero_hyps : let bs := [true; false; true] in exists e1 e2,
  (forall i, nth i bs true = false -> nth i [2; 0; 2] 0 = 0) /\
  call_trained (demo_p 2 1) X3 T3 [2; 0; 2] e1 /\ call_trained (demo_p 2 1) (select bs X3) (select bs T3) (select bs [2; 0; 2]) e2 /\
  length (select bs X3) = 2%nat.
Proof.
  cbv zeta. destruct (wcall_trains 1 2 0 X3 T3 ks3 ltac:(lra) ltac:(lra) ltac:(lra) ltac:(discriminate) eq_refl wide3 classes3) as (e1' & C1 & _).
  destruct (wcall_trains 1 2 0 (select [true; false; true] X3) (select [true; false; true] T3) [0; 0]%nat ltac:(lra) ltac:(lra) ltac:(lra) ltac:(discriminate) eq_refl) as (e2' & C2 & _).
  { repeat constructor. }
  { repeat constructor; unfold entry; cbn; try lia; intros [|[|j]] Hj; cbn; try lia; reflexivity. }
  exists e1', e2'. split; [intros [|[|[|i]]] Hi; cbn in *; try discriminate; try reflexivity; destruct i; discriminate|]. split; [exact C1|]. split; [exact C2|reflexivity].
Qed.

(** ** C09: full symmetric matrices, as read from correlation files *)
Theorem C09_default_files : forall s n HH HT, s_kind s = Fast -> is_mat n n HH -> is_mat n (s_outputs s) HT ->
  (forall i j, (i < n)%nat -> (j < n)%nat -> entry (nth i HH []) j = entry (nth j HH []) i) ->
  (positive n HH -> solves n (s_outputs s) HH (solve_corr s n HH HT) HT) /\
  (~ positive n HH -> least_squares n (s_outputs s) (doubled n HH) (lstsq_sing (doubled n HH) HT) HT ->
     least_squares n (s_outputs s) (doubled n HH) (solve_corr s n HH HT) HT).
Proof. exact default_full_matrix. Qed.
Theorem C09_basic : forall s n HH HT, s_kind s = Basic -> is_mat n n HH -> is_mat n (s_outputs s) HT ->
  least_squares n (s_outputs s) HH (mmul (s_outputs s) (pinv_sing HH) HT) HT ->
  least_squares n (s_outputs s) HH (solve_corr s n HH HT) HT.
Proof. exact basic_full_matrix. Qed.

(** a positive and a singular matrix *)
Example C09_full_hyps : let P := [[2; 1]; [1; 2]] in let Q := [[1; 1]; [1; 1]] in let HT := [[1; 0]; [0; 1]] in
  s_kind (e_net (@demo NumR None "" None)) = Fast /\ s_kind (e_net (@demo NumR (Some "basic") "" None)) = Basic /\
  is_mat 2 2 P /\ is_mat 2 2 Q /\ is_mat 2 2 HT /\ positive 2 P /\ ~ positive 2 Q /\ doubled 2 Q = [[1; 1]; [2 * 1; 1]] /\
  (forall M, In M [P; Q] -> forall i j, (i < 2)%nat -> (j < 2)%nat -> entry (nth i M []) j = entry (nth j M []) i).
Proof.
  cbv zeta. split; [reflexivity|]. split; [reflexivity|]. do 3 (split; [split; repeat constructor|]). split; [|split; [|split; [reflexivity|]]].
  - intros x (i & Hi & Hx). cbn. assert (x 0%nat <> 0 \/ x 1%nat <> 0) as C by (destruct i as [|[|i]]; [left|right|exfalso; lia]; exact Hx).
    assert (0 < x 0%nat * x 0%nat + x 1%nat * x 1%nat) by (destruct C; nra). pose proof (Rle_0_sqr (x 0%nat + x 1%nat)) as S. unfold Rsqr in S. lra.
  - intros H. specialize (H (fun i => if (i =? 0)%nat then 1 else -1) ltac:(exists 0%nat; cbn; split; [lia|lra])). cbn in H. lra.
  - intros M [<-|[<-|[]]] [|[|i]] [|[|j]] Hi Hj; try lia; reflexivity.
Qed.
End Reals.

Print Assumptions C72_weighted.
Print Assumptions C73_root.
Print Assumptions C73_weighted.
Print Assumptions C83_weighted.
Print Assumptions C62_weighted.
Print Assumptions C98_scaled.
Print Assumptions C98_zero.
Print Assumptions C09_default_files.
Print Assumptions C09_basic.
