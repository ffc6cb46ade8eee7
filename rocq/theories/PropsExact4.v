(** Exact characterisations for C42, C44, C45, C47, C53, C56, C78 and C94. *)
From Coq Require Import Reals QArith Lra Lia Permutation.
From Verif Require Import Base Num Mat LinAlg Slfn Strs Elm Mrsr Search Mss Hpelm Hdf5 MatFacts ElmFacts SplitProofs RangeThms RangeTrain WfProofs AccProofs TrainThms
  RidgeProofs SolveThms NeuronThms ErrThms ErrMore SelectThms SubThms VcThms Hdf5Thms VcWc Exact5 Demo PropsError PropsState PropsData Spec.
Local Open Scope string_scope.
Local Open Scope list_scope.

Section Reals.
#[local] Existing Instance NumR.
Local Open Scope R_scope.

(** ** C42: a standard deviation given as a list (std[std == 0] = 1 sets its first element):
    column 0 is only centred, the others are scaled with the given values *)
Theorem C42_list : forall ac (f : @h5node NumR) (m : pvec) (x : R) (v : list R) b,
  (0 < match b with Some b => b | None => h_chunk f end)%Z -> length (pv m) = h_cols f -> length (x :: v) = h_cols f -> (forall s, In s v -> s <> 0) ->
  Forall (fun r => length r = h_cols f) (h_rows f) ->
  exists f', normalize_hdf5 ac f (Some m) (Some (PList (x :: v))) b = (Ok (pv m, 1 :: v), f', Some (1 :: v)) /\
    h_cols f' = h_cols f /\ length (h_rows f') = length (h_rows f) /\
    forall i j, (i < length (h_rows f))%nat -> (j < h_cols f)%nat ->
      nth j (nth i (h_rows f') []) 0 = (nth j (nth i (h_rows f) []) 0 - nth j (pv m) 0) / (if (j =? 0)%nat then 1 else nth j (x :: v) 0).
Proof. exact normalize_list. Qed.
Example C42_list_hyps : (0 < h_chunk data_file)%Z /\ length (@pv NumR (@PList NumR [3; 3])) = h_cols data_file /\ length [2; 5] = h_cols data_file /\ (forall s, In s [5] -> s <> 0) /\
  Forall (fun r => length r = h_cols data_file) (h_rows data_file).
Proof. split; [reflexivity|]. split; [reflexivity|]. split; [reflexivity|]. split; [intros s [<-|[]]; lra|repeat constructor]. Qed.

(** ** C47: weighted classification.  The targets are read in pieces of [batch] rows *)
Context {SG : @Sing NumR}.
Theorem C47_weighted : forall (e : @elm NumR) fs ss dX dT (X T H : list (list R)) Ls ws m,
  let s := e_net e in let L := getL s in let c := s_outputs s in let bt := Z.to_nat (e_batch e) in
  wf_net s -> e_class e = Some "wc"%string -> e_wc e = Some (fin_all ws) -> length ws = c -> Rsum ws <> 0 -> (0 < e_batch e)%Z -> 0 < s_norm s ->
  f_HH fs = Some (L, spec_HH L (s_norm s) ss) -> f_HT fs = Some (c, spec_HT L c ss) -> good L ss ->
  data_ok e dX dT X T -> X <> [] -> elm_project e (Arr2 (s_inputs s) X) = Ok H -> Ls <> [] ->
  (length T <= m * bt)%nat -> (m * bt < length T + bt)%nat -> (forall i k, (i < m)%nat -> (k < c)%nat -> occurs k (piece bt i T)) ->
  exists (B : nat -> list (list R)) e' best,
    let Y l := outputs_of c (B l) (map (firstn l) H) in
    let err l := Rsum (map (fun i => INR (length (piece bt i T)) / INR (length T) * weighted_err ws (piece bt i T) (piece bt i (Y l))) (seq 0 m)) in
    (forall l, In l Ls -> ridge_solution (Nat.min l L) c (s_norm s) (map (cut l) ss) (B l)) /\
    validation_corr e fs dX dT Ls = (e', Ok (Ls, map (fun l => @Fin NumR (err l)) Ls, map (fun l => counts "wc" c T (Y l)) Ls)) /\
    In best Ls /\ (forall l, In l Ls -> err best <= err l) /\
    forall cX X' H', elm_project e (Arr2 cX X') = Ok H' -> elm_predict e' (Arr2 cX X') = Ok (outputs_of c (B best) (map (firstn best) H')).
Proof. exact validation_wc_finite. Qed.
(** a class is absent from a piece: every error is NaN and the first size of the list is installed *)
Theorem C47_weighted_nan : forall (e : @elm NumR) fs ss dX dT (X T H : list (list R)) l0 Ls ws m i k,
  let s := e_net e in let L := getL s in let c := s_outputs s in let bt := Z.to_nat (e_batch e) in
  wf_net s -> e_class e = Some "wc"%string -> e_wc e = Some (fin_all ws) -> length ws = c -> Rsum ws <> 0 -> (0 < e_batch e)%Z -> 0 < s_norm s ->
  f_HH fs = Some (L, spec_HH L (s_norm s) ss) -> f_HT fs = Some (c, spec_HT L c ss) -> good L ss ->
  data_ok e dX dT X T -> elm_project e (Arr2 (s_inputs s) X) = Ok H ->
  (length T <= m * bt)%nat -> (m * bt < length T + bt)%nat -> (i < m)%nat -> (k < c)%nat -> ~ occurs k (piece bt i T) ->
  exists (B : nat -> list (list R)) e',
    let Y l := outputs_of c (B l) (map (firstn l) H) in
    (forall l, ridge_solution (Nat.min l L) c (s_norm s) (map (cut l) ss) (B l)) /\
    validation_corr e fs dX dT (l0 :: Ls) = (e', Ok (l0 :: Ls, map (fun _ => @XNaN NumR) (l0 :: Ls), map (fun l => counts "wc" c T (Y l)) (l0 :: Ls))) /\
    forall cX X' H', elm_project e (Arr2 cX X') = Ok H' -> elm_predict e' (Arr2 cX X') = Ok (outputs_of c (B l0) (map (firstn l0) H')).
Proof. exact validation_wc_nan. Qed.
Definition vw_X : list (list R) := [[1; 0]; [2; 1]; [0; 3]; [1; 1]].
Definition vw_T : list (list R) := [[1; 0]; [0; 1]; [1; 0]; [0; 1]].
Example C47_weighted_hyps : let e := demo None "wc" (Some [2; 3]) in
  wf_net (e_net e) /\ e_class e = Some "wc" /\ e_wc e = Some (fin_all [2; 3]) /\ s_outputs (e_net e) = 2%nat /\ Rsum [2; 3] <> 0 /\ e_batch e = 2%Z /\ 0 < s_norm (e_net e) /\
  f_HH vc_files = Some (getL (e_net e), spec_HH (getL (e_net e)) (s_norm (e_net e)) vc_samples) /\
  f_HT vc_files = Some (s_outputs (e_net e), spec_HT (getL (e_net e)) (s_outputs (e_net e)) vc_samples) /\ good (getL (e_net e)) vc_samples /\
  data_ok e (SFile (Some (2%nat, vw_X))) (SArr (Arr2 2 vw_T)) vw_X vw_T /\ vw_X <> [] /\
  (exists H, elm_project e (Arr2 (s_inputs (e_net e)) vw_X) = Ok H) /\
  (length vw_T <= 2 * 2 < length vw_T + 2)%nat /\ (forall i k, (i < 2)%nat -> (k < 2)%nat -> occurs k (piece 2 i vw_T)).
Proof.
  intros e. split; [constructor; cbn; try exact I; repeat constructor; cbn; auto; intuition discriminate|].
  split; [reflexivity|]. split; [reflexivity|]. split; [reflexivity|]. split; [cbn; lra|]. split; [reflexivity|]. split; [exact Rlt_0_1|]. split; [reflexivity|]. split; [reflexivity|].
  split; [intros s [<-|[<-|[]]]; split; cbn; try lra; reflexivity|].
  split; [split; [right; reflexivity|]; split; [left; reflexivity|]; split; [reflexivity|]; split; repeat constructor|].
  split; [discriminate|]. split; [eexists; reflexivity|]. split; [cbn; lia|].
  intros [|[|i]] [|[|k]] Hi Hk; try lia; [exists [1; 0]|exists [0; 1]|exists [1; 0]|exists [0; 1]]; (split; [cbn; auto|reflexivity]).
Qed.
(** the three rows of [demo_T] in pieces of two: the last piece has no row of class 1 *)
Example C47_weighted_nan_hyps : let e := demo None "wc" (Some [2; 3]) in
  data_ok e (SFile (Some (2%nat, demo_X))) (SArr (Arr2 2 demo_T)) demo_X demo_T /\
  (exists H, elm_project e (Arr2 (s_inputs (e_net e)) demo_X) = Ok H) /\
  (length (@demo_T NumR) <= 2 * 2 < length (@demo_T NumR) + 2)%nat /\ ~ occurs 1 (piece 2 1 demo_T).
Proof.
  intros e. split; [split; [right; reflexivity|]; split; [left; reflexivity|]; split; [reflexivity|]; split; repeat constructor|].
  split; [eexists; reflexivity|]. split; [cbn; lia|]. intros (t & Ht & E). cbn in Ht. destruct Ht as [<-|[]]. cbn in E. lra.
Qed.

(** ** C78: the order of the samples, for weighted classification and for HPELM.error *)
Theorem C78_order_weighted : forall e ws c (T Y T' Y' : list (list R)),
  e_class e = Some "wc" -> e_wc e = Some (fin_all ws) -> s_outputs (e_net e) = c -> length ws = c -> Rsum ws <> 0 ->
  wide c T -> wide c Y -> length T = length Y -> length T' = length Y' -> Permutation (combine T Y) (combine T' Y') ->
  @elm_error NumR e (Arr2 c T) (Arr2 c Y) = @elm_error NumR e (Arr2 c T') (Arr2 c Y').
Proof. exact error_order_weighted. Qed.
Theorem C78_order_hpelm : forall e dT dY dT' dY' c (T Y T' Y' : list (list R)) i n i' n',
  (ErrThms.plain (e_class e) /\ range_of T i n <> [] \/
   exists ws, e_class e = Some "wc" /\ e_wc e = Some (fin_all ws) /\ length ws = c /\ Rsum ws <> 0) ->
  s_outputs (e_net e) = c -> (0 < c)%nat -> (0 < e_batch e)%Z ->
  holds_data dT c T -> holds_data dY c Y -> wide c T -> wide c Y -> length T = length Y -> (i <= length T)%nat ->
  holds_data dT' c T' -> holds_data dY' c Y' -> wide c T' -> wide c Y' -> length T' = length Y' -> (i' <= length T')%nat ->
  Permutation (combine (range_of T i n) (range_of Y i n)) (combine (range_of T' i' n') (range_of Y' i' n')) ->
  @hp_error NumR e dT dY (Z.of_nat i) (zcount n) = @hp_error NumR e dT' dY' (Z.of_nat i') (zcount n').
Proof. exact hp_error_order. Qed.
Example C78_order_hyps : let e := demo None "wc" (Some [2; 3]) in
  e_class e = Some "wc" /\ e_wc e = Some (fin_all [2; 3]) /\ s_outputs (e_net e) = 2%nat /\ Rsum [2; 3] <> 0 /\ (0 < e_batch e)%Z /\
  wide 2 vw_T /\ wide 2 vw_X /\ length vw_T = length vw_X /\ holds_data (SFile (Some (2%nat, vw_T))) 2 vw_T /\
  Permutation (combine vw_T vw_X) (combine (rev vw_T) (rev vw_X)) /\
  Permutation (combine (range_of vw_T 1 None) (range_of vw_X 1 None)) (combine (range_of (rev vw_T) 0 (Some 3%nat)) (range_of (rev vw_X) 0 (Some 3%nat))).
Proof.
  intros e. split; [reflexivity|]. split; [reflexivity|]. split; [reflexivity|]. split; [cbn; lra|]. split; [reflexivity|].
  split; [repeat constructor|]. split; [repeat constructor|]. split; [reflexivity|]. split; [right; reflexivity|]. split.
  - apply (Permutation_rev (combine vw_T vw_X)).
  - apply (Permutation_rev [([0; 1], [2; 1]); ([1; 0], [0; 3]); ([0; 1], [1; 1])]).
Qed.
End Reals.

Section Gen.
Context {K : Num}.

(** ** C44: a call of train that returns leaves the task type of the last argument that names one
    (R: regression), in any letter case, and regression if there is none *)
Theorem C44_task {SG : Sing} {BR : Brent} {SH : Shuffle} : forall e X T args kw e' r, train e X T args kw = (e', Ok r) ->
  (forall l a q t, args = l ++ a :: q -> asks_task (upper a) t -> (forall b u, In b q -> ~ asks_task (upper b) u) -> e_class e' = t) /\
  ((forall b u, In b args -> ~ asks_task (upper b) u) -> e_class e' = None).
Proof. exact train_task. Qed.
Example C44_task_hyps : asks_task (upper "Wc") (Some "wc") /\ (forall u, ~ asks_task (upper "op") u) /\ ["r"; "Wc"; "op"] = ["r"] ++ "Wc" :: ["op"].
Proof. split; [constructor|]. split; [intros u H; inversion H|reflexivity]. Qed.

(** ** C45: every string given to the constructor *)
Theorem C45_exact : forall inputs outputs cls w batch accel prec norm e,
  elm_init inputs outputs cls w batch accel prec norm = Ok e ->
  (In (lower cls) ["c"; "wc"; "ml"; "mc"] -> e_class e = Some (if (cls =? "mc")%string then "ml" else cls)) /\
  (~ In (lower cls) ["c"; "wc"; "ml"; "mc"] -> e_class e = None) /\
  (~ In cls ["c"; "wc"; "ml"; "mc"] ->
   (forall T Y, elm_error e T Y = elm_error (with_class e None) T Y) /\
   (forall fT fY i n, hp_error e fT fY i n = hp_error (with_class e None) fT fY i n) /\
   (forall T Y, confusion e T Y = Err AssertionError)).
Proof. exact ctor_exact. Qed.
Example C45_exact_hyps : (exists e, elm_init 2 2 "mC" None 10 None PF64 None = Ok e) /\ In (lower "mC") ["c"; "wc"; "ml"; "mc"] /\ ~ In "mC" ["c"; "wc"; "ml"; "mc"] /\
  ~ In (lower "classification") ["c"; "wc"; "ml"; "mc"].
Proof. split; [eexists; reflexivity|]. split; [cbn; tauto|]. split; cbn; intuition discriminate. Qed.

(** ** C53: project on data of the right width, for every consistent model *)
Theorem C53_exact {SG : Sing} : forall s X, wf_net s -> wide (s_inputs s) X ->
  (s_neurons s = [] -> project s X = Err ValueError) /\
  ((exists g i, In g (s_neurons s) /\ n_func g = Ufunc i) -> project s X = Err KeyError) /\
  (s_neurons s <> [] -> (forall g i, In g (s_neurons s) -> n_func g <> Ufunc i) -> project s X = Ok (map (hrow (s_neurons s)) X)).
Proof. exact project_exact. Qed.
Theorem C53_ufunc {SG : Sing} : forall e number i W B rW rB e',
  add_neurons e number (FUfunc i) W B rW rB = (e', Ok tt) -> forall X, elm_project e' (Arr2 (s_inputs (e_net e)) X) = Err KeyError.
Proof. exact ufunc_project. Qed.
Example C53_exact_hyps : wf_net (e_net (demo None "" None)) /\ wide (s_inputs (e_net (demo None "" None))) demo_X /\
  (forall g i, In g (s_neurons (e_net (demo None "" None))) -> n_func g <> Ufunc i) /\
  exists e', add_neurons (demo None "" None) 1 (FUfunc 0) (Some (1%nat, [[n1]; [n1]])) (Some [n0]) (fun _ => []) (fun _ => []) = (e', Ok tt).
Proof. split; [apply demo_wf; cbn; auto|]. split; [repeat constructor|]. split; [intros g i [<-|[<-|[]]]; discriminate|eexists; reflexivity]. Qed.

(** ** C56: compressed files with one line, and with lines of different lengths *)
Theorem C56_one_line : forall (r : list num) lev ch, (lev < 10)%Z ->
  (length r = 1%nat -> make_hdf5 (InGz [r]) lev ch = (Err AssertionError, None)) /\
  (length r <> 1%nat -> make_hdf5 (InGz [r]) lev ch = (Ok tt, Some (mkNode 1 (map (fun x => [x]) r) ch ANone ANone))).
Proof. exact gz_one_line. Qed.
Theorem C56_ragged_compressed : forall (r : list num) rows lev ch, (lev < 10)%Z -> ~ Forall (fun x => length x = length r) rows ->
  make_hdf5 (InGz (r :: rows)) lev ch = (Err ValueError, None).
Proof. exact gz_ragged. Qed.
Example C56_exact_hyps : length [n1; n2] <> 1%nat /\ ~ Forall (fun x => length x = length [n1; n2]) [[n0; n1]; [n1]].
Proof. split; [discriminate|]. intros H. inversion H as [|? ? _ H2]; subst. inversion H2; discriminate. Qed.

(** ** C94: only the weights, or only the biases, are given *)
Theorem C94_only_W : forall e n func c W rW rB, wf_net (e_net e) -> rand_shapes (s_inputs (e_net e)) rW rB ->
  snd (add_neurons e n func (Some (c, W)) None rW rB) = Ok tt <->
  (exists f, parse_func func = Some f) /\ (0 <= n)%Z /\ length W = s_inputs (e_net e) /\ c = Z.to_nat n.
Proof. exact add_neurons_W. Qed.
Theorem C94_only_B : forall e n func B rW rB, wf_net (e_net e) -> rand_shapes (s_inputs (e_net e)) rW rB ->
  snd (add_neurons e n func None (Some B) rW rB) = Ok tt <->
  exists f, parse_func func = Some f /\ (0 <= n)%Z /\
    length B = (match f with Lin => Nat.min (Z.to_nat n) (s_inputs (e_net e)) | _ => Z.to_nat n end).
Proof. exact add_neurons_B. Qed.
Example C94_only_hyps : let e := demo None "" None in wf_net (e_net e) /\ s_inputs (e_net e) = 2%nat /\
  rand_shapes (s_inputs (e_net e)) (fun n => mk 2 n (fun _ _ => n1)) (fun n => mkv n (fun _ => n1)).
Proof. intros e. split; [apply demo_wf; cbn; auto|]. split; [reflexivity|]. intros n. split; [apply is_mat_mk|apply mkv_length]. Qed.
End Gen.

Print Assumptions C42_list.
Print Assumptions C47_weighted.
Print Assumptions C47_weighted_nan.
Print Assumptions C78_order_weighted.
Print Assumptions C78_order_hpelm.
Print Assumptions C44_task.
Print Assumptions C45_exact.
Print Assumptions C53_exact.
Print Assumptions C53_ufunc.
Print Assumptions C56_one_line.
Print Assumptions C56_ragged_compressed.
Print Assumptions C94_only_W.
Print Assumptions C94_only_B.
