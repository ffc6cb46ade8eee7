(** Data preparation, number of batches, validation_corr, GPU sigmoid, RBF parameters:
    C42, C43, C47, C48, C49, C52, C54, C56. *)
From Coq Require Import Reals Lra QArith Permutation.
From Verif Require Import Base Num Mat LinAlg Slfn Strs Elm Hpelm Hdf5 Spec ErrThms SolveThms RidgeProofs RangeThms SubThms
  NbatchFloat Hdf5Thms VcThms Rbf RbfThms Demo WfProofs RangeTrain Refute8.
Local Open Scope string_scope.
Local Open Scope list_scope.
Local Open Scope nat_scope.

Section Reals.
#[local] Existing Instance NumR.
Local Open Scope R_scope.

(** ** C42: the statistics, for every batch size *)
Theorem C42_statistics : forall ac (f : @h5node NumR) m0 s0 b, (m0 = None \/ s0 = None) ->
  (0 < match b with Some b => b | None => h_chunk f end)%Z -> h_rows f <> [] -> h_mean f = @ANone NumR ->
  exists m s, normalize_hdf5 ac f m0 s0 b =
      (Ok (m, s), mkNode (h_cols f) (h_rows f) (h_chunk f) (@AVec NumR m) (@AVec NumR s), match s0 with Some s => Some (pv s) | None => None end) /\
    length m = h_cols f /\ length s = h_cols f /\
    forall j, (j < h_cols f)%nat -> nth j m 0 = pop_mean (column (h_rows f) j) /\ nth j s 0 = pop_std (column (h_rows f) j).
Proof. exact normalize_fresh. Qed.
Definition data_file : @h5node NumR := @mkNode NumR 2 [[1; 2]; [3; 4]; [5; 4]] 2 (@ANone NumR) (@ANone NumR).
Example C42_statistics_hyps : (0 < h_chunk data_file)%Z /\ h_rows data_file <> [] /\ h_mean data_file = @ANone NumR /\
  pop_mean (column (h_rows data_file) 0) = 3.
Proof.
  split; [reflexivity|]. split; [discriminate|]. split; [reflexivity|].
  unfold pop_mean, column, data_file. cbn [h_rows map nth length]. rewrite !Rsum_cons, Rsum_nil. simpl INR. lra.
Qed.

(** given parameters (numpy std): every entry is replaced exactly once *)
Theorem C42_applied_partial : forall ac (f : @h5node NumR) (m s : list R) b,
  (0 < match b with Some b => b | None => h_chunk f end)%Z -> length m = h_cols f -> length s = h_cols f ->
  Forall (fun x => length x = h_cols f) (h_rows f) ->
  exists s' f', normalize_hdf5 ac f (Some (PArr m)) (Some (PArr s)) b = (Ok (m, s'), f', Some s') /\
    h_cols f' = h_cols f /\ length (h_rows f') = length (h_rows f) /\ length s' = h_cols f /\
    (forall j, (j < h_cols f)%nat -> nth j s' 0 = if Req_EM_T (nth j s 0) 0 then 1 else nth j s 0) /\
    forall i j, (i < length (h_rows f))%nat -> (j < h_cols f)%nat ->
      nth j (nth i (h_rows f') []) 0 = (nth j (nth i (h_rows f) []) 0 - nth j m 0) / nth j s' 0.
Proof. exact normalize_entries. Qed.
Example C42_applied_hyps : (0 < 2)%Z /\ length [3; 10 / 3] = h_cols data_file /\ length [1; 0] = h_cols data_file /\
  Forall (fun x => length x = h_cols data_file) (h_rows data_file).
Proof. split; [reflexivity|]. split; [reflexivity|]. split; [reflexivity|]. repeat constructor. Qed.

(** ** C43: a call that computes the parameters, then one that applies them.  Missing:
    the property speaks of one call. *)
Theorem C43_two_calls_partial : forall ac (f : @h5node NumR) b b',
  (0 < match b with Some b => b | None => h_chunk f end)%Z -> (0 < match b' with Some b => b | None => h_chunk f end)%Z ->
  h_rows f <> [] -> h_mean f = @ANone NumR -> Forall (fun x => length x = h_cols f) (h_rows f) ->
  exists m s f1 s' f2, normalize_hdf5 ac f None None b = (Ok (m, s), f1, None) /\
    normalize_hdf5 ac f1 (Some (PArr m)) (Some (PArr s)) b' = (Ok (m, s'), f2, Some s') /\
    length (h_rows f2) = length (h_rows f) /\ h_cols f2 = h_cols f /\ h_mean f2 = @AVec NumR m /\
    forall j, (j < h_cols f)%nat ->
      pop_mean (column (h_rows f2) j) = 0 /\
      (pop_std (column (h_rows f) j) <> 0 -> pop_std (column (h_rows f2) j) = 1) /\
      (pop_std (column (h_rows f) j) = 0 -> forall x, In x (column (h_rows f2) j) -> x = 0).
Proof. exact normalize_two_calls. Qed.
Example C43_two_calls_hyps : (0 < h_chunk data_file)%Z /\ (0 < 3)%Z /\ h_rows data_file <> [] /\ h_mean data_file = @ANone NumR /\
  Forall (fun x => length x = h_cols data_file) (h_rows data_file).
Proof. split; [reflexivity|]. split; [reflexivity|]. split; [discriminate|]. split; [reflexivity|]. repeat constructor. Qed.

(** ** C47: validation_corr.  Missing: classification with class weights ('wc'). *)
Theorem C47_validation_partial {SG : @Sing NumR} : forall (e : @elm NumR) fs ss dX dT (X T H : list (list R)) Ls,
  let s := e_net e in let L := getL s in let c := s_outputs s in
  wf_net s -> ErrThms.plain (e_class e) -> (0 < c)%nat -> (0 < e_batch e)%Z -> 0 < s_norm s ->
  f_HH fs = Some (L, spec_HH L (s_norm s) ss) -> f_HT fs = Some (c, spec_HT L c ss) -> good L ss ->
  data_ok e dX dT X T -> X <> [] -> elm_project e (Arr2 (s_inputs s) X) = Ok H -> Ls <> [] ->
  exists (B : nat -> list (list R)) e' best,
    let Y l := outputs_of c (B l) (map (firstn l) H) in
    let err l := mean (errs (e_class e) c T (Y l)) in
    (forall l, In l Ls -> ridge_solution (Nat.min l L) c (s_norm s) (map (cut l) ss) (B l)) /\
    validation_corr e fs dX dT Ls =
      (e', Ok (Ls, map (fun l => @Fin NumR (err l)) Ls, match e_class e with None => [] | Some cls => map (fun l => counts cls c T (Y l)) Ls end)) /\
    In best Ls /\ (forall l, In l Ls -> err best <= err l) /\
    forall cX X' H', elm_project e (Arr2 cX X') = Ok H' -> elm_predict e' (Arr2 cX X') = Ok (outputs_of c (B best) (map (firstn best) H')).
Proof. exact validation_corr_spec. Qed.
Definition vc_samples : list sample := [((1, [1; 2; 3]), [1; 0]); ((1, [2; 0; 1]), [0; 1])].
Definition vc_files : @corrfs NumR := mkFs (Some (3%nat, spec_HH 3 1 vc_samples)) (Some (2%nat, spec_HT 3 2 vc_samples)).
Example C47_hyps {SG : @Sing NumR} : forall cls, cls = "" \/ cls = "c" \/ cls = "ml" ->
  let e := demo None cls None in
  wf_net (e_net e) /\ ErrThms.plain (e_class e) /\ (0 < s_outputs (e_net e))%nat /\ (0 < e_batch e)%Z /\ 0 < s_norm (e_net e) /\
  f_HH vc_files = Some (getL (e_net e), spec_HH (getL (e_net e)) (s_norm (e_net e)) vc_samples) /\
  f_HT vc_files = Some (s_outputs (e_net e), spec_HT (getL (e_net e)) (s_outputs (e_net e)) vc_samples) /\ good (getL (e_net e)) vc_samples /\
  data_ok e (SFile (Some (2%nat, demo_X))) (SArr (Arr2 2 demo_T)) demo_X demo_T /\ demo_X <> [] /\
  exists H, elm_project e (Arr2 (s_inputs (e_net e)) demo_X) = Ok H.
Proof.
  intros cls Hc e. split.
  { destruct Hc as [->|[->| ->]]; constructor; cbn; try exact I; repeat constructor; cbn; auto; intuition discriminate. }
  split; [destruct Hc as [->|[->| ->]]; cbn; [left|right; left|right; right]; reflexivity|].
  assert (En : e_net e = e_net (demo None "" None)) by (destruct Hc as [->|[->| ->]]; reflexivity).
  assert (Eb : e_batch e = 2%Z) by (destruct Hc as [->|[->| ->]]; reflexivity).
  unfold data_ok. rewrite En, Eb. split; [apply Nat.lt_0_2|]. split; [reflexivity|]. split; [exact Rlt_0_1|]. split; [reflexivity|]. split; [reflexivity|].
  split; [intros s [<-|[<-|[]]]; split; cbn; try lra; reflexivity|].
  split; [split; [right; reflexivity|]; split; [left; reflexivity|]; split; [reflexivity|]; split; repeat constructor|].
  split; [discriminate|]. destruct Hc as [->|[->| ->]]; eexists; reflexivity.
Qed.

(** ** C49.  Missing: sizes that are not a multiple of the block size. *)
Theorem C49_sigm_partial : forall size b order (mem : nat -> R), (0 < b)%nat -> Permutation order (threads (sigm_grid size b) b) ->
  (forall i, (i < size)%nat -> @launch NumR b order mem i = 1 / (exp (mem i) + 1) /\
     (exists t, In t order /\ thread_index b t = i /\ forall t', In t' order -> thread_index b t' = i -> t' = t)) /\
  ((size mod b = 0)%nat -> forall i, (size <= i)%nat -> @launch NumR b order mem i = mem i) /\
  (forall i, (size + b <= i)%nat -> @launch NumR b order mem i = mem i) /\
  ((size mod b <> 0)%nat -> @launch NumR b order mem size = 1 / (exp (mem size) + 1)).
Proof. exact (@sigm_launch NumR). Qed.
Example C49_hyps : (0 < 32)%nat /\ (64 mod 32 = 0)%nat /\ sigm_grid 64 32 = 2%nat /\
  Permutation (rev (threads (sigm_grid 64 32) 32)) (threads (sigm_grid 64 32) 32).
Proof. split; [lia|]. split; [reflexivity|]. split; [reflexivity|]. apply Permutation_sym, Permutation_rev. Qed.
Theorem C49_refuted : exists size b, forall order, Permutation order (threads (sigm_grid size b) b) ->
  exists (mem : nat -> R) i, (size <= i)%nat /\ @launch NumR b order mem i <> mem i.
Proof.
  exists 10%nat, 32%nat. intros order H. destruct (sigm_overrun order H) as [mem Hm].
  exists mem, 10%nat. split; [lia|exact Hm].
Qed.

(** ** C52: termination, when some measured pair of samples differs and the random
    values do not stay below 1/2.  Missing: the other cases, see [C52_refuted]. *)
Theorem C52_terminates_partial : forall d X k kind ix1 ix2 (u : nat -> R),
  (0 < k)%nat -> Forall (fun x => length x = d) X -> a_choice (length X) (rbf_Nk (length X) k) ix1 -> a_choice (length X) k ix2 ->
  (exists i j, In (i, j) (pairs ix1) /\ nth i X [] <> nth j X []) ->
  infinitely_often (fun n => 1 / 2 <= u n) ->
  exists fuel W B, @rbf_param NumR fuel d X k kind ix1 ix2 u = Some (Ok (W, B)).
Proof. exact rbf_total. Qed.
Definition rbf_X : list (list R) := [[1; 2]; [3; 4]; [5; 4]].
Example C52_hyps : (0 < 2)%nat /\ Forall (fun x => length x = 2%nat) rbf_X /\ a_choice (length rbf_X) (rbf_Nk (length rbf_X) 2) [0; 2]%nat /\
  a_choice (length rbf_X) 2 [2; 1]%nat /\ (exists i j, In (i, j) (pairs [0; 2]%nat) /\ nth i rbf_X [] <> nth j rbf_X []) /\
  infinitely_often (fun n => 1 / 2 <= (if Nat.even n then 0 else 3 / 4)).
Proof.
  split; [lia|]. split; [repeat constructor|]. split; [split; [reflexivity|repeat constructor]|]. split; [split; [reflexivity|repeat constructor]|].
  split.
  - exists 0%nat, 1%nat. split; [left; reflexivity|]. cbn. intros E. inversion E. lra.
  - intros n. exists (if Nat.even n then S n else n). destruct (Nat.even n) eqn:E.
    + split; [lia|]. rewrite Nat.even_succ, <- Nat.negb_even, E. cbn. lra.
    + split; [lia|]. rewrite E. lra.
Qed.
(** three equal samples: no number of rounds is enough, whatever the random values *)
Theorem C52_refuted : exists d X, (2 <= length X)%nat /\ forall fuel k kind ix1 ix2 u,
  a_choice (length X) (rbf_Nk (length X) k) ix1 -> a_choice (length X) k ix2 ->
  @rbf_param NumR fuel d X k kind ix1 ix2 u = None.
Proof. exists 1%nat, [[1]; [1]; [1]]. split; [cbn; lia|exact rbf_equal]. Qed.
End Reals.

Section Any.
Context {K : Num}.

(** ** C43: without parameters the data is left alone, always *)
Theorem C43_unchanged : forall ac f m s b r f' c, (m = None \/ s = None) ->
  normalize_hdf5 ac f m s b = (r, f', c) -> h_rows f' = h_rows f /\ h_cols f' = h_cols f.
Proof. exact normalize_keeps_rows. Qed.
Example C43_unchanged_hyps : exists r f' c, normalize_hdf5 (Ok tt) (mkNode 1 [[n1]; [n0]] 1 ANone ANone) None None None = (r, f', c).
Proof. eexists _, _, _. reflexivity. Qed.

(** ** C48 *)
Theorem C48_nbatches : forall N b, (0 <= N < 2 ^ 53)%Z -> (1 <= b < 2 ^ 53)%Z ->
  exists q, float_nbatches N b = Some q /\ nbatches N b = Ok q /\ ((q - 1) * b < N <= q * b)%Z.
Proof.
  intros N b HN Hb. exists (ceil_div N b). split; [exact (float_nbatches_exact N b HN Hb)|].
  split; [apply nbatches_eq; lia|apply ceil_pos; lia].
Qed.
Example C48_hyps : (0 <= 9007199254740991 < 2 ^ 53)%Z /\ (1 <= 3 < 2 ^ 53)%Z /\
  float_nbatches 9007199254740991 3 = Some 3002399751580331%Z /\ float_nbatches 1000001 1000 = Some 1001%Z.
Proof. split; [lia|]. split; [lia|]. split; vm_compute; reflexivity. Qed.

(** ** C52: the measured pairs are two different samples *)
Theorem C52_pairs : forall N k ix, a_choice N (rbf_Nk N k) ix ->
  length (pairs ix) = rbf_Nk N k /\ forall i j, In (i, j) (pairs ix) -> i <> j /\ (i < N)%nat /\ (j < N)%nat.
Proof. exact pairs_valid. Qed.
Example C52_pairs_hyps : a_choice 4 (rbf_Nk 4 2) [0; 1; 3]%nat /\ pairs [0; 1; 3]%nat = [(0, 1); (1, 2); (2, 3)]%nat.
Proof. split; [split; [reflexivity|repeat constructor]|reflexivity]. Qed.
Theorem C52_result : forall fuel d X k kind ix1 ix2 u W B, a_choice (length X) (rbf_Nk (length X) k) ix1 -> a_choice (length X) k ix2 ->
  rbf_param fuel d X k kind ix1 ix2 u = Some (Ok (W, B)) ->
  length W = d /\ Forall (fun r => length r = k) W /\
  (forall j, (j < k)%nat -> exists x, In x X /\ forall r, (r < d)%nat -> nth j (nth r W []) n0 = nth r x n0) /\
  length B = k /\ Forall (fun b => nltb n0 b = true) B.
Proof. exact rbf_result. Qed.
(** one sample: the loop never ends *)
Theorem C52_one_sample : forall fuel d x k kind ix1 ix2 u, a_choice 1 (rbf_Nk 1 k) ix1 -> a_choice 1 k ix2 ->
  rbf_param fuel d [x] k kind ix1 ix2 u = None.
Proof. exact rbf_one_sample. Qed.
Example C52_one_hyps : a_choice 1 (rbf_Nk 1 3) [] /\ a_choice 1 3 [0; 0; 0]%nat.
Proof. split; split; try reflexivity; repeat constructor. Qed.

(** ** C54 *)
Theorem C54_vector : forall v lev ch, (lev < 10)%Z ->
  make_hdf5 (InArr (Arr1 v)) lev ch = (Ok tt, Some (mkNode 1 (map (fun x => [x]) v) ch ANone ANone)).
Proof. intros. apply make_array; [reflexivity|assumption]. Qed.
Theorem C54_matrix : forall c m lev ch, (lev < 10)%Z ->
  make_hdf5 (InArr (Arr2 c m)) lev ch = (Ok tt, Some (mkNode c m ch ANone ANone)).
Proof. intros. apply make_array; [reflexivity|assumption]. Qed.
Theorem C54_shape : forall r c lev ch, (lev < 10)%Z ->
  exists m, make_hdf5 (InShape (Z.of_nat r) (Z.of_nat c)) lev ch = (Ok tt, Some (mkNode c m ch ANone ANone)) /\
    length m = r /\ forall x, In x m -> length x = c /\ forall y, In y x -> y = n0.
Proof.
  intros r c lev ch H. exists (zero_mat r c). split; [apply make_shape; assumption|].
  split; [unfold zero_mat, mk; rewrite map_length; apply seq_length|].
  intros x Hx. unfold zero_mat, mk, mkv in Hx. apply in_map_iff in Hx. destruct Hx as (i & <- & _).
  split; [rewrite map_length; apply seq_length|]. intros y Hy. apply in_map_iff in Hy. destruct Hy as (j & <- & _). reflexivity.
Qed.

(** ** C56: text files.  Missing: compressed files with a single line. *)
Theorem C56_text : forall r rows lev ch, Forall (fun x => length x = length r) rows -> (lev < 10)%Z ->
  make_hdf5 (InText (r :: rows)) lev ch = (Ok tt, Some (mkNode (length r) (r :: rows) ch ANone ANone)).
Proof. exact make_text. Qed.
Theorem C56_compressed_partial : forall r r2 rows lev ch, Forall (fun x => length x = length r) (r2 :: rows) -> (lev < 10)%Z ->
  make_hdf5 (InGz (r :: r2 :: rows)) lev ch = make_hdf5 (InText (r :: r2 :: rows)) lev ch.
Proof.
  intros r r2 rows lev ch H Hl. rewrite (make_text r (r2 :: rows) lev ch H Hl).
  destruct (Nat.eq_dec (length r) 1) as [E|E].
  - rewrite E in *. apply make_gz_column; [constructor; assumption|exact Hl].
  - apply make_gz; assumption.
Qed.
Theorem C56_ragged : forall r good bad rest lev ch, Forall (fun x => length x = length r) good -> length bad <> length r -> (lev < 10)%Z ->
  make_hdf5 (InText (r :: good ++ bad :: rest)) lev ch = (Err ValueError, Some (mkNode (length r) (r :: good) ch NoAttr NoAttr)).
Proof. exact make_text_ragged. Qed.
Example C56_hyps : Forall (fun x => length x = length [n1; n0]) [[n0; n0]; [n1; n1]] /\ (3 < 10)%Z /\ length [n1] <> length [n1; n0].
Proof. split; [repeat constructor|]. split; [lia|discriminate]. Qed.
End Any.

Section Rationals.
#[local] Existing Instance NumQ.
Local Open Scope Q_scope.

(** ** C42 refuted: std given as a list of numbers, 6 is not divided by 2 *)
Theorem C42_refuted : exists f m s s' f', length m = h_cols f /\ length s = h_cols f /\
  normalize_hdf5 (Ok tt) f (Some (PArr m)) (Some (PList s)) None = (Ok (m, s'), f', Some s') /\
  m = [0; 0] /\ s = [2; 3] /\ h_rows f = [[6; 9]] /\ h_rows f' = [[6; 3]].
Proof.
  destruct normalize_list as (m & s & f' & H1 & H2 & H3 & H4 & H5 & H6).
  exists list_file, m, s, [1; 3], f'. auto 9.
Qed.

(** ** C43 refuted: the data 0, 2 stays 0, 2 *)
Theorem C43_refuted : exists f f', h_rows f = [[0]; [2]] /\
  normalize_hdf5 (Ok tt) f None None None = (Ok ([1], [1]), f', None) /\ h_rows f' = [[0]; [2]].
Proof. destruct normalize_not_applied as (f' & H1 & H2 & _). exists raw_file, f'. auto. Qed.

(** ** C47 refuted: weighted classification, two validation samples of different class.
    With batch 2 the errors are 1/2 and 0; with batch 1 they are NaN and the first, worse, candidate is installed. *)
Theorem C47_refuted {SG : Sing} :
  errs_of (snd (wc_run 2)) = Some [Fin (1 # 2); Fin 0] /\ s_L (e_net (fst (wc_run 2))) = Some 2%nat /\
  errs_of (snd (wc_run 1)) = Some [XNaN; XNaN] /\ s_L (e_net (fst (wc_run 1))) = Some 1%nat.
Proof. exact validation_wc. Qed.

(** ** C56 refuted: one line of three numbers is a row in a text file, a column in a
    compressed one; one number alone cannot be read compressed *)
Theorem C56_refuted :
  (exists f1 f2, @make_hdf5 NumQ (@InGz NumQ [[5; 6; 7]]) 0 1 = (Ok tt, Some f1) /\ @make_hdf5 NumQ (@InText NumQ [[5; 6; 7]]) 0 1 = (Ok tt, Some f2) /\
     h_rows f1 = [[5]; [6]; [7]] /\ h_rows f2 = [[5; 6; 7]]) /\
  @make_hdf5 NumQ (@InGz NumQ [[5]]) 0 1 = (Err AssertionError, None) /\ exists f, @make_hdf5 NumQ (@InText NumQ [[5]]) 0 1 = (Ok tt, Some f).
Proof. exact (conj gz_row gz_single). Qed.
End Rationals.

Print Assumptions C42_statistics.
Print Assumptions C42_applied_partial.
Print Assumptions C43_two_calls_partial.
Print Assumptions C47_validation_partial.
Print Assumptions C49_sigm_partial.
Print Assumptions C49_refuted.
Print Assumptions C52_terminates_partial.
Print Assumptions C52_refuted.
Print Assumptions C43_unchanged.
Print Assumptions C48_nbatches.
Print Assumptions C52_pairs.
Print Assumptions C52_result.
Print Assumptions C52_one_sample.
Print Assumptions C54_vector.
Print Assumptions C54_matrix.
Print Assumptions C54_shape.
Print Assumptions C56_text.
Print Assumptions C56_compressed_partial.
Print Assumptions C56_ragged.
Print Assumptions C42_refuted.
Print Assumptions C43_refuted.
Print Assumptions C47_refuted.
Print Assumptions C56_refuted.
