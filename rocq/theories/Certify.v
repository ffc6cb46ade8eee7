(** How far any output weights are from the trained ones, judged by the residual of the
    normal equations: whatever computed them (another solver, rounded arithmetic). *)
From Coq Require Import Reals Lra.
From Verif Require Import Base Num Mat LinAlg Slfn Strs Elm MatFacts ElmFacts RLin AccProofs RidgeProofs TrainThms SolveThms
  Mrsr Search Mss RegMore Rounding SumOf RoundThms Spec.
Local Open Scope R_scope.

(** row i of A times column k of X *)
Definition times (n : nat) (A X : list (list R)) (i k : nat) : R :=
  Rsum (map (fun j => entry (nth i A []) j * entry (nth j X []) k) (seq 0 n)).
(** what is missing in equation i of A X = Y, column k *)
Definition gap (n : nat) (A X Y : list (list R)) (i k : nat) : R := entry (nth i Y []) k - times n A X i k.

Section Real.
#[local] Existing Instance NumR.

Lemma certify_col : forall L norm ss k (x y r : nat -> R), 0 < norm -> nonneg ss ->
  (forall i, (i < L)%nat -> S_ L (fun j => mR (spec_HH L norm ss) i j * x j) = SS ss (fun s => sm_w s * vR (sm_h s) i * vR (sm_t s) k)) ->
  (forall i, (i < L)%nat -> S_ L (fun j => mR (spec_HH L norm ss) i j * y j) = SS ss (fun s => sm_w s * vR (sm_h s) i * vR (sm_t s) k) - r i) ->
  norm ^ 2 * S_ L (fun i => (y i - x i) ^ 2) <= S_ L (fun i => r i ^ 2) /\
  4 * norm * SS ss (fun s => sm_w s * (dotS L (sm_h s) y - dotS L (sm_h s) x) ^ 2) <= S_ L (fun i => r i ^ 2).
Proof.
  intros L norm ss k x y r Hn Hp Hx Hy. set (d := fun i => y i - x i).
  assert (quad L (mR (spec_HH L norm ss)) d = - S_ L (fun i => d i * r i)) as Q.
  { unfold quad. transitivity (S_ L (fun i => d i * S_ L (fun j => mR (spec_HH L norm ss) i j * d j))).
    { apply sum_ext. intros i Hi. rewrite <- sum_scal. apply sum_ext. intros; rring. }
    rewrite <- sum_opp. apply sum_ext. intros i Hi.
    assert (S_ L (fun j => mR (spec_HH L norm ss) i j * d j) = - r i) as ->; [|rring].
    transitivity (S_ L (fun j => mR (spec_HH L norm ss) i j * y j) - S_ L (fun j => mR (spec_HH L norm ss) i j * x j)).
    - rewrite <- sum_sub. apply sum_ext. intros; unfold d; rring.
    - rewrite Hx, Hy by auto. rring. }
  rewrite quad_spec in Q.
  assert (SS ss (fun s => sm_w s * (dotS L (sm_h s) y - dotS L (sm_h s) x) ^ 2) = SS ss (fun s => sm_w s * (dotS L (sm_h s) d * dotS L (sm_h s) d))) as ->.
  { apply nsum_map_ext. intros s _. assert (dotS L (sm_h s) y - dotS L (sm_h s) x = dotS L (sm_h s) d) as ->.
    { unfold dotS. rewrite <- sum_sub. apply sum_ext. intros; unfold d; rring. } rring. }
  assert (S_ L (fun i => (y i - x i) ^ 2) = S_ L (fun i => d i * d i)) as -> by (apply sum_ext; intros; unfold d; rring).
  assert (0 <= SS ss (fun s => sm_w s * (dotS L (sm_h s) d * dotS L (sm_h s) d))) as HP.
  { apply nsum_nonneg. intros z Hz. apply in_map_iff in Hz as (s & <- & Hs). apply Rmult_le_pos; [now apply Hp|apply Rle_0_sqr]. }
  set (P := SS ss (fun s => sm_w s * (dotS L (sm_h s) d * dotS L (sm_h s) d))) in *. set (D := S_ L (fun i => d i * d i)) in *. set (DR := S_ L (fun i => d i * r i)) in *.
  assert (forall a, 0 <= a ^ 2 * D + 2 * a * DR + S_ L (fun i => r i ^ 2)) as SQ.
  { intros a. assert (a ^ 2 * D + 2 * a * DR + S_ L (fun i => r i ^ 2) = S_ L (fun i => (a * d i + r i) ^ 2)) as ->.
    { unfold D, DR. rewrite <- !sum_scal, <- !sum_add. apply sum_ext. intros; rring. }
    apply sum_nonneg. intros. apply pow2_ge_0. }
  pose proof (SQ norm) as S1. pose proof (SQ (2 * norm)) as S2. rn. split; nra.
Qed.

Theorem certify : forall L c norm ss B B' k, 0 < norm -> good L ss -> ridge_solution L c norm ss B -> (k < c)%nat ->
  let r i := gap L (spec_HH L norm ss) B' (spec_HT L c ss) i k in
  let size := Rsum (map (fun i => r i ^ 2) (seq 0 L)) in
  norm ^ 2 * Rsum (map (fun i => (entry (nth i B' []) k - entry (nth i B []) k) ^ 2) (seq 0 L)) <= size /\
  4 * norm * Rsum (map (fun s => sm_w s * (predict1 B' (sm_h s) k - predict1 B (sm_h s) k) ^ 2) ss) <= size.
Proof.
  intros L c norm ss B B' k Hn HG (SB & RB & _) Hk r size.
  destruct (certify_col L norm ss k (col B k) (col B' k) r Hn) as [C1 C2].
  - intros s Hs. apply (HG s Hs).
  - intros i Hi. specialize (RB i k Hi Hk). rewrite Rsum_S in RB.
    etransitivity; [exact RB|]. change (entry (nth i (spec_HT L c ss) []) k) with (mR (spec_HT L c ss) i k). rewrite spec_HT_mk, mget_mk by auto. reflexivity.
  - intros i Hi. unfold r, gap, times. rewrite Rsum_S. change (entry (nth i (spec_HT L c ss) []) k) with (mR (spec_HT L c ss) i k).
    rewrite spec_HT_mk, mget_mk by auto. unfold col, mget, vget, entry. rring.
  - unfold size. rewrite !Rsum_S. split; [exact C1|].
    eapply Rle_trans; [|exact C2]. apply Req_le. f_equal. apply nsum_map_ext. intros s Hs. rewrite !predict1_dotS.
    destruct (HG s Hs) as [_ ->]. reflexivity.
Qed.

Lemma times_abs : forall L A A' X i k, Rabs (times L A' X i k - times L A X i k) <=
  Rsum (map (fun j => Rabs (entry (nth i A' []) j - entry (nth i A []) j) * Rabs (entry (nth j X []) k)) (seq 0 L)).
Proof.
  intros L A A' X i k. unfold times. induction (seq 0 L) as [|j l IH]; [cbn; rewrite Rminus_diag_eq, Rabs_R0 by reflexivity; lra|].
  cbn [map Rsum fold_right]. change (fold_right Rplus 0) with Rsum.
  replace (_ + _ - (_ + _)) with ((entry (nth i A' []) j - entry (nth i A []) j) * entry (nth j X []) k +
    (Rsum (map (fun j => entry (nth i A' []) j * entry (nth j X []) k) l) - Rsum (map (fun j => entry (nth i A []) j * entry (nth j X []) k) l))) by ring.
  eapply Rle_trans; [apply Rabs_triang|]. rewrite Rabs_mult. lra.
Qed.

(** the same when the matrices themselves are only approximately right *)
Theorem certify_approx : forall L c norm ss B B' k (HH HT : list (list R)), 0 < norm -> good L ss -> ridge_solution L c norm ss B -> (k < c)%nat ->
  let off i := Rabs (gap L HH B' HT i k) + Rabs (entry (nth i HT []) k - entry (nth i (spec_HT L c ss) []) k) +
    Rsum (map (fun j => Rabs (entry (nth i HH []) j - entry (nth i (spec_HH L norm ss) []) j) * Rabs (entry (nth j B' []) k)) (seq 0 L)) in
  norm ^ 2 * Rsum (map (fun i => (entry (nth i B' []) k - entry (nth i B []) k) ^ 2) (seq 0 L)) <=
  Rsum (map (fun i => off i ^ 2) (seq 0 L)).
Proof.
  intros L c norm ss B B' k HH HT Hn HG RS Hk off.
  destruct (certify L c norm ss B B' k Hn HG RS Hk) as [C _]. eapply Rle_trans; [exact C|].
  rewrite !Rsum_S. apply sum_le. intros i _. rewrite <- (Rabs_pos_eq (off i)).
  2:{ unfold off. pose proof (Rabs_pos (gap L HH B' HT i k)). pose proof (Rabs_pos (entry (nth i HT []) k - entry (nth i (spec_HT L c ss) []) k)).
      assert (0 <= Rsum (map (fun j => Rabs (entry (nth i HH []) j - entry (nth i (spec_HH L norm ss) []) j) * Rabs (entry (nth j B' []) k)) (seq 0 L))); [|lra].
      rewrite Rsum_S. apply sum_nonneg. intros. apply Rmult_le_pos; apply Rabs_pos. }
  apply pow_maj_Rabs. rewrite Rabs_Rabsolu || idtac.
  unfold off. rewrite (Rabs_pos_eq (_ + _)).
  2:{ pose proof (Rabs_pos (gap L HH B' HT i k)). pose proof (Rabs_pos (entry (nth i HT []) k - entry (nth i (spec_HT L c ss) []) k)).
      assert (0 <= Rsum (map (fun j => Rabs (entry (nth i HH []) j - entry (nth i (spec_HH L norm ss) []) j) * Rabs (entry (nth j B' []) k)) (seq 0 L))); [|lra].
      rewrite Rsum_S. apply sum_nonneg. intros. apply Rmult_le_pos; apply Rabs_pos. }
  pose proof (times_abs L (spec_HH L norm ss) HH B' i k) as TA.
  replace (gap L (spec_HH L norm ss) B' (spec_HT L c ss) i k) with
    (gap L HH B' HT i k - (entry (nth i HT []) k - entry (nth i (spec_HT L c ss) []) k) + (times L HH B' i k - times L (spec_HH L norm ss) B' i k))
    by (unfold gap; ring).
  eapply Rle_trans; [apply Rabs_triang|]. unfold Rminus at 1. pose proof (Rabs_triang (gap L HH B' HT i k) (- (entry (nth i HT []) k - entry (nth i (spec_HT L c ss) []) k))) as Q.
  rewrite Rabs_Ropp in Q. lra.
Qed.

(** for a trained model: any other weights B' for the same data *)
Theorem certify_trained {SG : Sing} {BR : Brent} {SH : Shuffle} : forall e X T e' B B' k, trained e X T e' ->
  s_B (e_net e') = Some B -> (k < s_outputs (e_net e))%nat ->
  let L := nneurons (s_neurons (e_net e)) in let norm := s_norm (e_net e) in let ss := Spec.plain (map (hidden e) X) T in
  let size := Rsum (map (fun i => gap L (spec_HH L norm ss) B' (spec_HT L (s_outputs (e_net e)) ss) i k ^ 2) (seq 0 L)) in
  norm ^ 2 * Rsum (map (fun i => (entry (nth i B' []) k - entry (nth i B []) k) ^ 2) (seq 0 L)) <= size /\
  4 * norm * Rsum (map (fun x => (predict1 B' (hidden e x) k - predict1 B (hidden e x) k) ^ 2) X) <= size.
Proof.
  intros e X T e' B B' k HTr EB Hk L norm ss size.
  destruct (trained_inv _ _ _ _ HTr) as (B0 & EB0 & _ & _ & _ & _ & _ & WX & HG & RS). rewrite EB in EB0. injection EB0 as <-.
  destruct (certify L (s_outputs (e_net e)) norm ss B B' k (tr_norm _ _ _ _ HTr) HG RS Hk) as [C1 C2]. fold size in C1, C2.
  split; [exact C1|]. eapply Rle_trans; [|exact C2]. apply Req_le. f_equal.
  destruct (tr_data _ _ _ _ HTr) as (_ & HL & _). unfold ss, Spec.plain. clear - HL.
  revert T HL. induction X as [|x X IH]; intros [|t T] HL; try discriminate; [reflexivity|].
  cbn [map map2 Rsum fold_right]. change (fold_right Rplus 0) with Rsum. rewrite (IH T) by (injection HL; auto). cbn [sm_w sm_h fst snd]. ring.
Qed.
End Real.

(** ** training in rounded arithmetic, from the data to the output weights *)
Section Rounded.
Context {K : Num} (RD : rounded K) {SG : Sing}.
Notation val := (r_val K RD).

(** the largest rounding error of an accumulated sum whose terms have the absolute sum A *)
Definition acc_err (N : nat) (A : R) : R := bnd RD (N + 1) A (2 * INR N).

Theorem rounded_training : forall e ps H, no_data (e_net e) -> is_wc e = false -> (0 < e_batch e)%Z -> ps <> [] ->
  (forall X T, In (X, T) ps -> X <> [] /\ length X = length T /\ wide (s_outputs (e_net e)) T) ->
  elm_project e (Arr2 (s_inputs (e_net e)) (rows_of ps)) = Ok H ->
  let L := getL (e_net e) in let c := s_outputs (e_net e) in let N := length H in let norm := val (s_norm (e_net e)) in
  let ss := Spec.plain (vals RD H) (vals RD (targets_of ps)) in let as_ := Spec.plain (mags RD H) (mags RD (targets_of ps)) in
  0 < norm -> Forall (fun h => length h = L) H ->
  exists e' HH HT, run_all (fun e p => add_data e (fst p) (snd p)) e ps = (e', Ok tt) /\
    get_corr (e_net e') = Ok (Some (HH, HT)) /\
    ((forall i j, (i < L)%nat -> (j < L)%nat -> r_fin K RD (mget HH i j)) ->
     (forall i k, (i < L)%nat -> (k < c)%nat -> r_fin K RD (mget HT i k)) ->
     forall B B' k, ridge_solution L c norm ss B -> (k < c)%nat ->
     let off i := Rabs (gap L (vals RD HH) B' (vals RD HT) i k) + acc_err N (entry (nth i (spec_HT L c as_) []) k) +
       Rsum (map (fun j => acc_err N (entry (nth i (spec_HH L norm as_) []) j) * Rabs (entry (nth j B' []) k)) (seq 0 L)) in
     norm ^ 2 * Rsum (map (fun i => (entry (nth i B' []) k - entry (nth i B []) k) ^ 2) (seq 0 L)) <=
     Rsum (map (fun i => off i ^ 2) (seq 0 L))).
Proof.
  intros e ps H Hf Hw Hb HN HP EH L c N norm ss as_ Hn HL.
  destruct (trained_rounding RD e ps H Hf Hw Hb HN HP EH) as (e' & HH & HT & E1 & E2 & R1 & R2).
  fold L c N norm ss as_ in R1, R2.
  exists e', HH, HT. split; [exact E1|]. split; [exact E2|]. intros F1 F2 B B' k RS Hk off.
  assert (good L ss) as HG.
  { intros s Hs. unfold ss, Spec.plain in Hs. rewrite map2_combine in Hs. apply in_map_iff in Hs as ([h t] & <- & Hs). apply in_combine_l in Hs.
    split; [apply Rle_0_1|]. cbn [sm_h fst snd]. unfold vals in Hs. apply in_map_iff in Hs as (h' & <- & Hs). rewrite map_length.
    rewrite Forall_forall in HL. now apply HL. }
  eapply Rle_trans; [exact (certify_approx L c norm ss B B' k (vals RD HH) (vals RD HT) Hn HG RS Hk)|]. cbv zeta.
  rewrite !Rsum_S. apply sum_le. intros i Hi.
  assert (forall M a b, entry (nth a (vals RD M) []) b = val (mget M a b)) as EV.
  { intros M a b. unfold vals, mget. rewrite <- entry_vals. f_equal. change [] with (map val []) at 1. apply map_nth. }
  assert (forall a b x y z, 0 <= a -> 0 <= x -> 0 <= b -> x <= y -> b <= z -> (a + x + b) ^ 2 <= (a + y + z) ^ 2) as PW.
  { intros. apply pow_incr. split; lra. }
  apply PW.
  - apply Rabs_pos.
  - apply Rabs_pos.
  - rewrite Rsum_S. apply sum_nonneg. intros. apply Rmult_le_pos; apply Rabs_pos.
  - rewrite EV. apply R2; auto.
  - rewrite !Rsum_S. apply sum_le. intros j Hj. apply Rmult_le_compat_r; [apply Rabs_pos|]. rewrite EV.
    specialize (R1 i j Hi Hj (F1 i j Hi Hj)). rewrite (Rabs_pos_eq norm) in R1 by lra. exact R1.
Qed.
End Rounded.
