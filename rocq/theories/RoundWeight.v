(** * Rounding errors of weighted training *)
From Coq Require Import ZArith Reals Lra Permutation Floats.SpecFloat.
From Verif Require Import Base Num Mat LinAlg Slfn Strs Elm Hpelm MatFacts SplitProofs ElmFacts TrainThms RangeThms ErrThms SumOf Float Rounding RoundThms WeightSums Spec.
Local Open Scope R_scope.

Section Thms.
Context {K : Num} (RD : rounded K).
Notation val := (r_val K RD).
Notation fin := (r_fin K RD).
Notation u := (r_u K RD).
Notation eta := (r_eta K RD).
Notation bnd := (bnd RD).
Notation vals := (vals RD).
Notation mags := (mags RD).

(** one product with the square root of a weight *)
Theorem root_rounding : forall a w, fin (nmul a (nsqrt w)) -> 0 <= val w ->
  Rabs (val (nmul a (nsqrt w)) - val a * sqrt (val w)) <=
  ((1 + u) ^ 2 - 1) * (Rabs (val a) * sqrt (val w)) + ((1 + u) * Rabs (val a) + 1) * eta.
Proof.
  intros a w HF Hw. destruct (r_mul K RD a (nsqrt w) HF) as (_ & Fs & E1). destruct (r_sqrt K RD w Fs Hw) as (_ & E2).
  pose proof (sqrt_pos (val w)) as Hs. pose proof (r_u_pos K RD) as Hu. pose proof (r_eta_pos K RD) as He.
  set (s := sqrt (val w)) in *. set (s' := val (nsqrt w)) in *. set (x := val a) in *. set (p := val (nmul a (nsqrt w))) in *. clearbody s s' x p.
  assert (Rabs (x * s' - x * s) <= Rabs x * (u * s + eta)) as E3.
  { replace (x * s' - x * s) with (x * (s' - s)) by ring. rewrite Rabs_mult. apply Rmult_le_compat_l; [apply Rabs_pos|exact E2]. }
  assert (Rabs (x * s') <= Rabs x * s + Rabs x * (u * s + eta)) as E4.
  { replace (x * s') with (x * s + (x * s' - x * s)) by ring. apply Rle_trans with (1 := Rabs_triang _ _).
    rewrite (Rabs_mult x s), (Rabs_right s) by lra. lra. }
  replace (p - x * s) with ((p - x * s') + (x * s' - x * s)) by ring. apply Rle_trans with (1 := Rabs_triang _ _).
  assert (u * Rabs (x * s') <= u * (Rabs x * s + Rabs x * (u * s + eta))) as E5 by (apply Rmult_le_compat_l; assumption).
  apply Rle_trans with (u * (Rabs x * s + Rabs x * (u * s + eta)) + eta + Rabs x * (u * s + eta)); [lra|]. right. ring.
Qed.

Theorem weighted_rounding : forall {SG : Sing} e ps H wc (g : list num -> num), no_data (e_net e) -> is_wc e = true -> (0 < e_batch e)%Z -> ps <> [] ->
  (forall X T, In (X, T) ps -> X <> [] /\ length X = length T /\ wide (s_outputs (e_net e)) T) ->
  weights_for e (snd (hd ([], []) ps)) wc -> (forall t, In t (targets_of ps) -> weighs wc g t) ->
  elm_project e (Arr2 (s_inputs (e_net e)) (rows_of ps)) = Ok H ->
  let L := getL (e_net e) in let c := s_outputs (e_net e) in let N := length H in let norm := val (s_norm (e_net e)) in
  let wH := scaled_rows g H (targets_of ps) in let wT := scaled_targets g (targets_of ps) in
  exists e' HH HT, run_all (fun e p => add_data e (fst p) (snd p)) e ps = (e', Ok tt) /\
    get_corr (e_net e') = Ok (Some (HH, HT)) /\
    (forall i j, (i < L)%nat -> (j < L)%nat -> fin (mget HH i j) ->
       Rabs (val (mget HH i j) - entry (nth i (spec_HH L norm (Spec.plain (vals wH) (vals wT))) []) j) <=
       bnd (N + 1) (entry (nth i (spec_HH L (Rabs norm) (Spec.plain (mags wH) (mags wT))) []) j) (2 * INR N)) /\
    (forall i k, (i < L)%nat -> (k < c)%nat -> fin (mget HT i k) ->
       Rabs (val (mget HT i k) - entry (nth i (spec_HT L c (Spec.plain (vals wH) (vals wT))) []) k) <=
       bnd (N + 1) (entry (nth i (spec_HT L c (Spec.plain (mags wH) (mags wT))) []) k) (2 * INR N)).
Proof.
  intros SG e ps H wc g Hf Hw Hb HN HP HW HG EH L c N norm wH wT.
  destruct (weighted_sums e ps H wc g Hf Hw Hb HN HP HW HG EH) as (e' & HH & HT & E1 & E2 & M1 & M2 & LL & S1 & S2).
  fold wH in S1, S2. fold wT in S2.
  assert (length wH = N) as EN by (subst wH; rewrite scaled_rows_length by exact LL; symmetry; exact LL).
  assert (length wH = length wT) as LW by (rewrite EN; subst wT N; unfold scaled_targets; rewrite map_length; exact LL).
  exists e', HH, HT. split; [exact E1|]. split; [exact E2|]. rewrite <- EN. split.
  - intros i j Hi Hj HF. destruct (S1 i j Hi Hj) as [S|S].
    + apply (HH_bound RD _ i j wH wT _ L Hi Hj LW S HF).
    + assert (HH_index j i wH = HH_index i j wH) as EI by (unfold HH_index; rewrite Nat.eqb_sym; reflexivity).
      rewrite <- EI in S. pose proof (HH_bound RD _ j i wH wT _ L Hj Hi LW S HF) as B.
      rewrite !(HH_swap _ L _ i j Hi Hj) in B. exact B.
  - intros i k Hi Hk HF. apply (HT_bound RD i k wH wT _ L c Hi Hk LW (S2 i k Hi Hk) HF).
Qed.
End Thms.
