(** * Rounding errors

    [rounded K]: the arithmetic K approximates the reals.  Every operation whose
    result is finite commits one relative error of at most [r_u] and one absolute
    error of at most [r_eta] (underflow).  Overflow is not excluded: it shows as a
    result that is not finite.  IEEE arithmetic is an instance ([rounded_F]), the
    reals are another ([rounded_R]). *)
From Coq Require Import ZArith Reals Lra Permutation SpecFloat.
From Verif Require Import Base Num Mat LinAlg Slfn Strs Elm MatFacts ElmFacts TrainThms SumOf Float Spec.
Local Open Scope R_scope.

Record rounded (K : Num) := mkRounded {
  r_val : num -> R; r_fin : num -> Prop; r_rep : num -> Prop;
  r_u : R; r_eta : R; r_int : Z;
  r_u_pos : 0 <= r_u; r_eta_pos : 0 <= r_eta;
  r_val0 : r_val n0 = 0;
  r_add : forall a b, r_fin (nadd a b) -> r_fin a /\ r_fin b /\
    Rabs (r_val (nadd a b) - (r_val a + r_val b)) <= r_u * Rabs (r_val a + r_val b) + r_eta;
  r_add0 : forall a b, r_fin (nadd a b) -> r_val a = 0 \/ r_val b = 0 -> r_val (nadd a b) = r_val a + r_val b;
  r_sub : forall a b, r_rep a -> r_rep b -> r_fin (nsub a b) -> r_fin a /\ r_fin b /\
    Rabs (r_val (nsub a b) - (r_val a - r_val b)) <= r_u * Rabs (r_val a - r_val b);
  r_mul : forall a b, r_fin (nmul a b) -> r_fin a /\ r_fin b /\
    Rabs (r_val (nmul a b) - r_val a * r_val b) <= r_u * Rabs (r_val a * r_val b) + r_eta;
  r_div : forall a b, r_fin (ndiv a b) -> r_fin b -> r_val b <> 0 -> r_fin a /\
    Rabs (r_val (ndiv a b) - r_val a / r_val b) <= r_u * Rabs (r_val a / r_val b) + r_eta;
  r_sqrt : forall a, r_fin (nsqrt a) -> 0 <= r_val a -> r_fin a /\
    Rabs (r_val (nsqrt a) - sqrt (r_val a)) <= r_u * sqrt (r_val a) + r_eta;
  r_nat : forall n, (Z.of_nat n < r_int)%Z -> r_fin (nof_nat n) /\ r_val (nof_nat n) = INR n }.

(** ** IEEE arithmetic of any precision; exp and tanh are left to the library *)
Definition NumF (prec emax : Z) (fexp ftanh : spec_float -> spec_float) : Num := {|
  num := spec_float; n0 := S754_zero false; n1 := binary_normalize prec emax 1 0 false;
  nadd := SFadd prec emax; nsub := SFsub prec emax; nmul := SFmul prec emax; ndiv := SFdiv prec emax;
  nopp := SFopp; nabs := SFabs; nexp := fexp; ntanh := ftanh; nsqrt := SFsqrt prec emax;
  nltb := SFltb; neqb := SFeqb |}.

Lemma NumF_nat : forall prec emax fe ft, (0 < prec < emax)%Z -> forall n, (Z.of_nat n < 2 ^ prec)%Z ->
  sf_fin (@nof_nat (NumF prec emax fe ft) n) /\ sf_val (@nof_nat (NumF prec emax fe ft) n) = INR n.
Proof.
  intros prec emax fe ft Hp.
  assert (1 < 2 ^ prec)%Z as H1 by (apply Z.pow_gt_1; lia).
  destruct (normalize_int prec emax ltac:(lia) 1 0 false 1 ltac:(lia) ltac:(lia) ltac:(rewrite p2_0; ring)) as [F1 V1].
  induction n as [|n IH]; intros Hn; [split; [exact I|reflexivity]|].
  destruct (IH ltac:(lia)) as [Fn Vn].
  change (@nof_nat (NumF prec emax fe ft) (S n)) with (SFadd prec emax (binary_normalize prec emax 1 0 false) (@nof_nat (NumF prec emax fe ft) n)).
  set (x := binary_normalize prec emax 1 0 false) in *. set (y := @nof_nat (NumF prec emax fe ft) n) in *. clearbody x y.
  rewrite S_INR. destruct x as [sx|sx| |sx mx ex]; try destruct F1; [cbn in V1; lra|].
  clear IH. cbn [num NumF] in y. destruct y as [sy|sy| |sy my ey]; try destruct Fn; cbn [SFadd].
  - split; [exact I|]. cbn [sf_val] in *. lra.
  - destruct (normalize_int prec emax ltac:(lia)
      (cond_Zopp sx (Z.pos (fst (shl_align mx ex (Z.min ex ey)))) + cond_Zopp sy (Z.pos (fst (shl_align my ey (Z.min ex ey)))))
      (Z.min ex ey) false (Z.of_nat (S n)) ltac:(lia) ltac:(lia)) as [F V].
    + rewrite plus_IZR, Rmult_plus_distr_r, !aligned by lia. cbn [sf_val] in V1, Vn. rewrite V1, Vn, INR_IZR_INZ, <- plus_IZR. f_equal. lia.
    + split; [exact F|]. rewrite V, <- INR_IZR_INZ. rewrite S_INR. reflexivity.
Qed.

Definition rounded_F (prec emax : Z) (fe ft : spec_float -> spec_float) (Hp : (0 < prec < emax)%Z) : rounded (NumF prec emax fe ft).
Proof.
  refine (mkRounded (NumF prec emax fe ft) sf_val sf_fin (sf_rep prec emax) (sf_u prec) (sf_eta prec emax) (2 ^ prec) _ _ _ _ _ _ _ _ _ _).
  - apply Rlt_le, sf_u_pos.
  - apply Rlt_le, sf_eta_pos.
  - reflexivity.
  - intros a b. apply sf_add_ok. lia.
  - intros [sa|sa| |sa ma ea] [sb|sb| |sb mb eb]; cbn [nadd NumF SFadd]; try (intros []; fail); intros HF H; cbn [sf_val] in *;
      try (match goal with |- context [Bool.eqb ?a ?b] => destruct (Bool.eqb a b) end; cbn [sf_val]); try ring.
    exfalso. assert (forall s m e, sf_sign s * (IZR (Z.pos m) * p2 e) <> 0) as HNZ; [|destruct H as [H|H]; exact (HNZ _ _ _ H)].
    intros s m e H0. assert (Rabs (sf_sign s * (IZR (Z.pos m) * p2 e)) = 0) as H' by (rewrite H0; apply Rabs_R0).
    pose proof (p2_pos e). assert (0 < IZR (Z.pos m)) by (apply IZR_lt; lia).
    rewrite Rabs_mult, sf_sign_abs, Rabs_right in H' by nra. nra.
  - intros a b. apply sf_sub_rep. lia.
  - intros a b. apply sf_mul_ok. lia.
  - intros a b HF Fb _. destruct (sf_div_ok prec emax ltac:(lia) a b HF Fb) as (Fa & _ & E). exact (conj Fa E).
  - intros a HF _. destruct (sf_sqrt_ok prec emax ltac:(lia) a HF) as (Fa & _ & E). exact (conj Fa E).
  - apply NumF_nat. exact Hp.
Defined.

(** binary64 and binary32 *)
Definition Num64 := NumF 53 1024.
Definition Num32 := NumF 24 128.
Definition rounded_64 fe ft : rounded (Num64 fe ft) := rounded_F 53 1024 fe ft (conj eq_refl eq_refl).
Definition rounded_32 fe ft : rounded (Num32 fe ft) := rounded_F 24 128 fe ft (conj eq_refl eq_refl).

Definition rounded_R (k : Z) : rounded NumR.
Proof.
  assert (forall x, Rabs (x - x) <= 0 * Rabs x + 0) as E1 by (intros x; rewrite Rminus_eq_0, Rabs_R0; lra).
  assert (forall x, Rabs (x - x) <= 0 * Rabs x) as E2 by (intros x; rewrite Rminus_eq_0, Rabs_R0; lra).
  refine (mkRounded NumR (fun x => x) (fun x => True) (fun _ => True) 0 0 k (Rle_refl 0) (Rle_refl 0) eq_refl _ _ _ _ _ _ _); cbn.
  - intros a b _. split; [exact I|]. split; [exact I|apply E1].
  - reflexivity.
  - intros a b _ _ _. split; [exact I|]. split; [exact I|apply E2].
  - intros a b _. split; [exact I|]. split; [exact I|apply E1].
  - intros a b _ _ _. split; [exact I|apply E1].
  - intros a _ _. split; [exact I|]. rewrite Rminus_eq_0, Rabs_R0. lra.
  - intros n _. split; [exact I|]. apply (nof_nat_INR n).
Defined.

Section Bounds.
Context {K : Num} (RD : rounded K).
Notation val := (r_val K RD).
Notation fin := (r_fin K RD).
Notation u := (r_u K RD).
Notation eta := (r_eta K RD).

(** k roundings of terms of total magnitude A, m of them may underflow *)
Definition bnd (k : nat) (A m : R) : R := ((1 + u) ^ k - 1) * A + (1 + u) ^ k * m * eta.

Lemma u1 : 1 <= 1 + u. Proof. pose proof (r_u_pos K RD). lra. Qed.
Lemma pow_u1 : forall k, 1 <= (1 + u) ^ k. Proof. intros. apply pow_R1_Rle, u1. Qed.
Lemma pow_mono : forall k k', (k <= k')%nat -> (1 + u) ^ k <= (1 + u) ^ k'.
Proof. intros. apply Rle_pow; [apply u1|auto]. Qed.
Lemma bnd_mono : forall k k' A A' m m', (k <= k')%nat -> 0 <= A <= A' -> 0 <= m <= m' -> bnd k A m <= bnd k' A' m'.
Proof.
  intros k k' A A' m m' Hk HA Hm. unfold bnd. pose proof (pow_mono k k' Hk) as P. pose proof (pow_u1 k) as P1. pose proof (r_eta_pos K RD) as E.
  assert (((1 + u) ^ k - 1) * A <= ((1 + u) ^ k' - 1) * A') by (apply Rmult_le_compat; lra).
  assert ((1 + u) ^ k * m <= (1 + u) ^ k' * m') by (apply Rmult_le_compat; lra).
  assert ((1 + u) ^ k * m * eta <= (1 + u) ^ k' * m' * eta) by (apply Rmult_le_compat_r; auto). lra.
Qed.
Lemma bnd_pos : forall k A m, 0 <= A -> 0 <= m -> 0 <= bnd k A m.
Proof.
  intros k A m HA Hm. unfold bnd. pose proof (pow_u1 k). pose proof (r_eta_pos K RD).
  assert (0 <= ((1 + u) ^ k - 1) * A) by (apply Rmult_le_pos; lra).
  assert (0 <= (1 + u) ^ k * m * eta) by (apply Rmult_le_pos; [apply Rmult_le_pos; lra|auto]). lra.
Qed.

Lemma bnd_step : forall k e A m z x s, 0 <= m -> 0 <= A -> Rabs s <= A -> Rabs (x - s) <= e -> e <= bnd k A m ->
  Rabs (z - x) <= u * Rabs x + eta -> Rabs (z - s) <= bnd (S k) A (m + 1).
Proof.
  intros k e A m z x s Hm HA Hs He Hb Hz. pose proof (r_u_pos K RD) as U. pose proof (r_eta_pos K RD) as E.
  assert (Rabs (z - s) <= (1 + u) * e + u * A + eta) as H1.
  { replace (z - s) with ((z - x) + (x - s)) by ring. pose proof (Rabs_triang (z - x) (x - s)).
    assert (Rabs x <= e + A) by (replace x with ((x - s) + s) by ring; pose proof (Rabs_triang (x - s) s); lra).
    assert (u * Rabs x <= u * (e + A)) by (apply Rmult_le_compat_l; auto). lra. }
  apply Rle_trans with (1 := H1). pose proof (pow_u1 (S k)) as P.
  assert ((1 + u) * e <= (1 + u) * bnd k A m) by (apply Rmult_le_compat_l; lra).
  assert ((1 + u) * bnd k A m + u * A + eta <= bnd (S k) A (m + 1)); [|lra].
  unfold bnd. cbn [pow]. cbn [pow] in P.
  replace ((1 + u) * (((1 + u) ^ k - 1) * A + (1 + u) ^ k * m * eta) + u * A + eta)
    with (((1 + u) * (1 + u) ^ k - 1) * A + (1 + u) * (1 + u) ^ k * m * eta + 1 * eta) by ring.
  replace ((1 + u) * (1 + u) ^ k * (m + 1) * eta) with ((1 + u) * (1 + u) ^ k * m * eta + (1 + u) * (1 + u) ^ k * eta) by ring.
  assert (1 * eta <= (1 + u) * (1 + u) ^ k * eta) by (apply Rmult_le_compat_r; auto). lra.
Qed.

Lemma Rsum_perm : forall l l', Permutation l l' -> Rsum l = Rsum l'.
Proof. induction 1 as [|x l l1 H IH|x y l|l l1 l2 H1 IH1 H2 IH2]; [reflexivity|cbn; unfold Rsum in IH; rewrite IH; reflexivity|cbn; lra|congruence]. Qed.
Lemma Rsum_app : forall l l', Rsum (l ++ l') = Rsum l + Rsum l'.
Proof.
  induction l as [|x l IH]; intros l'; [cbn [app]; change (Rsum []) with 0; lra|].
  change (Rsum ((x :: l) ++ l')) with (x + Rsum (l ++ l')). change (Rsum (x :: l)) with (x + Rsum l). rewrite IH. lra.
Qed.
Lemma Rsum_abs : forall {I} (s A : I -> R) l, (forall i, In i l -> Rabs (s i) <= A i) -> Rabs (Rsum (map s l)) <= Rsum (map A l).
Proof.
  induction l as [|i l IH]; intros H; cbn; [rewrite Rabs_R0; lra|].
  apply Rle_trans with (1 := Rabs_triang _ _). apply Rplus_le_compat; [apply H; left; reflexivity|apply IH; intros j Hj; apply H; right; exact Hj].
Qed.
Lemma Rsum_nonneg : forall {I} (s : I -> R) l, (forall i, In i l -> 0 <= s i) -> 0 <= Rsum (map s l).
Proof.
  induction l as [|i l IH]; intros H; cbn; [lra|]. assert (0 <= s i) by (apply H; left; reflexivity).
  assert (0 <= Rsum (map s l)) by (apply IH; intros j Hj; apply H; right; exact Hj). unfold Rsum in *. lra.
Qed.

(** A sum in any order: one rounding per addition of two non-empty sums *)
Theorem sum_of_bound : forall {I} (f : I -> num) (s A m : I -> R) k l x,
  (forall i, In i l -> Rabs (s i) <= A i /\ 0 <= m i) ->
  (forall i, In i l -> fin (f i) -> Rabs (val (f i) - s i) <= bnd k (A i) (m i)) ->
  sum_of f l x -> fin x ->
  (forall i, In i l -> fin (f i)) /\
  Rabs (val x - Rsum (map s l)) <= bnd (k + pred (length l)) (Rsum (map A l)) (Rsum (map m l) + INR (pred (length l))).
Proof.
  intros I f s A m k l x HA HT HS. revert HA HT. induction HS as [|i|l1 l2 l a b H1 IH1 H2 IH2 HP]; intros HA HT HF.
  - split; [intros i []|]. cbn. rewrite (r_val0 K RD). replace (0 - 0) with 0 by ring. rewrite Rabs_R0. apply bnd_pos; lra.
  - split; [intros j [<-|[]]; exact HF|]. cbn. rewrite !Rplus_0_r, Nat.add_0_r. apply HT; [left; reflexivity|exact HF].
  - destruct (r_add K RD a b HF) as (Fa & Fb & HE).
    assert (forall i, In i l1 -> In i l) as I1 by (intros i Hi; apply (Permutation_in _ (Permutation_sym HP)), in_or_app; left; exact Hi).
    assert (forall i, In i l2 -> In i l) as I2 by (intros i Hi; apply (Permutation_in _ (Permutation_sym HP)), in_or_app; right; exact Hi).
    destruct (IH1 (fun i Hi => HA i (I1 i Hi)) (fun i Hi => HT i (I1 i Hi)) Fa) as [G1 B1].
    destruct (IH2 (fun i Hi => HA i (I2 i Hi)) (fun i Hi => HT i (I2 i Hi)) Fb) as [G2 B2].
    split. { intros i Hi. apply (Permutation_in _ HP) in Hi. apply in_app_or in Hi. destruct Hi; auto. }
    assert (forall g : I -> R, Rsum (map g l) = Rsum (map g l1) + Rsum (map g l2)) as ES.
    { intros g. rewrite <- Rsum_app, <- map_app. apply Rsum_perm, Permutation_map, HP. }
    rewrite !ES. rewrite (Permutation_length HP), app_length.
    assert (forall l', (forall i, In i l' -> In i l) -> Rabs (Rsum (map s l')) <= Rsum (map A l')) as AB by (intros l' Hl; apply Rsum_abs; intros i Hi; apply HA, Hl, Hi).
    assert (forall l', (forall i, In i l' -> In i l) -> 0 <= Rsum (map m l')) as MP by (intros l' Hl; apply Rsum_nonneg; intros i Hi; apply HA, Hl, Hi).
    pose proof (AB l1 I1) as A1. pose proof (AB l2 I2) as A2. pose proof (MP l1 I1) as M1. pose proof (MP l2 I2) as M2.
    pose proof (Rabs_pos (Rsum (map s l1))). pose proof (Rabs_pos (Rsum (map s l2))).
    destruct l1 as [|i1 r1]; [|destruct l2 as [|i2 r2]].
    + (* a is a sum of nothing: it is zero *)
      assert (val a = 0) as Za.
      { cbn in B1. unfold bnd in B1. rewrite !Rplus_0_r, !Rmult_0_r, Rmult_0_l, Rplus_0_r, Rminus_0_r in B1.
        destruct (Req_dec (val a) 0) as [Z|Z]; [exact Z|]. pose proof (Rabs_pos_lt _ Z). lra. }
      rewrite (r_add0 K RD a b HF (or_introl Za)), Za. cbn [map Rsum fold_right length Nat.add]. rewrite !Rplus_0_l. exact B2.
    + assert (val b = 0) as Zb.
      { cbn in B2. unfold bnd in B2. rewrite !Rplus_0_r, !Rmult_0_r, Rmult_0_l, Rplus_0_r, Rminus_0_r in B2.
        destruct (Req_dec (val b) 0) as [Z|Z]; [exact Z|]. pose proof (Rabs_pos_lt _ Z). lra. }
      rewrite (r_add0 K RD a b HF (or_intror Zb)), Zb. rewrite Nat.add_0_r. change (map ?g []) with (@nil R). change (Rsum []) with 0. rewrite !Rplus_0_r. exact B1.
    + set (p1 := pred (length (i1 :: r1))) in *. set (p2 := pred (length (i2 :: r2))) in *.
      replace (pred (length (i1 :: r1) + length (i2 :: r2))) with (S (p1 + p2)) by (subst p1 p2; cbn; lia).
      set (s1 := Rsum (map s (i1 :: r1))) in *. set (s2 := Rsum (map s (i2 :: r2))) in *.
      set (a1 := Rsum (map A (i1 :: r1))) in *. set (a2 := Rsum (map A (i2 :: r2))) in *.
      set (m1 := Rsum (map m (i1 :: r1))) in *. set (m2 := Rsum (map m (i2 :: r2))) in *.
      pose proof (pos_INR p1) as N1. pose proof (pos_INR p2) as N2.
      rewrite Nat.add_succ_r, S_INR, plus_INR, <- Rplus_assoc.
      apply bnd_step with (e := bnd (k + p1) a1 (m1 + INR p1) + bnd (k + p2) a2 (m2 + INR p2)) (x := val a + val b); try lra.
      * pose proof (Rabs_triang s1 s2). lra.
      * replace (val a + val b - (s1 + s2)) with ((val a - s1) + (val b - s2)) by ring. pose proof (Rabs_triang (val a - s1) (val b - s2)). lra.
      * apply Rle_trans with (bnd (k + (p1 + p2)) a1 (m1 + INR p1) + bnd (k + (p1 + p2)) a2 (m2 + INR p2)).
        { apply Rplus_le_compat; apply bnd_mono; try lra; lia. }
        unfold bnd. right. ring.
Qed.

(** ** Products *)
Lemma mul_bound : forall a b, fin (nmul a b) -> Rabs (val (nmul a b) - val a * val b) <= bnd 1 (Rabs (val a) * Rabs (val b)) 1.
Proof.
  intros a b HF. destruct (r_mul K RD a b HF) as (_ & _ & H). unfold bnd. rewrite <- Rabs_mult, pow_1.
  apply Rle_trans with (1 := H). replace (1 + u - 1) with u by ring. pose proof (r_eta_pos K RD). pose proof (r_u_pos K RD).
  assert (0 <= u * eta) by (apply Rmult_le_pos; auto). nra.
Qed.

(** the values, and their magnitudes *)
Definition vals (M : mat) : list (list R) := map (map val) M.
Definition mags (M : mat) : list (list R) := map (map (fun x => Rabs (val x))) M.

Lemma entry_vals : forall h i, entry (map val h) i = val (vget h i).
Proof.
  intros h i. unfold entry, vget. destruct (Nat.lt_ge_cases i (length h)) as [L|G].
  - rewrite (nth_map_lt val h i n0 0 L). reflexivity.
  - rewrite !nth_overflow by (rewrite ?map_length; auto). symmetry. apply (r_val0 K RD).
Qed.
Lemma entry_mags : forall h i, entry (map (fun x => Rabs (val x)) h) i = Rabs (val (vget h i)).
Proof.
  intros h i. unfold entry, vget. destruct (Nat.lt_ge_cases i (length h)) as [L|G].
  - rewrite (nth_map_lt (fun x => Rabs (val x)) h i n0 0 L). reflexivity.
  - rewrite !nth_overflow by (rewrite ?map_length; auto). rewrite (r_val0 K RD), Rabs_R0. reflexivity.
Qed.
End Bounds.
