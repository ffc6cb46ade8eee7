(** * Conversion between floating point formats (numpy's astype)

    [cast prec emax x] is the float of the format (prec, emax) nearest to [x],
    ties to even, as IEEE 754 and numpy's [astype] define it. *)
From Coq Require Import ZArith Reals Lra Lia SpecFloat Bool.
From Verif Require Import Float.
Local Open Scope R_scope.

Definition cast (prec emax : Z) (x : spec_float) : spec_float :=
  match x with S754_finite s m e => binary_round prec emax s m e | _ => x end.

Lemma digits_val : forall m e m' e', IZR (Z.pos m) * p2 e = IZR (Z.pos m') * p2 e' ->
  (Z.pos (digits2_pos m) + e = Z.pos (digits2_pos m') + e')%Z.
Proof.
  assert (forall m e m' e', IZR (Z.pos m) * p2 e = IZR (Z.pos m') * p2 e' -> (Z.pos (digits2_pos m) + e <= Z.pos (digits2_pos m') + e')%Z) as H.
  { intros m e m' e' E. destruct (Z_le_gt_dec (Z.pos (digits2_pos m) + e) (Z.pos (digits2_pos m') + e')) as [L|G]; [exact L|exfalso].
    destruct (digits_bounds m) as [B _]. destruct (digits_bounds m') as [_ B']. apply IZR_le in B. apply IZR_lt in B'.
    rewrite <- p2_pow in B by lia. rewrite <- p2_pow in B' by lia. pose proof (p2_pos e). pose proof (p2_pos e').
    assert (p2 (Z.pos (digits2_pos m) - 1 + e) <= IZR (Z.pos m) * p2 e) as U by (rewrite p2_add; nra).
    assert (IZR (Z.pos m') * p2 e' < p2 (Z.pos (digits2_pos m') + e')) as U' by (rewrite p2_add; nra).
    pose proof (p2_le (Z.pos (digits2_pos m') + e') (Z.pos (digits2_pos m) - 1 + e) ltac:(lia)). lra. }
  intros m e m' e' E. pose proof (H _ _ _ _ E). pose proof (H _ _ _ _ (eq_sym E)). lia.
Qed.

Section Format.
Context (prec emax : Z) (Hp : (0 < prec)%Z).
Notation fexp := (fexp prec emax).
Notation emin := (SpecFloat.emin prec emax).

Lemma bounded_inv : forall m e, bounded prec emax m e = true -> (fexp (Z.pos (digits2_pos m) + e) = e)%Z /\ (e <= emax - prec)%Z.
Proof.
  intros m e H. unfold bounded in H. apply andb_true_iff in H as [H1 H2]. unfold canonical_mantissa in H1.
  apply Zeq_bool_eq in H1. apply Z.leb_le in H2. auto.
Qed.
Lemma bounded_iff : forall m e, (fexp (Z.pos (digits2_pos m) + e) = e)%Z -> (e <= emax - prec)%Z -> bounded prec emax m e = true.
Proof.
  intros m e H1 H2. unfold bounded, canonical_mantissa. apply andb_true_iff. split; [now apply Zeq_is_eq_bool|now apply Z.leb_le].
Qed.

(** a value that the format has is not changed *)
Lemma round_exact : forall sx mz ez my ey, IZR (Z.pos mz) * p2 ez = IZR (Z.pos my) * p2 ey -> (ez <= ey)%Z ->
  bounded prec emax my ey = true -> binary_round_aux prec emax sx (Z.pos mz) ez loc_Exact = S754_finite sx my ey.
Proof.
  intros sx mz ez my ey E L HB. apply bounded_inv in HB as [HC HE]. pose proof (digits_val _ _ _ _ E) as HD.
  unfold binary_round_aux. unfold shr_fexp at 1. cbn [Zdigits2]. rewrite HD, HC.
  assert (inv (shr_record_of_loc (Z.pos mz) loc_Exact) (IZR (Z.pos my) * p2 ey / p2 ez)) as HI.
  { apply exact_inv; [lia|symmetry; exact E]. }
  destruct (shr_inv _ ez (ey - ez) _ HI) as [I1 E1]. destruct (shr (shr_record_of_loc (Z.pos mz) loc_Exact) ez (ey - ez)) as [s1 e1]. cbn [fst snd] in *.
  assert (e1 = ey) as -> by lia. pose proof (p2_pos ey).
  replace (IZR (Z.pos my) * p2 ey / p2 ey) with (IZR (Z.pos my)) in I1 by (field; lra).
  pose proof (inv_integer _ _ I1) as EM. destruct (round_inv _ _ I1) as (_ & _ & RX). cbv zeta in RX. rewrite RX by (now rewrite EM).
  rewrite EM. unfold shr_fexp. cbn [Zdigits2]. rewrite HC, Z.sub_diag. cbn [shr shr_record_of_loc shr_m].
  now rewrite (proj2 (Z.leb_le _ _) HE).
Qed.

Theorem cast_exact : forall s m e my ey, IZR (Z.pos m) * p2 e = IZR (Z.pos my) * p2 ey -> bounded prec emax my ey = true ->
  cast prec emax (S754_finite s m e) = S754_finite s my ey.
Proof.
  intros s m e my ey E HB. cbn [cast]. unfold binary_round.
  pose proof (shl_align_val m e (fexp (Z.pos (digits2_pos m) + e))) as HV.
  pose proof (digits_val _ _ _ _ E) as HD. destruct (bounded_inv _ _ HB) as [HC _]. rewrite HD, HC in *.
  assert (snd (shl_align m e ey) <= ey)%Z as HS.
  { unfold shl_align. destruct (ey - e)%Z eqn:ED; cbn [snd]; lia. }
  destruct (shl_align m e ey) as [mz ez]. cbn [fst snd] in *. apply round_exact; auto. congruence.
Qed.

Theorem cast_valid : forall x, valid_binary prec emax x = true -> cast prec emax x = x.
Proof. intros [s|s| |s m e] H; try reflexivity. now apply cast_exact. Qed.

(** otherwise one rounding *)
Theorem cast_ok : forall x, sf_fin (cast prec emax x) -> sf_fin x /\
  Rabs (sf_val (cast prec emax x) - sf_val x) <= sf_u prec * Rabs (sf_val x) + sf_eta prec emax.
Proof.
  intros [s|s| |s m e] HF; try destruct HF.
  - split; [exact I|]. cbn [cast sf_val]. apply sf_exact; auto.
  - split; [exact I|]. destruct s.
    + pose proof (normalize_ok prec emax Hp (Z.neg m) e false HF) as H. cbn [binary_normalize] in H.
      cbn [cast sf_val]. change (Z.neg m) with (- Z.pos m)%Z in H. rewrite opp_IZR in H. unfold sf_sign.
      replace (-1 * (IZR (Z.pos m) * p2 e)) with (- IZR (Z.pos m) * p2 e) by ring. exact H.
    + pose proof (normalize_ok prec emax Hp (Z.pos m) e false HF) as H. cbn [binary_normalize] in H.
      cbn [cast sf_val]. unfold sf_sign. rewrite Rmult_1_l. exact H.
Qed.

(** the result belongs to the format *)
Lemma round_aux_valid : forall sx mz ez, (ez <= fexp (Z.pos (digits2_pos mz) + ez))%Z ->
  valid_binary prec emax (binary_round_aux prec emax sx (Z.pos mz) ez loc_Exact) = true.
Proof.
  intros sx mz ez HL. unfold binary_round_aux. unfold shr_fexp at 1. cbn [Zdigits2].
  set (d := (Z.pos (digits2_pos mz) + ez)%Z) in *.
  set (x := IZR (Z.pos mz) * p2 ez).
  assert (inv (shr_record_of_loc (Z.pos mz) loc_Exact) (x / p2 ez)) as HI by (apply exact_inv; [lia|reflexivity]).
  destruct (shr_inv _ ez (fexp d - ez) _ HI) as [I1 E1]. destruct (shr (shr_record_of_loc (Z.pos mz) loc_Exact) ez (fexp d - ez)) as [s1 e1]. cbn [fst snd] in *.
  assert (e1 = fexp d) as -> by lia.
  destruct (round_inv _ _ I1) as (_ & RM & _). cbv zeta in RM. set (M := round_nearest_even (shr_m s1) (loc_of_shr_record s1)) in *.
  pose proof (inv_range _ _ I1) as [R1 R2]. pose proof (p2_pos (fexp d)) as P1. pose proof (p2_pos ez) as P2.
  destruct (digits_bounds mz) as [B1 B2]. apply IZR_le in B1. apply IZR_lt in B2. rewrite <- p2_pow in B1 by lia. rewrite <- p2_pow in B2 by lia.
  assert (p2 (d - 1) <= x < p2 d) as [X1 X2].
  { unfold x, d. replace (Z.pos (digits2_pos mz) + ez - 1)%Z with (Z.pos (digits2_pos mz) - 1 + ez)%Z by lia. rewrite !p2_add. split; [nra|nra]. }
  assert (x = x / p2 (fexp d) * p2 (fexp d)) as EX by (field; lra).
  assert (0 <= shr_m s1)%Z as Hs1 by apply I1.
  assert (shr_m s1 < 2 ^ prec)%Z as HS.
  { apply lt_IZR. rewrite <- p2_pow by lia. apply Rle_lt_trans with (1 := R1). apply Rmult_lt_reg_r with (p2 (fexp d)); [exact P1|].
    rewrite <- EX, <- p2_add. apply Rlt_le_trans with (1 := X2), p2_le. unfold SpecFloat.fexp. lia. }
  assert ((emin <= d - prec)%Z -> (2 ^ (prec - 1) <= shr_m s1)%Z) as HG.
  { intros Hd. assert (2 ^ (prec - 1) < shr_m s1 + 1)%Z; [|lia]. apply lt_IZR. rewrite <- p2_pow by lia. rewrite plus_IZR.
    apply Rle_lt_trans with (2 := R2). apply Rmult_le_reg_r with (p2 (fexp d)); [exact P1|].
    rewrite <- EX, <- p2_add. apply Rle_trans with (2 := X1), p2_le. unfold SpecFloat.fexp. lia. }
  assert (0 <= M <= 2 ^ prec)%Z as HM by lia.
  assert ((emin <= d - prec)%Z -> (2 ^ (prec - 1) <= M)%Z) as HGM by (intros Hd; specialize (HG Hd); lia).
  clearbody M. clear I1 R1 R2 RM HG HS Hs1 s1.
  unfold shr_fexp. destruct M as [|M|M]; [| |lia].
  - cbn [Zdigits2 shr_record_of_loc].
    assert (forall n e, shr_m (fst (shr (Build_shr_record 0 false false) e n)) = 0%Z) as HZ.
    { intros n e. destruct (shr_inv (Build_shr_record 0 false false) e n 0) as [[A B] _]; [split; [cbn; lia|cbn; unfold Rdiv; now rewrite Rmult_0_l]|].
      assert (inv (fst (shr (Build_shr_record 0 false false) e n)) (IZR 0)) as I0.
      { replace (IZR 0) with (0 / p2 (snd (shr (Build_shr_record 0 false false) e n))) by (unfold Rdiv; now rewrite Rmult_0_l). split; assumption. }
      exact (inv_integer _ _ I0). }
    specialize (HZ (fexp (0 + fexp d) - fexp d)%Z (fexp d)). change (loc_of_shr_record) with loc_of_shr_record.
    destruct (shr _ (fexp d) _) as [s2 e2]. cbn [fst] in HZ. rewrite HZ. reflexivity.
  - cbn [Zdigits2].
    assert (fexp (Z.pos (digits2_pos M) + fexp d) = fexp d \/ (Z.pos M = 2 ^ prec /\ fexp (Z.pos (digits2_pos M) + fexp d) = fexp d + 1))%Z as HC.
    { destruct (Z.eq_dec (Z.pos M) (2 ^ prec)) as [EQ|NE].
      - right. split; [exact EQ|]. assert (Z.pos (digits2_pos M) = prec + 1)%Z as ->.
        { pose proof (digits_bounds M) as [D1 D2]. rewrite EQ in D1, D2.
          apply Z.pow_le_mono_r_iff in D1; try lia. apply Z.pow_lt_mono_r_iff in D2; lia. }
        unfold SpecFloat.fexp. lia.
      - left. assert (Z.pos (digits2_pos M) <= prec)%Z as D by (apply digits_le; lia).
        destruct (Z_le_gt_dec emin (d - prec)) as [L|G].
        + assert (Z.pos (digits2_pos M) = prec)%Z as ->.
          { pose proof (digits_bounds M) as [D1 D2]. specialize (HGM L). assert (2 ^ (prec - 1) < 2 ^ Z.pos (digits2_pos M))%Z as D3 by lia.
            apply Z.pow_lt_mono_r_iff in D3; lia. }
          unfold SpecFloat.fexp. lia.
        + unfold SpecFloat.fexp. lia. }
    destruct HC as [HC|[EQ HC]].
    + rewrite HC, Z.sub_diag. cbn [shr shr_record_of_loc shr_m].
      destruct (Z.leb_spec (fexp d) (emax - prec)) as [L|G]; [|reflexivity]. cbn [valid_binary]. apply bounded_iff; assumption.
    + rewrite HC. replace (fexp d + 1 - fexp d)%Z with 1%Z by lia.
      assert (inv (shr_record_of_loc (Z.pos M) loc_Exact) (IZR (Z.pos M) * p2 (fexp d) / p2 (fexp d))) as HI2 by (apply exact_inv; [lia|reflexivity]).
      destruct (shr_inv _ (fexp d) 1 _ HI2) as [I2 E2]. destruct (shr (shr_record_of_loc (Z.pos M) loc_Exact) (fexp d) 1) as [s2 e2]. cbn [fst snd] in *.
      assert (e2 = fexp d + 1)%Z as -> by lia.
      assert (2 ^ prec = 2 * 2 ^ (prec - 1))%Z as EP by (rewrite <- Z.pow_succ_r by lia; f_equal; lia).
      replace (IZR (Z.pos M) * p2 (fexp d) / p2 (fexp d + 1)) with (IZR (2 ^ (prec - 1))) in I2.
      2:{ rewrite p2_add, p2_1, EQ, EP, mult_IZR. field. lra. }
      pose proof (inv_integer _ _ I2) as EM. destruct (shr_m s2) as [|m|m]; [reflexivity| |].
      * destruct (Z.leb_spec (fexp d + 1) (emax - prec)) as [L|G]; [|reflexivity]. cbn [valid_binary]. apply bounded_iff; [|exact L].
        assert (Z.pos (digits2_pos m) = prec)%Z as ->.
        { pose proof (digits_bounds m) as [D1 D2]. rewrite EM in D1, D2. apply Z.pow_le_mono_r_iff in D1; try lia. apply Z.pow_lt_mono_r_iff in D2; lia. }
        unfold SpecFloat.fexp. lia.
      * exfalso. assert (0 < 2 ^ (prec - 1))%Z by (apply Z.pow_pos_nonneg; lia). lia.
Qed.

Theorem cast_in_format : forall x, valid_binary prec emax (cast prec emax x) = true.
Proof.
  intros [s|s| |s m e]; try reflexivity. cbn [cast]. unfold binary_round.
  assert (snd (shl_align m e (fexp (Z.pos (digits2_pos m) + e))) <= fexp (Z.pos (digits2_pos m) + e))%Z as HS.
  { unfold shl_align. destruct (fexp (Z.pos (digits2_pos m) + e) - e)%Z eqn:ED; cbn [snd]; lia. }
  pose proof (shl_align_val m e (fexp (Z.pos (digits2_pos m) + e))) as HV. apply digits_val in HV.
  destruct (shl_align m e (fexp (Z.pos (digits2_pos m) + e))) as [mz ez]. cbn [fst snd] in *. apply round_aux_valid. rewrite HV. exact HS.
Qed.

Corollary cast_idem : forall x, cast prec emax (cast prec emax x) = cast prec emax x.
Proof. intros x. apply cast_valid, cast_in_format. Qed.

(** numbers that are not too large stay finite *)
Theorem cast_finite : forall x, sf_fin x -> Rabs (sf_val x) < p2 (emax - 1) -> (2 < emax)%Z -> sf_fin (cast prec emax x).
Proof.
  intros [s|s| |s m e] HF HB Hm; try destruct HF; [exact I|]. cbn [cast sf_val] in *. rewrite Rabs_mult, sf_sign_abs, Rmult_1_l in HB.
  assert (0 <= IZR (Z.pos m)) as Pm by (apply IZR_le; lia). pose proof (p2_pos e) as Pe. rewrite Rabs_right in HB by nra.
  assert (Z.pos (digits2_pos m) + e <= emax - 1)%Z as HD.
  { destruct (Z_le_gt_dec (Z.pos (digits2_pos m) + e) (emax - 1)) as [L|G]; [exact L|exfalso].
    destruct (digits_bounds m) as [B _]. apply IZR_le in B. rewrite <- p2_pow in B by lia.
    assert (p2 (Z.pos (digits2_pos m) - 1 + e) <= IZR (Z.pos m) * p2 e) as U by (rewrite p2_add; nra).
    pose proof (p2_le (emax - 1) (Z.pos (digits2_pos m) - 1 + e) ltac:(lia)). lra. }
  unfold binary_round.
  assert (snd (shl_align m e (fexp (Z.pos (digits2_pos m) + e))) <= fexp (Z.pos (digits2_pos m) + e))%Z as HS.
  { unfold shl_align. destruct (fexp (Z.pos (digits2_pos m) + e) - e)%Z eqn:ED; cbn [snd]; lia. }
  pose proof (shl_align_val m e (fexp (Z.pos (digits2_pos m) + e))) as HV. pose proof (digits_val _ _ _ _ HV) as HV2.
  destruct (shl_align m e (fexp (Z.pos (digits2_pos m) + e))) as [mz ez]. cbn [fst snd] in *.
  destruct (round_aux_val prec emax Hp s (Z.pos mz) ez loc_Exact (IZR (Z.pos mz) * p2 ez)) as (s1 & _ & _ & _ & HFin); [apply exact_inv; [lia|reflexivity]|].
  apply HFin. cbn [Zdigits2]. rewrite HV2. unfold SpecFloat.fexp, SpecFloat.emin in *. lia.
Qed.
End Format.

(** ** A wider format has every number of a narrower one *)
Theorem cast_widen : forall prec emax prec' emax' x, (0 < prec <= prec')%Z -> (emax <= emax')%Z -> (2 <= emax')%Z ->
  valid_binary prec emax x = true ->
  valid_binary prec' emax' (cast prec' emax' x) = true /\ sf_val (cast prec' emax' x) = sf_val x /\
  (sf_fin x -> sf_fin (cast prec' emax' x)) /\ cast prec emax (cast prec' emax' x) = x.
Proof.
  intros prec emax prec' emax' x Hp He H2 HV. split; [apply cast_in_format; lia|].
  destruct x as [s|s| |s m e]; try (repeat split; auto; fail). cbn [valid_binary] in HV.
  destruct (bounded_inv _ _ _ _ HV) as [HC HE].
  set (d := (Z.pos (digits2_pos m) + e)%Z) in *. set (e' := fexp prec' emax' d).
  assert (e' <= e)%Z as L by (unfold e', SpecFloat.fexp, SpecFloat.emin in *; lia).
  set (m' := match (e - e')%Z with Zpos p => shift_pos p m | _ => m end).
  assert (IZR (Z.pos m') * p2 e' = IZR (Z.pos m) * p2 e) as EV.
  { unfold m'. destruct (e - e')%Z as [|p|p] eqn:ED; [replace e with e' by lia; reflexivity| |lia].
    rewrite shift_pos_correct, Zpower_pos_nat, Zpower_nat_Z, positive_nat_Z, mult_IZR, <- p2_pow by lia.
    replace e with (e' + Z.pos p)%Z by lia. rewrite p2_add. ring. }
  pose proof (digits_val _ _ _ _ EV) as HD. fold d in HD.
  assert (bounded prec' emax' m' e' = true) as HB.
  { apply bounded_iff; [rewrite HD; reflexivity|]. unfold e', SpecFloat.fexp, SpecFloat.emin in *. lia. }
  rewrite (cast_exact prec' emax' s m e m' e' (eq_sym EV) HB). cbn [sf_val]. rewrite EV. split; [reflexivity|]. split; [auto|].
  now apply cast_exact.
Qed.
