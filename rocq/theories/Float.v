(** * IEEE arithmetic: the four operations of [SpecFloat] round once

    [SpecFloat] is the standard library's executable definition of the IEEE
    formats.  This file proves, for every precision and exponent range, that a
    finite result of an addition, subtraction, multiplication or division is
    the exact real result with one relative error of at most 2^-prec and one
    absolute error of at most half the smallest subnormal. *)
From Coq Require Import ZArith Reals Lra Lia SpecFloat Bool.
Local Open Scope R_scope.

(** ** Powers of two *)
Definition p2 (e : Z) : R := powerRZ 2 e.
Lemma p2_pos : forall e, 0 < p2 e. Proof. intros e. apply powerRZ_lt. lra. Qed.
Lemma p2_add : forall a b, p2 (a + b) = p2 a * p2 b. Proof. intros. apply powerRZ_add. lra. Qed.
Lemma p2_0 : p2 0 = 1. Proof. reflexivity. Qed.
Lemma p2_1 : p2 1 = 2. Proof. unfold p2. simpl. lra. Qed.
Lemma p2_m1 : p2 (-1) = / 2. Proof. unfold p2. simpl. lra. Qed.
Lemma p2_pow : forall n, (0 <= n)%Z -> p2 n = IZR (2 ^ n).
Proof.
  intros n Hn. unfold p2. rewrite <- (Z2Nat.id n Hn). rewrite <- pow_powerRZ, <- pow_IZR. reflexivity.
Qed.
Lemma p2_opp : forall e, p2 (- e) = / p2 e.
Proof.
  intros e. pose proof (p2_pos e). apply Rmult_eq_reg_l with (p2 e); [|lra]. rewrite <- p2_add, Z.add_opp_diag_r, p2_0. field. lra.
Qed.
Lemma p2_le : forall a b, (a <= b)%Z -> p2 a <= p2 b.
Proof.
  intros a b H. replace b with (a + (b - a))%Z by lia. rewrite p2_add, (p2_pow (b - a)) by lia.
  pose proof (p2_pos a). assert (1 <= IZR (2 ^ (b - a))) by (apply IZR_le; pose proof (Z.pow_pos_nonneg 2 (b - a)); lia). nra.
Qed.

(** ** Digits *)
Lemma digits_bounds : forall m, (2 ^ (Z.pos (digits2_pos m) - 1) <= Z.pos m < 2 ^ Z.pos (digits2_pos m))%Z.
Proof.
  induction m as [m IH|m IH|]; cbn [digits2_pos].
  - rewrite Pos2Z.inj_succ. replace (Z.succ (Z.pos (digits2_pos m)) - 1)%Z with (Z.pos (digits2_pos m) - 1 + 1)%Z by lia.
    rewrite Z.pow_succ_r, Z.pow_add_r by lia. rewrite Pos2Z.inj_xI. lia.
  - rewrite Pos2Z.inj_succ. replace (Z.succ (Z.pos (digits2_pos m)) - 1)%Z with (Z.pos (digits2_pos m) - 1 + 1)%Z by lia.
    rewrite Z.pow_succ_r, Z.pow_add_r by lia. rewrite (Pos2Z.inj_xO m). lia.
  - simpl. lia.
Qed.
Lemma digits_le : forall m d, (0 <= d)%Z -> (Z.pos m < 2 ^ d)%Z -> (Z.pos (digits2_pos m) <= d)%Z.
Proof.
  intros m d Hd H. destruct (Z_le_gt_dec (Z.pos (digits2_pos m)) d) as [L|G]; [exact L|exfalso].
  pose proof (digits_bounds m) as [B _]. pose proof (Z.pow_le_mono_r 2 d (Z.pos (digits2_pos m) - 1) ltac:(lia) ltac:(lia)). lia.
Qed.

(** ** Truncated mantissas: [m] is the integer part of [y], the two bits place the rest *)
Definition inv (s : shr_record) (y : R) : Prop :=
  (0 <= shr_m s)%Z /\
  match shr_r s, shr_s s with
  | false, false => y = IZR (shr_m s)
  | false, true => IZR (shr_m s) < y < IZR (shr_m s) + / 2
  | true, false => y = IZR (shr_m s) + / 2
  | true, true => IZR (shr_m s) + / 2 < y < IZR (shr_m s) + 1
  end.

Lemma inv_range : forall s y, inv s y -> IZR (shr_m s) <= y < IZR (shr_m s) + 1.
Proof. intros [m [] []] y [_ H]; cbn in *; lra. Qed.

Lemma shr_1_inv : forall s y, inv s y -> inv (shr_1 s) (y / 2).
Proof.
  intros [m r s] y [H0 H]. cbn [shr_m shr_r shr_s] in *. unfold shr_1. destruct m as [|[p|p|]|p]; try lia.
  - destruct r, s; cbn [orb]; split; cbn [shr_m shr_r shr_s] in *; try lia; lra.
  - assert (IZR (Z.pos p~1) = 2 * IZR (Z.pos p) + 1) as E by (rewrite Pos2Z.inj_xI, plus_IZR, mult_IZR; reflexivity).
    destruct r, s; cbn [orb]; split; cbn [shr_m shr_r shr_s] in *; try lia; lra.
  - assert (IZR (Z.pos p~0) = 2 * IZR (Z.pos p)) as E by (rewrite (Pos2Z.inj_xO p), mult_IZR; reflexivity).
    destruct r, s; cbn [orb]; split; cbn [shr_m shr_r shr_s] in *; try lia; lra.
  - destruct r, s; cbn [orb]; split; cbn [shr_m shr_r shr_s] in *; try lia; lra.
Qed.

Lemma iter_inv : forall p s y, inv s y -> inv (iter_pos shr_1 p s) (y / p2 (Z.pos p)).
Proof.
  induction p as [p IH|p IH|]; intros s y H; cbn [iter_pos].
  - replace (y / p2 (Z.pos p~1)) with (y / 2 / p2 (Z.pos p) / p2 (Z.pos p)).
    + apply IH, IH, shr_1_inv, H.
    + rewrite Pos2Z.inj_xI. replace (2 * Z.pos p + 1)%Z with (Z.pos p + Z.pos p + 1)%Z by lia. rewrite !p2_add, p2_1.
      pose proof (p2_pos (Z.pos p)). field. lra.
  - replace (y / p2 (Z.pos p~0)) with (y / p2 (Z.pos p) / p2 (Z.pos p)).
    + apply IH, IH, H.
    + rewrite (Pos2Z.inj_xO p). replace (2 * Z.pos p)%Z with (Z.pos p + Z.pos p)%Z by lia. rewrite !p2_add.
      pose proof (p2_pos (Z.pos p)). field. lra.
  - rewrite p2_1. apply shr_1_inv, H.
Qed.

Lemma shr_inv : forall s e n x, inv s (x / p2 e) ->
  inv (fst (shr s e n)) (x / p2 (snd (shr s e n))) /\ snd (shr s e n) = (e + Z.max 0 n)%Z.
Proof.
  intros s e n x H. destruct n as [|p|p]; cbn [shr fst snd].
  - split; [exact H|lia].
  - split; [|lia]. replace (x / p2 (e + Z.pos p)) with (x / p2 e / p2 (Z.pos p)); [apply iter_inv, H|].
    rewrite p2_add. pose proof (p2_pos e). pose proof (p2_pos (Z.pos p)). field. lra.
  - split; [exact H|lia].
Qed.

Lemma round_inv : forall s y, inv s y ->
  let M := round_nearest_even (shr_m s) (loc_of_shr_record s) in
  Rabs (IZR M - y) <= / 2 /\ (shr_m s <= M <= shr_m s + 1)%Z /\ (y = IZR (shr_m s) -> M = shr_m s).
Proof.
  intros [m r s] y [H0 H]. cbn [shr_m shr_r shr_s] in *. cbv zeta. unfold round_nearest_even, loc_of_shr_record.
  destruct r, s.
  - split; [|split; [lia|intros; lra]]. rewrite plus_IZR. apply Rabs_le. lra.
  - destruct (Z.even m); (split; [|split; [lia|intros; lra]]); [|rewrite plus_IZR]; apply Rabs_le; lra.
  - split; [|split; [lia|intros; lra]]. apply Rabs_le. lra.
  - split; [|split; [lia|reflexivity]]. apply Rabs_le. lra.
Qed.

Lemma inv_integer : forall s k, inv s (IZR k) -> shr_m s = k.
Proof.
  intros s k H. apply inv_range in H. destruct H as [H1 H2]. apply le_IZR in H1. rewrite <- plus_IZR in H2. apply lt_IZR in H2. lia.
Qed.

(** ** The value of a float *)
Definition sf_sign (s : bool) : R := if s then -1 else 1.
Definition sf_val (x : spec_float) : R :=
  match x with S754_finite s m e => sf_sign s * (IZR (Z.pos m) * p2 e) | _ => 0 end.
Definition sf_fin (x : spec_float) : Prop :=
  match x with S754_zero _ | S754_finite _ _ _ => True | _ => False end.

Lemma sf_sign_abs : forall s, Rabs (sf_sign s) = 1.
Proof. intros []; unfold sf_sign; [rewrite Rabs_left|rewrite Rabs_right]; lra. Qed.
Lemma sf_sign_xorb : forall a b, sf_sign (xorb a b) = sf_sign a * sf_sign b.
Proof. intros [] []; unfold sf_sign; cbn [xorb]; lra. Qed.

Section Format.
Context (prec emax : Z) (Hprec : (0 < prec)%Z).
Notation emin := (emin prec emax).
Notation fexp := (fexp prec emax).
Definition sf_u : R := p2 (- prec).
Definition sf_eta : R := p2 (emin - 1).

Lemma sf_u_pos : 0 < sf_u. Proof. apply p2_pos. Qed.
Lemma sf_eta_pos : 0 < sf_eta. Proof. apply p2_pos. Qed.

(** the rounded mantissa [M], at exponent [e1], determines the result *)
Lemma round_aux_val : forall sx mx ex lx x,
  inv (shr_record_of_loc mx lx) (x / p2 ex) ->
  let e1 := Z.max ex (fexp (Zdigits2 mx + ex)) in
  exists s1, inv s1 (x / p2 e1) /\
    let M := round_nearest_even (shr_m s1) (loc_of_shr_record s1) in
    ((fexp (Zdigits2 mx + ex) <= ex)%Z -> s1 = shr_record_of_loc mx lx) /\
    (sf_fin (binary_round_aux prec emax sx mx ex lx) ->
     sf_val (binary_round_aux prec emax sx mx ex lx) = sf_sign sx * (IZR M * p2 e1)) /\
    ((e1 + 1 <= emax - prec)%Z -> sf_fin (binary_round_aux prec emax sx mx ex lx)).
Proof.
  intros sx mx ex lx x HI e1'. unfold binary_round_aux. unfold shr_fexp at 1 3 5.
  set (n := (fexp (Zdigits2 mx + ex) - ex)%Z).
  destruct (shr_inv _ ex n x HI) as [I1 E1]. destruct (shr (shr_record_of_loc mx lx) ex n) as [s1 e1] eqn:ES. cbn [fst snd] in I1, E1.
  assert (e1' = e1) as -> by (subst e1' n; lia).
  assert (0 <= mx)%Z as Hmx by (destruct HI as [HI _]; destruct lx as [|[]]; exact HI).
  assert (shr_m (shr_record_of_loc mx lx) = mx) as Em by (destruct lx as [|[]]; reflexivity).
  pose proof (p2_pos ex) as Pex. pose proof (p2_pos e1) as Pe1.
  pose proof (inv_range _ _ HI) as RI. rewrite Em in RI.
  assert (x = x / p2 ex * p2 ex) as Ex by (field; lra).
  assert (0 <= IZR mx) as Rmx by (apply IZR_le; lia).
  destruct (round_inv _ _ I1) as (_ & RM & _).
  exists s1. split; [exact I1|]. cbv zeta. set (M := round_nearest_even (shr_m s1) (loc_of_shr_record s1)) in *.
  split. { intros L. assert (n <= 0)%Z as Hn by (subst n; lia). destruct n; try lia; cbn [shr] in ES; injection ES as <- <-; reflexivity. }
  assert (0 <= M)%Z as HM by (destruct I1; lia).
  assert (emin <= e1)%Z as He1 by (subst n; unfold SpecFloat.fexp in *; lia).
  (* the second shift loses nothing *)
  assert (M <= 2 ^ prec)%Z as HMP.
  { assert (shr_m s1 < 2 ^ prec)%Z as HS; [|lia].
    apply lt_IZR. rewrite <- p2_pow by lia. pose proof (inv_range _ _ I1) as [R1 _].
    apply Rle_lt_trans with (x / p2 e1); [exact R1|].
    assert (x < p2 (Zdigits2 mx + ex)) as HX.
    { destruct mx as [|m|m]; [|cbn [Zdigits2]|lia].
      - cbn [Zdigits2 Z.add]. rewrite Ex. nra.
      - rewrite p2_add, p2_pow by lia. destruct (digits_bounds m) as [_ B]. rewrite Ex. apply Rmult_lt_compat_r; [exact Pex|].
        assert (Z.pos m + 1 <= 2 ^ Z.pos (digits2_pos m))%Z as B' by lia. apply IZR_le in B'. rewrite plus_IZR in B'. lra. }
    apply Rmult_lt_reg_r with (p2 e1); [exact Pe1|]. replace (x / p2 e1 * p2 e1) with x by (field; lra).
    rewrite <- p2_add. apply Rlt_le_trans with (1 := HX), p2_le. subst n. unfold SpecFloat.fexp in *. lia. }
  assert (forall s2 e2, shr_fexp prec emax M e1 loc_Exact = (s2, e2) ->
    IZR (shr_m s2) * p2 e2 = IZR M * p2 e1 /\ (0 <= shr_m s2)%Z /\ (e2 <= e1 + 1)%Z) as HS2.
  { intros s2 e2 E. unfold shr_fexp in E. set (k := (fexp (Zdigits2 M + e1) - e1)%Z) in E.
    assert (inv (shr_record_of_loc M loc_Exact) (IZR M * p2 e1 / p2 e1)) as HIM.
    { split; [exact HM|]. cbn. field. lra. }
    destruct (shr_inv _ e1 k _ HIM) as [I2 E2]. rewrite E in I2, E2. cbn [fst snd] in I2, E2.
    enough (IZR (shr_m s2) * p2 e2 = IZR M * p2 e1 /\ (e2 <= e1 + 1)%Z) as [U1 U2] by (split; [exact U1|split; [apply I2|exact U2]]).
    destruct (Z_le_gt_dec k 0) as [L|G].
    - assert (e2 = e1) as Ee by lia. clear E2. subst e2. replace (IZR M * p2 e1 / p2 e1) with (IZR M) in I2 by (field; lra).
      rewrite (inv_integer _ _ I2). split; [reflexivity|lia].
    - assert (k = 1 /\ M = 2 ^ prec)%Z as [Ek EM].
      { destruct M as [|m|m]; [| |lia].
        - exfalso. subst k. unfold SpecFloat.fexp in G. cbn [Zdigits2] in G. lia.
        - cbn [Zdigits2] in k. destruct (Z.eq_dec (Z.pos m) (2 ^ prec)) as [EQ|NE].
          + split; [|exact EQ]. assert (Z.pos (digits2_pos m) <= prec + 1)%Z by (apply digits_le; [lia|rewrite Z.pow_add_r by lia; lia]).
            subst k. unfold SpecFloat.fexp in *. lia.
          + exfalso. assert (Z.pos (digits2_pos m) <= prec)%Z by (apply digits_le; lia). subst k. unfold SpecFloat.fexp in *. lia. }
      assert (e2 = e1 + 1)%Z as Ee by lia. clear E2. subst e2. rewrite p2_add, p2_1 in *.
      assert (M = 2 * 2 ^ (prec - 1))%Z as EM2 by (rewrite EM, <- Z.pow_succ_r by lia; f_equal; lia).
      replace (IZR M * p2 e1 / (p2 e1 * 2)) with (IZR (2 ^ (prec - 1))) in I2 by (rewrite EM2, mult_IZR; field; lra).
      split; [|lia]. rewrite (inv_integer _ _ I2), EM2, mult_IZR. ring. }
  destruct (shr_fexp prec emax M e1 loc_Exact) as [s2 e2]. destruct (HS2 s2 e2 eq_refl) as (HV & HP & HE).
  destruct (shr_m s2) as [|m|m]; [| |lia].
  - split; [intros _|intros _; exact I]. cbn [sf_val]. rewrite <- HV. ring.
  - destruct (Z.leb_spec e2 (emax - prec)) as [L|G].
    + split; intros _; [|exact I]. cbn [sf_val]. rewrite HV. reflexivity.
    + split; [intros []|lia].
Qed.

Lemma round_aux_ok : forall sx mx ex lx x,
  inv (shr_record_of_loc mx lx) (x / p2 ex) ->
  lx = loc_Exact \/ (ex <= fexp (Zdigits2 mx + ex))%Z ->
  sf_fin (binary_round_aux prec emax sx mx ex lx) ->
  Rabs (sf_val (binary_round_aux prec emax sx mx ex lx) - sf_sign sx * x) <= sf_u * x + sf_eta.
Proof.
  intros sx mx ex lx x HI HC HF. destruct (round_aux_val sx mx ex lx x HI) as (s1 & I1 & HX & HV & _). rewrite (HV HF). clear HV HF.
  set (e1 := Z.max ex (fexp (Zdigits2 mx + ex))) in *. set (M := round_nearest_even (shr_m s1) (loc_of_shr_record s1)) in *.
  assert (0 <= mx)%Z as Hmx by (destruct HI as [HI _]; destruct lx as [|[]]; exact HI).
  assert (shr_m (shr_record_of_loc mx lx) = mx) as Em by (destruct lx as [|[]]; reflexivity).
  pose proof (p2_pos ex) as Pex. pose proof (p2_pos e1) as Pe1.
  pose proof (inv_range _ _ HI) as RI. rewrite Em in RI.
  assert (x = x / p2 ex * p2 ex) as Ex by (field; lra).
  assert (0 <= IZR mx) as Rmx by (apply IZR_le; lia).
  assert (0 <= x) as Hx by (rewrite Ex; nra).
  destruct (round_inv _ _ I1) as (RE & RM & RX). fold M in RE, RM, RX.
  rewrite <- Rmult_minus_distr_l, Rabs_mult, sf_sign_abs, Rmult_1_l.
  assert (0 <= sf_u * x) as P1 by (pose proof sf_u_pos; nra). pose proof sf_eta_pos as P2.
  assert (Rabs (IZR M * p2 e1 - x) <= / 2 * p2 e1) as HB.
  { replace (IZR M * p2 e1 - x) with ((IZR M - x / p2 e1) * p2 e1) by (field; lra).
    rewrite Rabs_mult, (Rabs_right (p2 e1)) by lra. apply Rmult_le_compat_r; lra. }
  assert ((ex <= fexp (Zdigits2 mx + ex))%Z -> / 2 * p2 e1 <= sf_u * x + sf_eta) as HN.
  { intros HL. assert (e1 = fexp (Zdigits2 mx + ex)) as -> by (subst e1; lia).
    rewrite <- p2_m1, <- p2_add. unfold SpecFloat.fexp in *.
    destruct (Z_le_gt_dec (Zdigits2 mx + ex - prec) emin) as [L|G].
    - rewrite Z.max_r by lia. replace (-1 + emin)%Z with (emin - 1)%Z by lia. fold sf_eta. lra.
    - rewrite Z.max_l in * by lia. destruct mx as [|m|m]; [cbn [Zdigits2] in *; lia| |lia]. cbn [Zdigits2] in *.
      replace (-1 + (Z.pos (digits2_pos m) + ex - prec))%Z with (- prec + (Z.pos (digits2_pos m) - 1) + ex)%Z by lia.
      rewrite !p2_add. fold sf_u. rewrite p2_pow by lia. destruct (digits_bounds m) as [B _]. apply IZR_le in B.
      pose proof sf_u_pos. assert (IZR (2 ^ (Z.pos (digits2_pos m) - 1)) * p2 ex <= x) by (rewrite Ex; nra). nra. }
  destruct HC as [->|HC]; [|specialize (HN HC); lra].
  destruct (Z_le_gt_dec ex (fexp (Zdigits2 mx + ex))) as [L|G]; [specialize (HN L); lra|].
  specialize (HX ltac:(lia)). assert (e1 = ex) as E1 by (subst e1; lia). rewrite E1. subst s1.
  destruct HI as [_ HI]. cbn in HI. cbn in M. subst M.
  replace (IZR mx * p2 ex - x) with 0; [rewrite Rabs_R0; lra|]. rewrite <- HI. field. lra.
Qed.

Lemma exact_inv : forall m e x, (0 <= m)%Z -> x = IZR m * p2 e -> inv (shr_record_of_loc m loc_Exact) (x / p2 e).
Proof. intros m e x Hm ->. split; [exact Hm|]. cbn. pose proof (p2_pos e). field. lra. Qed.

(** ** Multiplication *)
Lemma sf_mul_ok : forall a b, sf_fin (SFmul prec emax a b) -> sf_fin a /\ sf_fin b /\
  Rabs (sf_val (SFmul prec emax a b) - sf_val a * sf_val b) <= sf_u * Rabs (sf_val a * sf_val b) + sf_eta.
Proof.
  assert (forall x, 0 = x -> Rabs (0 - x) <= sf_u * Rabs x + sf_eta) as H0.
  { intros x <-. rewrite Rminus_0_r, Rabs_R0. pose proof sf_eta_pos. lra. }
  intros [sa|sa| |sa ma ea] [sb|sb| |sb mb eb]; cbn [SFmul sf_fin]; try (intros []; fail); intros HF;
    (split; [exact I|split; [exact I|]]); cbn [sf_val]; try (apply H0; ring).
  replace (sf_sign sa * (IZR (Z.pos ma) * p2 ea) * (sf_sign sb * (IZR (Z.pos mb) * p2 eb)))
    with (sf_sign (xorb sa sb) * (IZR (Z.pos (ma * mb)) * p2 (ea + eb)))
    by (rewrite sf_sign_xorb, p2_add, Pos2Z.inj_mul, mult_IZR; ring).
  assert (0 <= IZR (Z.pos (ma * mb)) * p2 (ea + eb)) as HP.
  { pose proof (p2_pos (ea + eb)). assert (0 <= IZR (Z.pos (ma * mb))) by (apply IZR_le; lia). nra. }
  rewrite Rabs_mult, sf_sign_abs, Rmult_1_l, (Rabs_right (_ * _)) by lra.
  apply round_aux_ok; [|left; reflexivity|exact HF]. apply exact_inv; [lia|reflexivity].
Qed.

(** ** Addition and subtraction *)
Lemma shl_align_val : forall m e e', IZR (Z.pos (fst (shl_align m e e'))) * p2 (snd (shl_align m e e')) = IZR (Z.pos m) * p2 e.
Proof.
  intros m e e'. unfold shl_align. destruct (e' - e)%Z as [|d|d] eqn:E; cbn [fst snd]; try reflexivity.
  rewrite shift_pos_correct, Zpower_pos_nat, Zpower_nat_Z. rewrite positive_nat_Z, mult_IZR, <- p2_pow by lia.
  replace e with (e' + Z.pos d)%Z by lia. rewrite p2_add. ring.
Qed.
Lemma shl_align_exp : forall m e e', (e' <= e)%Z -> snd (shl_align m e e') = e'.
Proof. intros m e e' H. unfold shl_align. destruct (e' - e)%Z eqn:E; cbn [snd]; lia. Qed.

Lemma normalize_ok : forall m e sz, sf_fin (binary_normalize prec emax m e sz) ->
  Rabs (sf_val (binary_normalize prec emax m e sz) - IZR m * p2 e) <= sf_u * Rabs (IZR m * p2 e) + sf_eta.
Proof.
  assert (forall sx m e, sf_fin (binary_round prec emax sx m e) ->
    Rabs (sf_val (binary_round prec emax sx m e) - sf_sign sx * (IZR (Z.pos m) * p2 e)) <= sf_u * (IZR (Z.pos m) * p2 e) + sf_eta) as HR.
  { intros sx m e. unfold binary_round. pose proof (shl_align_val m e (fexp (Z.pos (digits2_pos m) + e))) as HV.
    destruct (shl_align m e (fexp (Z.pos (digits2_pos m) + e))) as [mz ez]. cbn [fst snd] in HV. intros HF.
    apply round_aux_ok; [|left; reflexivity|exact HF]. apply exact_inv; [lia|symmetry; exact HV]. }
  intros [|m|m] e sz HF; cbn [binary_normalize] in *.
  - cbn [sf_val]. rewrite Rmult_0_l, Rminus_0_r, Rabs_R0. pose proof sf_eta_pos. lra.
  - pose proof (p2_pos e). assert (0 <= IZR (Z.pos m)) by (apply IZR_le; lia).
    rewrite (Rabs_right (IZR (Z.pos m) * p2 e)) by nra.
    specialize (HR false m e HF). unfold sf_sign in HR. rewrite Rmult_1_l in HR. exact HR.
  - pose proof (p2_pos e). assert (0 <= IZR (Z.pos m)) by (apply IZR_le; lia).
    specialize (HR true m e HF). unfold sf_sign in HR.
    change (Z.neg m) with (- Z.pos m)%Z. rewrite opp_IZR.
    replace (- IZR (Z.pos m) * p2 e) with (-1 * (IZR (Z.pos m) * p2 e)) by ring.
    rewrite (Rabs_mult (-1)), (Rabs_left (-1)), (Rabs_right (IZR (Z.pos m) * p2 e)) by nra.
    replace (- -1 * (IZR (Z.pos m) * p2 e)) with (IZR (Z.pos m) * p2 e) by ring. exact HR.
Qed.

Lemma cond_Zopp_val : forall s m, IZR (cond_Zopp s m) = sf_sign s * IZR m.
Proof. intros [] m; unfold cond_Zopp, sf_sign; [rewrite opp_IZR|]; ring. Qed.

Lemma aligned : forall s m e ez, (ez <= e)%Z ->
  IZR (cond_Zopp s (Z.pos (fst (shl_align m e ez)))) * p2 ez = sf_sign s * (IZR (Z.pos m) * p2 e).
Proof.
  intros s m e ez H. rewrite cond_Zopp_val. pose proof (shl_align_val m e ez) as HV. rewrite (shl_align_exp m e ez H) in HV.
  rewrite <- HV. ring.
Qed.

Lemma sf_exact : forall x y, x = y -> Rabs (x - y) <= sf_u * Rabs y + sf_eta.
Proof.
  intros x y ->. rewrite Rminus_eq_0, Rabs_R0. pose proof sf_eta_pos. pose proof sf_u_pos. pose proof (Rabs_pos y). nra.
Qed.

Lemma sf_add_ok : forall a b, sf_fin (SFadd prec emax a b) -> sf_fin a /\ sf_fin b /\
  Rabs (sf_val (SFadd prec emax a b) - (sf_val a + sf_val b)) <= sf_u * Rabs (sf_val a + sf_val b) + sf_eta.
Proof.
  intros [sa|sa| |sa ma ea] [sb|sb| |sb mb eb]; cbn [SFadd]; try (intros []; fail);
    try (match goal with |- context [Bool.eqb ?a ?b] => destruct (Bool.eqb a b) end; cbn [sf_fin]; try (intros []; fail));
    intros HF; (split; [exact I|split; [exact I|]]); cbn [sf_val]; try (apply sf_exact; ring).
  pose proof (normalize_ok _ _ _ HF) as HN.
  rewrite plus_IZR, Rmult_plus_distr_r, !aligned in HN by lia. exact HN.
Qed.

Lemma sf_sub_ok : forall a b, sf_fin (SFsub prec emax a b) -> sf_fin a /\ sf_fin b /\
  Rabs (sf_val (SFsub prec emax a b) - (sf_val a - sf_val b)) <= sf_u * Rabs (sf_val a - sf_val b) + sf_eta.
Proof.
  intros [sa|sa| |sa ma ea] [sb|sb| |sb mb eb]; cbn [SFsub]; try (intros []; fail);
    try (match goal with |- context [Bool.eqb ?a ?b] => destruct (Bool.eqb a b) end; cbn [sf_fin]; try (intros []; fail));
    intros HF; (split; [exact I|split; [exact I|]]); cbn [sf_val]; try (apply sf_exact; ring).
  - apply sf_exact. destruct sb; unfold sf_sign, negb; ring.
  - pose proof (normalize_ok _ _ _ HF) as HN.
    rewrite minus_IZR, Rmult_minus_distr_r, !aligned in HN by lia. exact HN.
Qed.

(** ** Division *)
Lemma location_inv : forall q r w, (0 <= q)%Z -> (0 <= r < w)%Z ->
  inv (shr_record_of_loc q (new_location w r)) (IZR q + IZR r / IZR w).
Proof.
  intros q r w Hq Hr. assert (0 < IZR w) as Hw by (apply IZR_lt; lia).
  assert (Zeq_bool r 0 = (r =? 0)%Z) as EZ
    by (destruct (Z.eqb_spec r 0) as [->|N]; [reflexivity|]; destruct (Zeq_bool r 0) eqn:E; [apply Zeq_bool_eq in E; lia|reflexivity]).
  assert (forall l, match l with
    | loc_Exact => r = 0
    | loc_Inexact Lt => 0 < r /\ 2 * r < w
    | loc_Inexact Eq => 2 * r = w
    | loc_Inexact Gt => w < 2 * r end%Z -> inv (shr_record_of_loc q l) (IZR q + IZR r / IZR w)) as H.
  { intros l Hl. assert (IZR r / IZR w < 1) as H1 by (apply Rmult_lt_reg_r with (IZR w); [lra|]; unfold Rdiv; rewrite Rmult_assoc, Rinv_l, Rmult_1_r, Rmult_1_l by lra; apply IZR_lt; lia).
    assert (forall t, IZR r = t * IZR w -> IZR r / IZR w = t) as H2 by (intros t ->; field; lra).
    assert (forall t, IZR r < t * IZR w -> IZR r / IZR w < t) as H3
      by (intros t Ht; apply Rmult_lt_reg_r with (IZR w); [lra|]; unfold Rdiv; rewrite Rmult_assoc, Rinv_l, Rmult_1_r by lra; exact Ht).
    assert (forall t, t * IZR w < IZR r -> t < IZR r / IZR w) as H4
      by (intros t Ht; apply Rmult_lt_reg_r with (IZR w); [lra|]; unfold Rdiv; rewrite Rmult_assoc, Rinv_l, Rmult_1_r by lra; exact Ht).
    destruct l as [|[]]; (split; [exact Hq|]); cbn [shr_record_of_loc shr_m shr_r shr_s].
    - rewrite (H2 0); [lra|rewrite Hl; lra].
    - rewrite (H2 (/ 2)); [lra|]. rewrite <- Hl, mult_IZR. lra.
    - destruct Hl as [L1 L2]. apply IZR_lt in L1. apply IZR_lt in L2. rewrite mult_IZR in L2.
      pose proof (H3 (/ 2) ltac:(lra)). pose proof (H4 0 ltac:(lra)). lra.
    - apply IZR_lt in Hl. rewrite mult_IZR in Hl. pose proof (H4 (/ 2) ltac:(lra)). lra. }
  apply H. unfold new_location. destruct (Z.even w) eqn:Ew; unfold new_location_even, new_location_odd; rewrite EZ; destruct (Z.eqb_spec r 0) as [->|N]; try reflexivity.
  - destruct (Z.compare_spec (2 * r) w); lia.
  - assert (w mod 2 = 1)%Z as Hw2 by (rewrite Zmod_odd, <- Z.negb_even, Ew; reflexivity).
    pose proof (Z.div_mod w 2 ltac:(lia)). destruct (Z.compare_spec (2 * r + 1) w); lia.
Qed.

Lemma sf_div_ok : forall a b, sf_fin (SFdiv prec emax a b) -> sf_fin b -> sf_fin a /\ sf_val b <> 0 /\
  Rabs (sf_val (SFdiv prec emax a b) - sf_val a / sf_val b) <= sf_u * Rabs (sf_val a / sf_val b) + sf_eta.
Proof.
  assert (forall s m e, sf_sign s * (IZR (Z.pos m) * p2 e) <> 0) as HNZ.
  { intros s m e H. assert (Rabs (sf_sign s * (IZR (Z.pos m) * p2 e)) = 0) as H' by (rewrite H; apply Rabs_R0).
    pose proof (p2_pos e). assert (0 < IZR (Z.pos m)) by (apply IZR_lt; lia).
    rewrite Rabs_mult, sf_sign_abs, Rabs_right in H' by nra. nra. }
  intros [sa|sa| |sa ma ea] [sb|sb| |sb mb eb]; cbn [SFdiv sf_fin]; try (intros []; fail); try (intros _ []; fail); intros HF _;
    try (destruct HF; fail); (split; [exact I|]); cbn [sf_val]; (split; [apply HNZ|]).
  { apply sf_exact. unfold Rdiv. ring. }
  revert HF. unfold SFdiv_core_binary. cbn [Zdigits2].
  set (D := (Z.pos (digits2_pos ma) + ea - (Z.pos (digits2_pos mb) + eb))%Z). set (e' := Z.min (fexp D) (ea - eb)).
  assert (0 <= ea - eb - e')%Z as Hs by lia.
  assert (match (ea - eb - e')%Z with Z0 => Z.pos ma | Zpos _ => Z.shiftl (Z.pos ma) (ea - eb - e') | Zneg _ => 0%Z end = (Z.pos ma * 2 ^ (ea - eb - e'))%Z) as ->.
  { destruct (ea - eb - e')%Z as [|p|p]; [rewrite Z.pow_0_r; lia|apply Z.shiftl_mul_pow2; lia|lia]. }
  pose proof (Z_div_mod (Z.pos ma * 2 ^ (ea - eb - e')) (Z.pos mb) ltac:(lia)) as HD.
  destruct (Z.div_eucl (Z.pos ma * 2 ^ (ea - eb - e')) (Z.pos mb)) as [q r]. destruct HD as [HD Hr]. intros HF.
  assert (0 < 2 ^ (ea - eb - e'))%Z as H2p by (apply Z.pow_pos_nonneg; lia).
  assert (0 <= q)%Z as Hq by nia.
  pose proof (p2_pos ea). pose proof (p2_pos eb). pose proof (p2_pos e').
  assert (0 < IZR (Z.pos ma)) by (apply IZR_lt; lia). assert (0 < IZR (Z.pos mb)) by (apply IZR_lt; lia).
  set (x := IZR (Z.pos ma) * p2 ea / (IZR (Z.pos mb) * p2 eb)).
  assert (x / p2 e' = IZR q + IZR r / IZR (Z.pos mb)) as Ex.
  { apply Rmult_eq_reg_r with (IZR (Z.pos mb)); [|lra].
    replace ((IZR q + IZR r / IZR (Z.pos mb)) * IZR (Z.pos mb)) with (IZR (Z.pos mb * q + r)) by (rewrite plus_IZR, mult_IZR; field; lra).
    rewrite <- HD, mult_IZR, <- p2_pow by lia. subst x. unfold Z.sub. rewrite !p2_add, !p2_opp. field. lra. }
  assert (sf_sign sa * (IZR (Z.pos ma) * p2 ea) / (sf_sign sb * (IZR (Z.pos mb) * p2 eb)) = sf_sign (xorb sa sb) * x) as ->.
  { subst x. rewrite sf_sign_xorb. assert (/ sf_sign sb = sf_sign sb) as Es by (destruct sb; unfold sf_sign; lra).
    unfold Rdiv. rewrite Rinv_mult, Es. ring. }
  assert (0 <= x) as Hx.
  { subst x. apply Rlt_le, Rdiv_lt_0_compat; nra. }
  rewrite Rabs_mult, sf_sign_abs, Rmult_1_l, (Rabs_right x) by lra.
  apply round_aux_ok; [rewrite Ex; apply location_inv; lia| |exact HF].
  right. apply Z.le_trans with (fexp D); [lia|]. unfold SpecFloat.fexp.
  (* the quotient has enough digits *)
  destruct (Z_le_gt_dec (D - prec) emin) as [L|G]; [lia|].
  assert (D <= Zdigits2 q + e')%Z; [|lia].
  assert (e' <= D - prec)%Z as He' by (subst e'; unfold SpecFloat.fexp; lia).
  destruct (digits_bounds ma) as [A1 _]. destruct (digits_bounds mb) as [_ B2].
  set (da := Z.pos (digits2_pos ma)) in *. set (db := Z.pos (digits2_pos mb)) in *.
  destruct (Z_le_gt_dec (D - e') (Zdigits2 q)) as [L|G2]; [lia|exfalso].
  (* q < 2 ^ (D - e' - 1) is impossible *)
  assert (q < 2 ^ (D - e' - 1))%Z as Hq2.
  { destruct q as [|p|p]; [apply Z.pow_pos_nonneg; lia| |lia]. cbn [Zdigits2] in G2.
    destruct (digits_bounds p) as [_ B]. apply Z.lt_le_trans with (1 := B), Z.pow_le_mono_r; lia. }
  assert (2 ^ (da - 1) * 2 ^ (ea - eb - e') <= Z.pos ma * 2 ^ (ea - eb - e'))%Z as U1 by nia.
  rewrite <- Z.pow_add_r in U1 by lia.
  assert (Z.pos mb * q + r < Z.pos mb * (q + 1))%Z as U2 by nia.
  assert (Z.pos mb * (q + 1) <= Z.pos mb * 2 ^ (D - e' - 1))%Z as U3 by nia.
  assert (Z.pos mb * 2 ^ (D - e' - 1) < 2 ^ db * 2 ^ (D - e' - 1))%Z as U4.
  { apply Z.mul_lt_mono_pos_r; [apply Z.pow_pos_nonneg|]; lia. }
  rewrite <- Z.pow_add_r in U4 by lia.
  replace (db + (D - e' - 1))%Z with (da - 1 + (ea - eb - e'))%Z in U4 by (subst D; lia). lia.
Qed.

(** ** Square root *)
Lemma sf_sqrt_ok : forall a, sf_fin (SFsqrt prec emax a) -> sf_fin a /\ 0 <= sf_val a /\
  Rabs (sf_val (SFsqrt prec emax a) - sqrt (sf_val a)) <= sf_u * sqrt (sf_val a) + sf_eta.
Proof.
  intros [sa|[]| |[] m e]; cbn [SFsqrt]; try (intros []; fail); intros HF; (split; [exact I|]).
  { cbn [sf_val]. split; [lra|]. rewrite sqrt_0, Rminus_0_r, Rabs_R0. pose proof sf_eta_pos. lra. }
  cbn [sf_val]. change (sf_sign false) with 1. rewrite !Rmult_1_l.
  pose proof (p2_pos e) as Pe. assert (0 < IZR (Z.pos m)) as Pm by (apply IZR_lt; lia).
  split; [nra|]. revert HF. unfold SFsqrt_core_binary. cbn [Zdigits2].
  set (d := Z.pos (digits2_pos m)). set (e' := Z.min (fexp (Z.div2 (d + e + 1))) (Z.div2 e)).
  pose proof (Z.div_mod e 2 ltac:(lia)) as De. pose proof (Z.mod_pos_bound e 2 ltac:(lia)) as Me.
  pose proof (Z.div_mod (d + e + 1) 2 ltac:(lia)) as Dd. pose proof (Z.mod_pos_bound (d + e + 1) 2 ltac:(lia)) as Md.
  assert (e' <= e / 2)%Z as He'. { subst e'. rewrite (Z.div2_div e). lia. }
  assert (0 <= e - 2 * e')%Z as Hs by lia.
  assert (match (e - 2 * e')%Z with Z0 => Z.pos m | Zpos _ => Z.shiftl (Z.pos m) (e - 2 * e') | Zneg _ => 0%Z end = (Z.pos m * 2 ^ (e - 2 * e'))%Z) as ->.
  { destruct (e - 2 * e')%Z as [|p|p]; [rewrite Z.pow_0_r; lia|apply Z.shiftl_mul_pow2; lia|lia]. }
  assert (0 < 2 ^ (e - 2 * e'))%Z as H2p by (apply Z.pow_pos_nonneg; lia).
  set (m' := (Z.pos m * 2 ^ (e - 2 * e'))%Z) in *. assert (0 < m')%Z as Hm' by (subst m'; nia).
  pose proof (Z.sqrtrem_spec m' ltac:(lia)) as HQ. destruct (Z.sqrtrem m') as [q r]. destruct HQ as [HQ Hr].
  assert (0 <= q)%Z as Hq by (destruct (Z_lt_ge_dec q 0); [exfalso; lia|lia]).
  set (x := sqrt (IZR (Z.pos m) * p2 e)). pose proof (p2_pos e') as Pe'.
  set (y := x / p2 e'). assert (0 <= x) as Px by apply sqrt_pos.
  assert (0 <= y) as Py by (subst y; apply Rmult_le_pos; [exact Px|apply Rlt_le, Rinv_0_lt_compat; exact Pe']).
  assert (y * y = IZR m') as Ey.
  { subst y. assert (x * x = IZR (Z.pos m) * p2 e) as Exx by (apply sqrt_sqrt; nra).
    replace (x / p2 e' * (x / p2 e')) with (x * x / (p2 e' * p2 e')) by (field; lra). rewrite Exx. subst m'.
    rewrite mult_IZR, <- p2_pow by lia. unfold Z.sub. rewrite p2_add, p2_opp. replace (2 * e')%Z with (e' + e')%Z by lia. rewrite p2_add. field. lra. }
  assert (IZR m' = IZR q * IZR q + IZR r) as Em by (rewrite HQ, plus_IZR, mult_IZR; reflexivity).
  assert (0 <= IZR q) as Rq by (apply IZR_le; exact Hq).
  intros HF.

  replace x with (sf_sign false * x) at 1 by (unfold sf_sign; ring).
  apply round_aux_ok; [| |exact HF].
  - fold y. assert (Zeq_bool r 0 = (r =? 0)%Z) as EZ
      by (destruct (Z.eqb_spec r 0) as [->|N]; [reflexivity|]; destruct (Zeq_bool r 0) eqn:E; [apply Zeq_bool_eq in E; lia|reflexivity]).
    rewrite EZ. destruct (Z.eqb_spec r 0) as [->|N].
    + split; [exact Hq|]. cbn. nra.
    + assert (1 <= IZR r) as R1 by (apply IZR_le; lia).
      destruct (Z.leb_spec r q) as [L|G]; (split; [exact Hq|]); cbn [shr_record_of_loc shr_m shr_r shr_s].
      * apply IZR_le in L. split; nra.
      * assert (IZR q + 1 <= IZR r) as R2 by (rewrite <- plus_IZR; apply IZR_le; lia).
        assert (IZR r <= 2 * IZR q) as R3 by (rewrite <- mult_IZR; apply IZR_le; lia). split; nra.
  - right. apply Z.le_trans with (fexp ((d + e + 1) / 2)); [subst e'; rewrite (Z.div2_div (d + e + 1)); lia|]. unfold SpecFloat.fexp.
    assert ((d + e + 1) / 2 <= Zdigits2 q + e')%Z; [|lia].
    destruct (Z_le_gt_dec ((d + e + 1) / 2 - e') (Zdigits2 q)) as [L|G]; [lia|exfalso].
    set (h := ((d + e + 1) / 2)%Z) in *. assert (0 < d)%Z as Hd by (subst d; lia).
    assert (0 <= Zdigits2 q)%Z as Hdq by (destruct q; cbn; lia).
    assert (q + 1 <= 2 ^ (h - e' - 1))%Z as Hq2.
    { destruct q as [|p|p]; [pose proof (Z.pow_pos_nonneg 2 (h - e' - 1) ltac:(lia) ltac:(lia)); lia| |lia]. cbn [Zdigits2] in G.
      destruct (digits_bounds p) as [_ B]. pose proof (Z.pow_le_mono_r 2 (Z.pos (digits2_pos p)) (h - e' - 1) ltac:(lia) ltac:(lia)). lia. }
    assert (m' < 2 ^ (h - e' - 1) * 2 ^ (h - e' - 1))%Z as U1 by nia.
    rewrite <- Z.pow_add_r in U1 by lia.
    destruct (digits_bounds m) as [B _]. fold d in B.
    assert (2 ^ (d - 1) * 2 ^ (e - 2 * e') <= m')%Z as U2 by (subst m'; nia). rewrite <- Z.pow_add_r in U2 by lia.
    pose proof (Z.pow_le_mono_r 2 (h - e' - 1 + (h - e' - 1)) (d - 1 + (e - 2 * e')) ltac:(lia) ltac:(lia)). lia.
Qed.

(** ** Addition and subtraction of representable numbers never underflow *)
Definition sf_rep (x : spec_float) : Prop := match x with S754_finite _ _ e => (emin <= e)%Z | _ => True end.

Lemma round_aux_rep : forall sx mx ex x, (emin <= ex)%Z ->
  inv (shr_record_of_loc mx loc_Exact) (x / p2 ex) ->
  sf_fin (binary_round_aux prec emax sx mx ex loc_Exact) ->
  Rabs (sf_val (binary_round_aux prec emax sx mx ex loc_Exact) - sf_sign sx * x) <= sf_u * x.
Proof.
  intros sx mx ex x He HI HF. destruct (round_aux_val sx mx ex loc_Exact x HI) as (s1 & I1 & HX & HV & _). rewrite (HV HF). clear HV HF.
  set (e1 := Z.max ex (fexp (Zdigits2 mx + ex))) in *. set (M := round_nearest_even (shr_m s1) (loc_of_shr_record s1)) in *.
  destruct HI as [Hmx Emx]. cbn in Hmx, Emx.
  pose proof (p2_pos ex) as Pex. pose proof (p2_pos e1) as Pe1. pose proof sf_u_pos as Pu.
  assert (x = IZR mx * p2 ex) as Ex by (rewrite <- Emx; field; lra).
  assert (0 <= IZR mx) as Rmx by (apply IZR_le; lia).
  assert (0 <= x) as Hx by (rewrite Ex; nra).
  destruct (round_inv _ _ I1) as (RE & RM & RX). fold M in RE, RM, RX.
  rewrite <- Rmult_minus_distr_l, Rabs_mult, sf_sign_abs, Rmult_1_l.
  destruct (Z_le_gt_dec (fexp (Zdigits2 mx + ex)) ex) as [L|G].
  - specialize (HX L). assert (e1 = ex) as E1 by (subst e1; lia). rewrite E1. subst s1. cbn in M. subst M.
    replace (IZR mx * p2 ex - x) with 0 by (rewrite Ex; ring). rewrite Rabs_R0. nra.
  - assert (Rabs (IZR M * p2 e1 - x) <= / 2 * p2 e1) as HB.
    { replace (IZR M * p2 e1 - x) with ((IZR M - x / p2 e1) * p2 e1) by (field; lra).
      rewrite Rabs_mult, (Rabs_right (p2 e1)) by lra. apply Rmult_le_compat_r; lra. }
    apply Rle_trans with (1 := HB). assert (e1 = Zdigits2 mx + ex - prec)%Z as -> by (subst e1; unfold SpecFloat.fexp in *; lia).
    rewrite <- p2_m1, <- p2_add. destruct mx as [|m|m]; [exfalso; unfold SpecFloat.fexp in G; cbn [Zdigits2] in G; lia| |lia]. cbn [Zdigits2] in *.
    replace (-1 + (Z.pos (digits2_pos m) + ex - prec))%Z with (- prec + (Z.pos (digits2_pos m) - 1) + ex)%Z by lia.
    rewrite !p2_add. fold sf_u. rewrite p2_pow by lia. destruct (digits_bounds m) as [B _]. apply IZR_le in B.
    assert (IZR (2 ^ (Z.pos (digits2_pos m) - 1)) * p2 ex <= x) by (rewrite Ex; nra). nra.
Qed.

Lemma normalize_rep : forall m e sz, (emin <= e)%Z -> sf_fin (binary_normalize prec emax m e sz) ->
  Rabs (sf_val (binary_normalize prec emax m e sz) - IZR m * p2 e) <= sf_u * Rabs (IZR m * p2 e).
Proof.
  assert (forall sx m e, (emin <= e)%Z -> sf_fin (binary_round prec emax sx m e) ->
    Rabs (sf_val (binary_round prec emax sx m e) - sf_sign sx * (IZR (Z.pos m) * p2 e)) <= sf_u * (IZR (Z.pos m) * p2 e)) as HR.
  { intros sx m e He. unfold binary_round. pose proof (shl_align_val m e (fexp (Z.pos (digits2_pos m) + e))) as HV.
    assert (emin <= snd (shl_align m e (fexp (Z.pos (digits2_pos m) + e))))%Z as Hz.
    { unfold shl_align. destruct (fexp (Z.pos (digits2_pos m) + e) - e)%Z; cbn [snd]; [exact He|exact He|unfold SpecFloat.fexp; lia]. }
    destruct (shl_align m e (fexp (Z.pos (digits2_pos m) + e))) as [mz ez]. cbn [fst snd] in HV, Hz. intros HF.
    apply round_aux_rep; [exact Hz| |exact HF]. apply exact_inv; [lia|symmetry; exact HV]. }
  intros [|m|m] e sz He HF; cbn [binary_normalize] in *.
  - cbn [sf_val]. rewrite Rmult_0_l, Rminus_0_r, Rabs_R0. lra.
  - pose proof (p2_pos e). assert (0 <= IZR (Z.pos m)) by (apply IZR_le; lia).
    rewrite (Rabs_right (IZR (Z.pos m) * p2 e)) by nra.
    specialize (HR false m e He HF). unfold sf_sign in HR. rewrite Rmult_1_l in HR. exact HR.
  - pose proof (p2_pos e). assert (0 <= IZR (Z.pos m)) by (apply IZR_le; lia).
    specialize (HR true m e He HF). unfold sf_sign in HR.
    change (Z.neg m) with (- Z.pos m)%Z. rewrite opp_IZR.
    replace (- IZR (Z.pos m) * p2 e) with (-1 * (IZR (Z.pos m) * p2 e)) by ring.
    rewrite (Rabs_mult (-1)), (Rabs_left (-1)), (Rabs_right (IZR (Z.pos m) * p2 e)) by nra.
    replace (- -1 * (IZR (Z.pos m) * p2 e)) with (IZR (Z.pos m) * p2 e) by ring. exact HR.
Qed.

Lemma sf_sub_rep : forall a b, sf_rep a -> sf_rep b -> sf_fin (SFsub prec emax a b) -> sf_fin a /\ sf_fin b /\
  Rabs (sf_val (SFsub prec emax a b) - (sf_val a - sf_val b)) <= sf_u * Rabs (sf_val a - sf_val b).
Proof.
  assert (forall x y, x = y -> Rabs (x - y) <= sf_u * Rabs y) as HE.
  { intros x y ->. rewrite Rminus_eq_0, Rabs_R0. pose proof sf_u_pos. pose proof (Rabs_pos y). nra. }
  intros a b Ra Rb HF. destruct (sf_sub_ok a b HF) as (Fa & Fb & _). split; [exact Fa|]. split; [exact Fb|]. revert HF.
  destruct a as [sa|sa| |sa ma ea]; destruct b as [sb|sb| |sb mb eb]; try destruct Fa; try destruct Fb; cbn [SFsub];
    try (match goal with |- context [Bool.eqb ?a ?b] => destruct (Bool.eqb a b) end; cbn [sf_fin]; try (intros []; fail));
    intros HF; cbn [sf_val]; try (apply HE; ring).
  - apply HE. destruct sb; unfold sf_sign, negb; ring.
  - cbn [sf_rep] in Ra, Rb. pose proof (normalize_rep _ _ _ (Z.min_glb _ _ _ Ra Rb) HF) as HN.
    rewrite minus_IZR, Rmult_minus_distr_r, !aligned in HN by lia. exact HN.
Qed.

(** ** Small integers are exact *)
Lemma normalize_int : forall m e sz k, (prec < emax)%Z -> (0 <= k < 2 ^ prec)%Z -> IZR m * p2 e = IZR k ->
  sf_fin (binary_normalize prec emax m e sz) /\ sf_val (binary_normalize prec emax m e sz) = IZR k.
Proof.
  intros m e sz k Hmax Hk E. pose proof (p2_pos e) as Pe. assert (0 <= IZR k) as Rk by (apply IZR_le; lia).
  destruct m as [|m|m]; cbn [binary_normalize].
  - split; [exact I|]. cbn [sf_val]. rewrite <- E. ring.
  - unfold binary_round. pose proof (shl_align_val m e (fexp (Z.pos (digits2_pos m) + e))) as HV.
    set (d := Z.pos (digits2_pos m)) in *.
    assert (d + e <= prec)%Z as Hde.
    { destruct (Z_le_gt_dec (d + e) prec) as [L|G]; [exact L|exfalso]. destruct (digits_bounds m) as [B _]. fold d in B. apply IZR_le in B.
      rewrite <- p2_pow in B by lia. assert (p2 (d - 1) * p2 e <= IZR k) as U by (rewrite <- E; nra). rewrite <- p2_add in U.
      pose proof (p2_le prec (d - 1 + e) ltac:(lia)) as U2. rewrite (p2_pow prec) in U2 by lia.
      assert (IZR k < IZR (2 ^ prec)) by (apply IZR_lt; lia). lra. }
    assert (Z.max (snd (shl_align m e (fexp (d + e)))) (fexp (Zdigits2 (Z.pos (fst (shl_align m e (fexp (d + e))))) + snd (shl_align m e (fexp (d + e))))) = fexp (d + e)) as HE.
    { unfold shl_align. destruct (fexp (d + e) - e)%Z as [|p|p] eqn:EF; cbn [fst snd Zdigits2]; fold d; try lia.
      set (m2 := shift_pos p m). assert (Z.pos m2 = Z.pos m * 2 ^ Z.pos p)%Z as E2.
      { unfold m2. rewrite shift_pos_correct, Zpower_pos_nat, Zpower_nat_Z, positive_nat_Z. lia. }
      assert (Z.pos (digits2_pos m2) <= d + Z.pos p)%Z as D1.
      { apply digits_le; [lia|]. rewrite E2, Z.pow_add_r by lia. destruct (digits_bounds m) as [_ B]. fold d in B.
        apply Z.mul_lt_mono_pos_r; [apply Z.pow_pos_nonneg; lia|exact B]. }
      assert (fexp (Z.pos (digits2_pos m2) + fexp (d + e)) <= fexp (d + e))%Z; [|lia].
      unfold SpecFloat.fexp in *. lia. }
    destruct (shl_align m e (fexp (d + e))) as [mz ez]. cbn [fst snd] in HV, HE.
    destruct (round_aux_val false (Z.pos mz) ez loc_Exact (IZR k) (exact_inv (Z.pos mz) ez (IZR k) (Pos2Z.is_nonneg mz) (eq_trans (eq_sym E) (eq_sym HV)))) as (s1 & I1 & _ & HVal & HFin).
    rewrite HE in *. assert (fexp (d + e) <= 0)%Z as HF0 by (unfold SpecFloat.fexp, SpecFloat.emin in *; lia).
    assert (sf_fin (binary_round_aux prec emax false (Z.pos mz) ez loc_Exact)) as F by (apply HFin; lia).
    split; [exact F|]. rewrite (HVal F). clear HVal HFin.
    pose proof (p2_pos (fexp (d + e))) as P1.
    assert (IZR k / p2 (fexp (d + e)) = IZR (k * 2 ^ (- fexp (d + e)))) as EI.
    { rewrite mult_IZR, <- p2_pow, p2_opp by lia. reflexivity. }
    destruct (round_inv _ _ I1) as (_ & _ & RX). rewrite EI in *. pose proof (inv_integer _ _ I1) as ES. rewrite RX by (rewrite ES; reflexivity).
    rewrite ES, <- EI. unfold sf_sign. field. lra.
  - exfalso. assert (IZR (Z.neg m) < 0) by (apply IZR_lt; lia). nra.
Qed.
End Format.
