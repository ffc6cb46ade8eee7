(** A library whose exp and tanh round to the nearest double (up to one unit in the last place) meets the hypotheses of C107. *)
From Coq Require Import ZArith Reals Lra Lia Floats.SpecFloat.
From Verif Require Import Base Num Mat LinAlg Slfn Strs Elm Float Rounding RoundThms RoundNet.
Local Open Scope R_scope.

Definition lib_tanh (a : spec_float) : spec_float := binary_normalize 53 1024 (up (tanh (sf_val a) * p2 60)) (-60) false.
Definition exp_scale (a : spec_float) : Z := up (60 - sf_val a / ln 2).
Definition lib_exp (a : spec_float) : spec_float := binary_normalize 53 1024 (up (exp (sf_val a) * p2 (exp_scale a))) (- exp_scale a) false.

Lemma up_close : forall y s, Rabs (IZR (up (y * p2 s)) * p2 (- s) - y) <= p2 (- s).
Proof.
  intros y s. destruct (archimed (y * p2 s)) as [A B]. pose proof (p2_pos (- s)) as P.
  assert (p2 s * p2 (- s) = 1) as E by (rewrite <- p2_add, Z.add_opp_diag_r; reflexivity).
  replace (IZR (up (y * p2 s)) * p2 (- s) - y) with ((IZR (up (y * p2 s)) - y * p2 s) * p2 (- s)) by (rewrite Rmult_minus_distr_r, Rmult_assoc, E; ring).
  rewrite Rabs_mult, !Rabs_right by lra. nra.
Qed.
Lemma small_p2 : p2 (-60) + p2 (-53) * (1 + p2 (-60)) + p2 (-1075) <= p2 (-52).
Proof.
  assert (p2 (-1075) <= p2 (-60)) as A by (apply p2_le; lia). pose proof (p2_pos (-60)).
  assert (p2 (-53) <= 1) as B by (rewrite <- p2_0; apply p2_le; lia).
  replace (-52)%Z with (-53 + 1)%Z by lia. rewrite p2_add, p2_1.
  assert (p2 (-53) = p2 (-60) * 128) as C. { replace (-53)%Z with (-60 + 7)%Z by lia. rewrite p2_add. f_equal. unfold p2. simpl. lra. }
  rewrite C in *. nra.
Qed.
Lemma close_normalize : forall m e sz y d, Rabs (IZR m * p2 e - y) <= d -> sf_fin (binary_normalize 53 1024 m e sz) ->
  Rabs (sf_val (binary_normalize 53 1024 m e sz) - y) <= d + p2 (-53) * (Rabs y + d) + p2 (-1075).
Proof.
  intros m e sz y d H F. pose proof (normalize_ok 53 1024 ltac:(lia) m e sz F) as Q. change (sf_u 53) with (p2 (-53)) in Q. change (sf_eta 53 1024) with (p2 (-1075)) in Q.
  match goal with |- Rabs (?a - y) <= _ => replace (a - y) with ((a - IZR m * p2 e) + (IZR m * p2 e - y)) by ring end. eapply Rle_trans; [apply Rabs_triang|].
  assert (Rabs (IZR m * p2 e) <= Rabs y + d) as B. { replace (IZR m * p2 e) with (y + (IZR m * p2 e - y)) by ring. eapply Rle_trans; [apply Rabs_triang|]. lra. }
  pose proof (p2_pos (-53)). nra.
Qed.
Lemma tanh_le1 : forall x, Rabs (tanh x) <= 1.
Proof.
  intros x. unfold tanh, sinh, cosh. pose proof (exp_pos x). pose proof (exp_pos (- x)).
  replace ((exp x - exp (- x)) / 2 / ((exp x + exp (- x)) / 2)) with ((exp x - exp (- x)) * / (exp x + exp (- x))) by (field; lra).
  rewrite Rabs_mult, (Rabs_right (/ _)) by (apply Rle_ge, Rlt_le, Rinv_0_lt_compat; lra).
  apply (Rmult_le_reg_r (exp x + exp (- x))); [lra|]. rewrite Rmult_assoc, Rinv_l, Rmult_1_r, Rmult_1_l by lra. apply Rabs_le. lra.
Qed.
Lemma exp_scale_ok : forall a, p2 (- exp_scale a) <= p2 (-60) * exp (sf_val a).
Proof.
  intros a. unfold exp_scale. destruct (archimed (60 - sf_val a / ln 2)) as [A _]. set (s := up (60 - sf_val a / ln 2)) in *.
  assert (0 < ln 2) as L by (rewrite <- ln_1; apply ln_increasing; lra).
  assert (forall z, p2 z = exp (IZR z * ln 2)) as E. { intros z. unfold p2. rewrite powerRZ_Rpower by lra. unfold Rpower. reflexivity. }
  rewrite !E, <- exp_plus. rewrite opp_IZR. assert (- IZR s * ln 2 <= -60 * ln 2 + sf_val a) as B.
  { apply Rgt_lt in A. apply (Rmult_lt_compat_r (ln 2)) in A; [|exact L]. rewrite Rmult_minus_distr_r in A. unfold Rdiv in A. rewrite Rmult_assoc, Rinv_l, Rmult_1_r in A by lra. lra. }
  destruct B as [B|B]; [left; apply exp_increasing; exact B|right; f_equal; exact B].
Qed.
Theorem double_library : library (rounded_64 lib_exp lib_tanh) (p2 (-52)) /\ kappa (rounded_64 lib_exp lib_tanh) (p2 (-52)) < p2 (-51).
Proof.
  pose proof (p2_pos (-60)) as P60. pose proof (p2_pos (-53)) as P53. pose proof (p2_pos (-52)) as P52. pose proof (p2_pos (-1075)) as P1. pose proof small_p2 as SM.
  split; [split|].
  - lra.
  - reflexivity || (cbn; unfold sf_sign, p2; simpl; lra).
  - intros a Fa Ft. change (Rabs (sf_val (lib_tanh a) - tanh (sf_val a)) <= p2 (-52)). change (sf_fin (lib_tanh a)) in Ft. unfold lib_tanh in *.
    eapply Rle_trans; [apply close_normalize; [exact (up_close (tanh (sf_val a)) 60)|exact Ft]|]. pose proof (tanh_le1 (sf_val a)). change (- (60))%Z with (-60)%Z. nra.
  - intros a Fa Fe. change (Rabs (sf_val (lib_exp a) - exp (sf_val a)) <= p2 (-52) * exp (sf_val a) + p2 (-1075)). change (sf_fin (lib_exp a)) in Fe. unfold lib_exp in *.
    eapply Rle_trans; [apply close_normalize; [exact (up_close (exp (sf_val a)) (exp_scale a))|exact Fe]|].
    pose proof (exp_scale_ok a) as S. pose proof (exp_pos (sf_val a)) as PE. set (d := p2 (- exp_scale a)) in *. set (E := exp (sf_val a)) in *. rewrite (Rabs_right E) by lra.
    assert (p2 (-53) * (E + d) <= p2 (-53) * (E + p2 (-60) * E)) by (apply Rmult_le_compat_l; lra).
    assert ((p2 (-60) + p2 (-53) * (1 + p2 (-60))) * E <= p2 (-52) * E) by (apply Rmult_le_compat_r; lra). lra.
  - unfold kappa. change (r_u _ (rounded_64 lib_exp lib_tanh)) with (p2 (-53)). change (r_eta _ (rounded_64 lib_exp lib_tanh)) with (p2 (-1075)).
    assert (p2 (-1075) <= p2 (-60)) as A by (apply p2_le; lia).
    assert (p2 (-53) = p2 (-60) * 128) as C. { replace (-53)%Z with (-60 + 7)%Z by lia. rewrite p2_add. f_equal. unfold p2. simpl. lra. }
    assert (p2 (-52) = p2 (-60) * 256) as C2. { replace (-52)%Z with (-60 + 8)%Z by lia. rewrite p2_add. f_equal. unfold p2. simpl. lra. }
    assert (p2 (-51) = p2 (-60) * 512) as C3. { replace (-51)%Z with (-60 + 9)%Z by lia. rewrite p2_add. f_equal. unfold p2. simpl. lra. }
    assert (p2 (-60) <= / 1000000) as D. { replace (-60)%Z with (-20 + -40)%Z by lia. rewrite p2_add. assert (p2 (-40) <= 1) by (rewrite <- p2_0; apply p2_le; lia). assert (p2 (-20) <= / 1000000) by (unfold p2; simpl; lra). pose proof (p2_pos (-20)). pose proof (p2_pos (-40)). nra. }
    rewrite C, C2, C3. nra.
Qed.

(** a coarse but computable tanh, for the concrete network below *)
Definition coarse_tanh (a : spec_float) : spec_float := match a with S754_finite s _ _ => S754_finite s (2 ^ 52)%positive (-53) | _ => S754_zero false end.
Definition no_exp (_ : spec_float) : spec_float := S754_nan.
Theorem coarse_library : library (rounded_64 no_exp coarse_tanh) (1 / 2) /\ kappa (rounded_64 no_exp coarse_tanh) (1 / 2) < 1.
Proof.
  assert (p2 (-53) <= / 1000000) as D. { replace (-53)%Z with (-20 + -33)%Z by lia. rewrite p2_add. assert (p2 (-33) <= 1) by (rewrite <- p2_0; apply p2_le; lia). assert (p2 (-20) <= / 1000000) by (unfold p2; simpl; lra). pose proof (p2_pos (-20)). pose proof (p2_pos (-33)). nra. }
  assert (p2 (-1075) <= p2 (-53)) as A by (apply p2_le; lia). pose proof (p2_pos (-53)). pose proof (p2_pos (-1075)).
  split; [split|].
  - lra.
  - cbn; unfold sf_sign, p2; simpl; lra.
  - intros a Fa _. change (Rabs (sf_val (coarse_tanh a) - tanh (sf_val a)) <= 1 / 2). 
    assert (IZR (Z.pos (2 ^ 52)) * p2 (-53) = 1 / 2) as EH. { change (Z.pos (2 ^ 52)) with (2 ^ 52)%Z. rewrite <- p2_pow by lia. rewrite <- p2_add. unfold p2. simpl. lra. }
    assert (tanh 0 = 0) as T0 by (unfold tanh, sinh, cosh; rewrite Ropp_0; field_simplify; pose proof (exp_pos 0); lra).
    assert (forall x, 0 <= x -> 0 <= tanh x <= 1) as TP.
    { intros x Hx. pose proof (tanh_le1 x) as T1. assert (tanh x <= 1) by (pose proof (Rle_abs (tanh x)); lra). split; [|lra].
      unfold tanh, sinh, cosh. pose proof (exp_pos x). pose proof (exp_pos (- x)). assert (exp (- x) <= exp x). { destruct Hx as [Hx| <-]; [left; apply exp_increasing; lra|rewrite Ropp_0; lra]. }
      unfold Rdiv. apply Rmult_le_pos; [lra|]. apply Rlt_le, Rinv_0_lt_compat. lra. }
    assert (forall x, tanh (- x) = - tanh x) as TN. { intros x. unfold tanh, sinh, cosh. rewrite Ropp_involutive. pose proof (exp_pos x). pose proof (exp_pos (- x)). field. lra. }
    destruct a as [s|s| |s m e]; try destruct Fa; cbn [sf_val coarse_tanh]; [rewrite T0, Rminus_0_r, Rabs_R0; lra|]. rewrite EH.
    assert (0 <= IZR (Z.pos m) * p2 e) as PP by (apply Rmult_le_pos; [apply IZR_le; lia|apply Rlt_le, p2_pos]). specialize (TP _ PP).
    destruct s; unfold sf_sign.
    + replace (-1 * (IZR (Z.pos m) * p2 e)) with (- (IZR (Z.pos m) * p2 e)) by ring. rewrite TN. apply Rabs_le. lra.
    + rewrite !Rmult_1_l. apply Rabs_le. lra.
  - intros a _ [].
  - unfold kappa. change (r_u _ (rounded_64 no_exp coarse_tanh)) with (p2 (-53)). change (r_eta _ (rounded_64 no_exp coarse_tanh)) with (p2 (-1075)). nra.
Qed.
