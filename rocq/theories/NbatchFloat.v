(** The number of batches in binary64 arithmetic (C48):
    nb = int(np.ceil(float(N) / self.batch))
    hp_elm.py:134, 204, 260, 339, 425, 494, 570, elm.py:221, 334.
    Floating-point numbers and division are those of Coq.Floats.SpecFloat (definitions
    only, no axiom); Python converts both integers to binary64, round to nearest even. *)
From Coq Require Import ZArith Lia Bool SpecFloat.
From Verif Require Import Base.
Local Open Scope Z_scope.

(** float(n) *)
Definition py_float (n : Z) : spec_float := binary_normalize 53 1024 n 0 false.
(** int(np.ceil(x)); None: raises (infinity, not a number) *)
Definition py_ceil (x : spec_float) : option Z :=
  match x with
  | S754_zero _ => Some 0
  | S754_finite s m e =>
    let z := if s then Zneg m else Zpos m in
    Some (if 0 <=? e then z * 2 ^ e else - (- z / 2 ^ (- e)))
  | _ => None
  end.
(** Python raises ZeroDivisionError for batch 0, this is not part of the function *)
Definition float_nbatches (n batch : Z) : option Z := py_ceil (SFdiv 53 1024 (py_float n) (py_float batch)).

(** ** Digits *)
Lemma digits_bounds : forall p, 2 ^ (Zpos (digits2_pos p) - 1) <= Zpos p < 2 ^ Zpos (digits2_pos p).
Proof.
  induction p as [p IH|p IH|]; cbn [digits2_pos]; [| |cbn; lia]; rewrite Pos2Z.inj_succ;
    set (d := Zpos (digits2_pos p)) in *; assert (0 < d) as Hd by (subst d; lia); clearbody d;
    replace (Z.succ d - 1) with ((d - 1) + 1) by lia; replace (Z.succ d) with (d + 1) by lia;
    rewrite !Z.pow_add_r by lia; change (2 ^ 1) with 2.
  - rewrite Pos2Z.inj_xI. lia.
  - rewrite (Pos2Z.inj_xO p). lia.
Qed.
Lemma digits_unique : forall p d, 0 < d -> 2 ^ (d - 1) <= Zpos p < 2 ^ d -> Zpos (digits2_pos p) = d.
Proof.
  intros p d Hd [H1 H2]. pose proof (digits_bounds p) as [B1 B2]. set (k := Zpos (digits2_pos p)) in *.
  assert (0 < k) as Hk by (subst k; lia). clearbody k.
  destruct (Z.lt_trichotomy k d) as [L|[E|G]]; auto; exfalso.
  - assert (2 ^ k <= 2 ^ (d - 1)) by (apply Z.pow_le_mono_r; lia). lia.
  - assert (2 ^ d <= 2 ^ (k - 1)) by (apply Z.pow_le_mono_r; lia). lia.
Qed.

Lemma fexp_normal : forall e, -1021 <= e -> fexp 53 1024 e = e - 53.
Proof. intros e H. unfold fexp, emin. lia. Qed.

(** ** float(n) is exact below 2^53 *)
Lemma shift_pos_mul : forall d p, Zpos (shift_pos d p) = Zpos p * 2 ^ Zpos d.
Proof. intros. rewrite Zpower.shift_pos_correct. rewrite Zpower_pos_is_exp || idtac. rewrite Zpower.Zpower_pos_nat, <- Zpower.Zpower_pos_nat. unfold Z.pow. lia. Qed.

Lemma shr_fexp_53 : forall m e, 2 ^ 52 <= Zpos m < 2 ^ 53 -> -1074 <= e ->
  shr_fexp 53 1024 (Zpos m) e loc_Exact = (Build_shr_record (Zpos m) false false, e).
Proof.
  intros m e Hm He. unfold shr_fexp. cbn [Zdigits2]. rewrite (digits_unique m 53) by lia.
  rewrite fexp_normal by lia. replace (53 + e - 53 - e) with 0 by lia. reflexivity.
Qed.

Lemma py_float_ok : forall n, 0 < n < 2 ^ 53 -> exists m e, py_float n = S754_finite false m e /\
  2 ^ 52 <= Zpos m < 2 ^ 53 /\ -52 <= e <= 0 /\ Zpos m = n * 2 ^ (- e).
Proof.
  intros [|p|p] Hn; try lia. unfold py_float, binary_normalize, binary_round.
  pose proof (digits_bounds p) as [B1 B2]. set (d := Zpos (digits2_pos p)) in *.
  assert (0 < d) as Hd by (subst d; lia).
  assert (d <= 53) as Hd2.
  { destruct (Z_le_gt_dec d 53) as [L|G]; [exact L|]. assert (2 ^ 53 <= 2 ^ (d - 1)) by (apply Z.pow_le_mono_r; lia). lia. }
  replace (d + 0) with d by lia. rewrite fexp_normal by lia.
  assert (exists m, shl_align p 0 (d - 53) = (m, d - 53) /\ Zpos m = Zpos p * 2 ^ (- (d - 53))) as (m & -> & Em).
  { unfold shl_align. replace (d - 53 - 0) with (d - 53) by lia. destruct (d - 53) as [|k|k] eqn:E; [|lia|].
    - exists p. split; [reflexivity|]. cbn. lia.
    - exists (shift_pos k p). split; [reflexivity|]. rewrite shift_pos_mul. reflexivity. }
  assert (2 ^ 52 <= Zpos m < 2 ^ 53) as Hm.
  { rewrite Em. assert (0 < 2 ^ (- (d - 53))) as HP by (apply Z.pow_pos_nonneg; lia).
    assert (2 ^ 52 = 2 ^ (d - 1) * 2 ^ (- (d - 53))) as -> by (rewrite <- Z.pow_add_r by lia; f_equal; lia).
    assert (2 ^ 53 = 2 ^ d * 2 ^ (- (d - 53))) as -> by (rewrite <- Z.pow_add_r by lia; f_equal; lia).
    split; [apply Z.mul_le_mono_nonneg_r|apply Z.mul_lt_mono_pos_r]; lia. }
  exists m, (d - 53). split; [|split; [exact Hm|split; [lia|exact Em]]].
  unfold binary_round_aux. rewrite shr_fexp_53 by lia. cbn [shr_m loc_of_shr_record round_nearest_even].
  rewrite shr_fexp_53 by lia. cbn [shr_m].
  assert (Zle_bool (d - 53) (1024 - 53) = true) as -> by (apply Zle_imp_le_bool; lia). reflexivity.
Qed.

(** ** The division *)
Definition loc_spec (w r : Z) (l : location) : Prop :=
  match l with
  | loc_Exact => r = 0
  | loc_Inexact Lt => 0 < r /\ 2 * r < w
  | loc_Inexact Eq => 2 * r = w /\ 0 < r
  | loc_Inexact Gt => w < 2 * r
  end.
Lemma new_location_spec : forall w r, 0 <= r < w -> loc_spec w r (new_location w r).
Proof.
  intros w r Hr.
  assert (Zeq_bool r 0 = (r =? 0)) as EZ
    by (destruct (Z.eqb_spec r 0) as [->|N]; [reflexivity|]; destruct (Zeq_bool r 0) eqn:E; [apply Zeq_bool_eq in E; lia|reflexivity]).
  unfold new_location. destruct (Z.even w) eqn:Ew; unfold new_location_even, new_location_odd; rewrite EZ;
    destruct (Z.eqb_spec r 0) as [->|N]; try reflexivity; cbn [loc_spec].
  - destruct (Z.compare_spec (2 * r) w); lia.
  - assert (w mod 2 = 1) as Hw by (rewrite Zmod_odd, <- Z.negb_even, Ew; reflexivity).
    pose proof (Z.div_mod w 2 ltac:(lia)). destruct (Z.compare_spec (2 * r + 1) w); lia.
Qed.

(** rounding A / W: m = floor, and the fraction as in [loc_spec] *)
Lemma round_spec : forall m l A W, 0 < W -> loc_spec W (A - m * W) l -> 0 <= A - m * W < W ->
  let M := round_nearest_even m l in
  m <= M <= m + 1 /\ (M = m -> 2 * (A - m * W) <= W) /\ (M = m + 1 -> 0 < A - m * W).
Proof.
  intros m l A W HW HL HA. unfold round_nearest_even. destruct l as [|[]]; cbn [loc_spec] in HL; [| destruct (Z.even m) | |]; cbv zeta; repeat split; try lia.
Qed.

Lemma loc_record : forall m l, loc_of_shr_record (shr_record_of_loc m l) = l /\ shr_m (shr_record_of_loc m l) = m.
Proof. intros m [|[]]; split; reflexivity. Qed.

(** one more bit is dropped *)
Lemma shr_1_spec : forall q w r l, 0 < q -> 0 <= r < w -> loc_spec w r l ->
  let s := shr_1 (shr_record_of_loc q l) in
  shr_m s = q / 2 /\ loc_spec (2 * w) (q * w + r - (q / 2) * (2 * w)) (loc_of_shr_record s).
Proof.
  intros q w r l Hq Hr HL. pose proof (Z.div_mod q 2 ltac:(lia)) as HD. pose proof (Z.mod_pos_bound q 2 ltac:(lia)) as HB.
  assert (exists b : bool, q mod 2 = Z.b2z b /\ shr_1 (shr_record_of_loc q l) =
    Build_shr_record (q / 2) b (match l with loc_Exact => false | _ => true end)) as (b & Eb & ->).
  { destruct q as [|p|p]; try lia. destruct p as [p|p|].
    - exists true. split; [rewrite Pos2Z.inj_xI, Z.add_comm, Z.mul_comm, Z.mod_add by lia; reflexivity|].
      assert (Zpos p~1 / 2 = Zpos p) as -> by (rewrite Pos2Z.inj_xI; symmetry; apply Z.div_unique with 1; lia).
      destruct l as [|[]]; reflexivity.
    - exists false. split; [rewrite (Pos2Z.inj_xO p), Z.mul_comm, Z.mod_mul by lia; reflexivity|].
      assert (Zpos p~0 / 2 = Zpos p) as -> by (rewrite (Pos2Z.inj_xO p); symmetry; apply Z.div_unique with 0; lia).
      destruct l as [|[]]; reflexivity.
    - exists true. split; [reflexivity|]. change (1 / 2) with 0. destruct l as [|[]]; reflexivity. }
  cbn [shr_m]. split; [reflexivity|].
  assert (q * w + r - q / 2 * (2 * w) = Z.b2z b * w + r) as -> by (rewrite <- Eb; nia).
  destruct l as [|[]]; cbn [loc_spec] in HL; destruct b; cbn [loc_of_shr_record loc_spec Z.b2z]; lia.
Qed.

(** the second normalisation is exact *)
Lemma py_ceil_finite : forall m e, py_ceil (S754_finite false m e) = Some (if 0 <=? e then Zpos m * 2 ^ e else ceil_div (Zpos m) (2 ^ (- e))).
Proof. reflexivity. Qed.

Lemma finish_round : forall M e C, 2 ^ 52 <= M <= 2 ^ 53 -> -1074 <= e <= 0 ->
  (C - 1) * 2 ^ (- e) < M <= C * 2 ^ (- e) ->
  py_ceil (let '(mrs, e') := shr_fexp 53 1024 M e loc_Exact in
           match shr_m mrs with
           | Z0 => S754_zero false
           | Zpos m => if Zle_bool e' (1024 - 53) then S754_finite false m e' else S754_infinity false
           | _ => S754_nan
           end) = Some C.
Proof.
  intros M e C HM He HC. assert (0 < 2 ^ (- e)) as HP by (apply Z.pow_pos_nonneg; lia).
  assert (forall m u, 0 < u -> (C - 1) * u < m <= C * u -> ceil_div m u = C) as HCD.
  { intros m u Hu Hm. unfold ceil_div. assert (- m / u = - C) as -> by (symmetry; apply Z.div_unique with (C * u - m); nia). lia. }
  destruct (Z.eq_dec M (2 ^ 53)) as [->|N].
  - change (2 ^ 53) with (Zpos (2 ^ 53)%positive). unfold shr_fexp. change (Zdigits2 (Zpos (2 ^ 53)%positive)) with 54.
    rewrite fexp_normal by lia. replace (54 + e - 53 - e) with 1 by lia.
    change (shr (shr_record_of_loc (Zpos (2 ^ 53)) loc_Exact) e 1) with (Build_shr_record (Zpos (2 ^ 52)) false false, e + 1).
    cbn [shr_m]. assert (Zle_bool (e + 1) (1024 - 53) = true) as -> by (apply Zle_imp_le_bool; lia).
    rewrite py_ceil_finite. f_equal. destruct (Z.leb_spec 0 (e + 1)) as [L|L].
    + assert (e = 0 \/ e = -1) as [->| ->] by lia.
      * change (- 0) with 0 in HC. change (2 ^ 0) with 1 in HC. change (Zpos (2 ^ 52) * 2 ^ (0 + 1)) with (2 ^ 53). lia.
      * change (- -1) with 1 in HC. change (2 ^ 1) with 2 in HC. change (Zpos (2 ^ 52) * 2 ^ (-1 + 1)) with (2 ^ 52).
        change (2 ^ 53) with (2 * 2 ^ 52) in HC. lia.
    + apply HCD; [apply Z.pow_pos_nonneg; lia|]. replace (- e) with (- (e + 1) + 1) in HC by lia. rewrite Z.pow_add_r in HC by lia.
      change (2 ^ 1) with 2 in HC. change (2 ^ 53) with (2 * Zpos (2 ^ 52)) in HC. nia.
  - destruct M as [|m|m]; try lia. rewrite shr_fexp_53 by lia. cbn [shr_m].
    assert (Zle_bool e (1024 - 53) = true) as -> by (apply Zle_imp_le_bool; lia).
    rewrite py_ceil_finite. f_equal. destruct (Z.leb_spec 0 e) as [L|L].
    + assert (e = 0) as -> by lia. change (- 0) with 0 in HC. change (2 ^ 0) with 1 in *. lia.
    + apply HCD; auto.
Qed.

Lemma ceil_pos : forall n b, 0 < b -> (ceil_div n b - 1) * b < n <= ceil_div n b * b.
Proof.
  intros n b Hb. unfold ceil_div. pose proof (Z.div_mod (- n) b ltac:(lia)). pose proof (Z.mod_pos_bound (- n) b Hb). nia.
Qed.

(** M is N * 2^u / b rounded: M / 2^u has the ceiling of N / b *)
Lemma ceil_rounded : forall N b u M0 M, 0 <= u -> 0 < N < 2 ^ 53 -> 0 < b -> 2 ^ 52 <= M0 ->
  let A := N * 2 ^ u in
  0 <= A - M0 * b < b -> M0 <= M <= M0 + 1 -> (M = M0 -> 2 * (A - M0 * b) <= b) -> (M = M0 + 1 -> 0 < A - M0 * b) ->
  (ceil_div N b - 1) * 2 ^ u < M <= ceil_div N b * 2 ^ u.
Proof.
  intros N b u M0 M Hu HN Hb HM0 A HA HM H1 H2. pose proof (ceil_pos N b Hb) as HC. set (C := ceil_div N b) in *.
  assert (0 < 2 ^ u) as HP by (apply Z.pow_pos_nonneg; lia). subst A. set (U := 2 ^ u) in *. clearbody C U.
  assert (b < 2 * U) as Hbu. { assert (2 ^ 52 * b < 2 ^ 53 * U) by nia. change (2 ^ 53) with (2 ^ 52 * 2) in H. nia. }
  split.
  - assert ((C - 1) * U <= M0) as HL by nia. destruct (Z.eq_dec M0 ((C - 1) * U)) as [E|NE]; [|lia].
    assert (U <= N * U - M0 * b) by nia. destruct (Z.eq_dec M M0) as [E2|]; [|lia]. specialize (H1 E2). lia.
  - destruct (Z.eq_dec M M0) as [->|NE]; [nia|]. assert (M = M0 + 1) as EM by lia. specialize (H2 EM).
    assert (M0 * b < C * U * b) by nia. assert (M0 < C * U) by nia. lia.
Qed.

Lemma div_mul_cancel : forall a b k, 0 < k -> 0 < b -> (a * k) / (b * k) = a / b.
Proof. intros. apply Z.div_mul_cancel_r; lia. Qed.

Theorem float_nbatches_exact : forall N b, 0 <= N < 2 ^ 53 -> 1 <= b < 2 ^ 53 -> float_nbatches N b = Some (ceil_div N b).
Proof.
  intros N b HN Hb. unfold float_nbatches.
  destruct (py_float_ok b ltac:(lia)) as (m2 & e2 & -> & Hm2 & He2 & E2).
  destruct (Z.eq_dec N 0) as [->|N0].
  { reflexivity. }
  destruct (py_float_ok N ltac:(lia)) as (m1 & e1 & -> & Hm1 & He1 & E1).
  cbn [SFdiv xorb]. unfold SFdiv_core_binary. cbn [Zdigits2].
  rewrite (digits_unique m1 53), (digits_unique m2 53) by lia.
  replace (53 + e1 - (53 + e2)) with (e1 - e2) by lia. rewrite fexp_normal by lia.
  replace (Z.min (e1 - e2 - 53) (e1 - e2)) with (e1 - e2 - 53) by lia.
  replace (e1 - e2 - (e1 - e2 - 53)) with 53 by lia.
  change (match 53 with Z0 => Zpos m1 | Zpos _ => Z.shiftl (Zpos m1) 53 | Zneg _ => 0 end) with (Z.shiftl (Zpos m1) 53).
  rewrite Z.shiftl_mul_pow2 by lia.
  pose proof (Z_div_mod (Zpos m1 * 2 ^ 53) (Zpos m2) ltac:(lia)) as HD.
  destruct (Z.div_eucl (Zpos m1 * 2 ^ 53) (Zpos m2)) as [q r]. destruct HD as [HD Hr].
  pose proof (new_location_spec (Zpos m2) r Hr) as HL. set (l := new_location (Zpos m2) r) in *. clearbody l.
  set (ez := e1 - e2 - 53). assert (-105 <= ez <= -1) as Hez by (subst ez; lia).
  assert (2 ^ 52 <= q < 2 ^ 54) as Hq.
  { change (2 ^ 54) with (4 * 2 ^ 52). change (2 ^ 53) with (2 * 2 ^ 52) in *. set (P := 2 ^ 52) in *. assert (0 < P) by (subst P; lia).
    clearbody P. set (x2 := Zpos m2) in *. set (x1 := Zpos m1) in *. clearbody x1 x2. clear - HD Hr Hm1 Hm2 H.
    split.
    - destruct (Z_le_gt_dec P q) as [L|G]; [exact L|exfalso]. assert ((q + 1) * x2 <= P * x2) by nia. assert (P * x2 < P * (2 * P)) by nia.
      assert (P * (2 * P) <= x1 * (2 * P)) by nia. nia.
    - destruct (Z_lt_ge_dec q (4 * P)) as [L|G]; [exact L|exfalso]. assert (4 * P * P <= q * x2) by nia. assert (x1 * (2 * P) < 4 * P * P) by nia. nia. }
  (* N * 2^u / b in terms of m1, m2 *)
  assert (forall u k, 0 <= u -> 0 <= k -> u + ez = k -> N * 2 ^ u * 2 ^ (- e2) = (q * Zpos m2 + r) * 2 ^ k) as HS.
  { intros u k Hu Hk Huk. replace (q * Zpos m2 + r) with (Zpos m1 * 2 ^ 53) by lia. rewrite E1.
    rewrite <- !Z.mul_assoc, <- !Z.pow_add_r by lia. do 2 f_equal. subst ez. lia. }
  assert (0 < 2 ^ (- e2)) as HP2 by (apply Z.pow_pos_nonneg; lia).
  unfold binary_round_aux, shr_fexp at 1.
  destruct q as [|q|q]; try lia. cbn [Zdigits2].
  destruct (Z_lt_ge_dec (Zpos q) (2 ^ 53)) as [L|G].
  - rewrite (digits_unique q 53) by lia. rewrite fexp_normal by lia.
    replace (53 + ez - 53 - ez) with 0 by lia. cbn [shr]. destruct (loc_record (Zpos q) l) as [-> ->].
    pose proof (HS (- ez) 0 ltac:(lia) ltac:(lia) ltac:(lia)) as HA. change (2 ^ 0) with 1 in HA.
    assert (loc_spec (Zpos m2) (Zpos q * Zpos m2 + r - Zpos q * Zpos m2) l) as HL2 by (replace (Zpos q * Zpos m2 + r - Zpos q * Zpos m2) with r by lia; exact HL).
    destruct (round_spec (Zpos q) l (Zpos q * Zpos m2 + r) (Zpos m2) ltac:(lia) HL2 ltac:(lia)) as (R1 & R2 & R3).
    set (M := round_nearest_even (Zpos q) l) in *. clearbody M.
    apply finish_round; [lia|lia|]. rewrite E2 in *.
    apply (ceil_rounded N b (- ez) (Zpos q) M); try lia; nia.
  - rewrite (digits_unique q 54) by lia. rewrite fexp_normal by lia.
    replace (54 + ez - 53 - ez) with 1 by lia.
    change (shr (shr_record_of_loc (Zpos q) l) ez 1) with (shr_1 (shr_record_of_loc (Zpos q) l), ez + 1).
    destruct (shr_1_spec (Zpos q) (Zpos m2) r l ltac:(lia) Hr HL) as [S1 S2]. cbv zeta in S1, S2.
    set (s := shr_1 (shr_record_of_loc (Zpos q) l)) in *. clearbody s. rewrite S1.
    set (M0 := Zpos q / 2) in *. pose proof (Z.div_mod (Zpos q) 2 ltac:(lia)) as HQ. pose proof (Z.mod_pos_bound (Zpos q) 2 ltac:(lia)) as HQ2. fold M0 in HQ.
    set (bit := Zpos q mod 2) in *. clearbody M0 bit.
    assert (0 <= Zpos q * Zpos m2 + r - M0 * (2 * Zpos m2) < 2 * Zpos m2) as HA0 by nia.
    destruct (round_spec M0 (loc_of_shr_record s) (Zpos q * Zpos m2 + r) (2 * Zpos m2) ltac:(lia) S2 HA0) as (R1 & R2 & R3).
    set (M := round_nearest_even M0 (loc_of_shr_record s)) in *. clearbody M.
    pose proof (HS (- (ez + 1) + 1) 0 ltac:(lia) ltac:(lia) ltac:(lia)) as HA. change (2 ^ 0) with 1 in HA. rewrite Z.pow_add_r in HA by lia. change (2 ^ 1) with 2 in HA.
    assert (2 ^ 52 <= M0 < 2 ^ 53) as HM0 by (change (2 ^ 53) with (2 * 2 ^ 52) in *; change (2 ^ 54) with (4 * 2 ^ 52) in *; lia).
    apply finish_round; [lia|lia|]. rewrite E2 in *. set (U := 2 ^ (- (ez + 1))) in *. set (V := 2 ^ (- e2)) in *.
    assert (2 * V * (N * U) = Zpos q * (b * V) + r) as HA' by nia.
    apply (ceil_rounded N b (- (ez + 1)) M0 M); try lia; fold U; clearbody U V.
    + split; nia.
    + intros EM. specialize (R2 EM). nia.
    + intros EM. specialize (R3 EM). nia.
Qed.
