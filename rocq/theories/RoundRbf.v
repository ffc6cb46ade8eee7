(** Rounding error of networks that also have 'rbf_l1' and 'rbf_l2' neurons (C109). *)
From Coq Require Import ZArith Reals Lra Permutation Floats.SpecFloat.
From Verif Require Import Base Num Mat LinAlg Slfn Strs Elm Hpelm MatFacts SplitProofs ElmFacts TrainThms RangeThms ErrThms SumOf Float Rounding RoundThms WfProofs SubThms FeatureThms ConvertR RoundNet LibDouble Spec.
Local Open Scope R_scope.

Section Rbf.
Context {K : Num} (RD : rounded K).
Notation val := (r_val K RD).
Notation fin := (r_fin K RD).
Notation rep := (r_rep K RD).
Notation u := (r_u K RD).
Notation eta := (r_eta K RD).
Notation bnd := (bnd RD).
Notation vals := (vals RD).
Notation mags := (mags RD).

(** ---- specification ---- *)
(** changes of the sign are exact; no root of a negative number is finite *)
Record signs : Prop := mkSigns {
  g_opp : forall a, val (nopp a) = - val a; g_opp_fin : forall a, fin (nopp a) -> fin a;
  g_abs : forall a, val (nabs a) = Rabs (val a); g_abs_fin : forall a, fin (nabs a) -> fin a;
  g_sqrt : forall a, fin (nsqrt a) -> 0 <= val a }.
(** sum of the distances of the coordinates, and of their squares *)
Definition l1 (x w : vec) : R := Rsum (map2 (fun a c => Rabs (val a - val c)) x w).
Definition l2sq (x w : vec) : R := Rsum (map2 (fun a c => (val a - val c) ^ 2) x w).
(** squared distance; error of the computed one before it is squared; and after *)
Definition gap (f : ftype) (x w : vec) : R := match f with RbfL1 => l1 x w ^ 2 | _ => l2sq x w end.
Definition gap_err (f : ftype) (x w : vec) : R :=
  match f with
  | RbfL1 => let E := bnd (S (length x)) (l1 x w) (INR (length x)) in E * (2 * l1 x w + E)
  | _ => let E := bnd (3 + length x) (l2sq x w) (2 * INR (length x)) in
         let r := u * sqrt (l2sq x w + E) + eta in E + r * (2 * sqrt (l2sq x w + E) + r)
  end.
Definition sq_err (f : ftype) (x w : vec) : R := (1 + u) * gap_err f x w + u * gap f x w + eta.
(** error of the argument of exp *)
Definition arg_err (f : ftype) (x w : vec) (b : num) : R := (sq_err f x w + u * (gap f x w + sq_err f x w)) / val b + eta.
Definition rbf_err (v : R) (f : ftype) (x w : vec) (b : num) : R :=
  exp (- gap f x w / val b) * ((1 + v) * exp (arg_err f x w b) - 1) + eta.
(** the computed argument of exp *)
Definition rbf_arg (f : ftype) (x w : vec) (b : num) : num :=
  ndiv (nopp (nsq (match f with RbfL1 => nsum (map2 (fun a c => nabs (nsub a c)) x w) | _ => nsqrt (nsum (map2 (fun a c => nsq (nsub a c)) x w)) end))) b.
Definition is_rbf (f : ftype) : bool := match f with RbfL1 | RbfL2 => true | _ => false end.
(** representable inputs and centres, positive width, no overflow *)
Definition in_range (x : vec) (c : @cell K) : Prop := let '(f, w, b) := c in
  if is_rbf f then Forall rep x /\ Forall rep w /\ fin b /\ 0 < val b /\ fin (rbf_arg f x w b) else no_overflow RD x c.
Definition any_err (v : R) (x : vec) (c : @cell K) : R := let '(f, w, b) := c in if is_rbf f then rbf_err v f x w b else c_err RD v x c.

(** ---- distances ---- *)
Lemma sq_diff : forall a c E, 0 <= c -> Rabs (a - c) <= E -> Rabs (a * a - c * c) <= E * (2 * c + E).
Proof.
  intros a c E Hc HE. replace (a * a - c * c) with ((a - c) * (a + c)) by ring. rewrite Rabs_mult. apply Rmult_le_compat; auto using Rabs_pos.
  replace (a + c) with ((a - c) + 2 * c) by ring. pose proof (Rabs_triang (a - c) (2 * c)) as T. rewrite (Rabs_right (2 * c)) in T by lra. lra.
Qed.
Lemma combine_rep : forall x w, Forall rep x -> Forall rep w -> forall p, In p (combine x w) -> rep (fst p) /\ rep (snd p).
Proof.
  intros x w Hx Hw [a c] Hp. rewrite Forall_forall in Hx, Hw. split; [apply Hx; exact (in_combine_l _ _ _ _ Hp)|apply Hw; exact (in_combine_r _ _ _ _ Hp)].
Qed.
Lemma l1_nonneg : forall x w, 0 <= l1 x w.
Proof. intros. unfold l1. rewrite map2_combine. apply Rounding.Rsum_nonneg. intros p _. apply Rabs_pos. Qed.
Lemma l2_nonneg : forall x w, 0 <= l2sq x w.
Proof. intros. unfold l2sq. rewrite map2_combine. apply Rounding.Rsum_nonneg. intros p _. apply pow2_ge_0. Qed.
Lemma sum_err : forall (f : num * num -> num) (s : num * num -> R) k m (x w : vec), length x = length w -> 0 <= m ->
  (forall p, 0 <= s p) -> (forall p, In p (combine x w) -> fin (f p) -> Rabs (val (f p) - s p) <= bnd k (s p) m) ->
  fin (nsum (map f (combine x w))) ->
  Rabs (val (nsum (map f (combine x w))) - Rsum (map s (combine x w))) <= bnd (k + length x) (Rsum (map s (combine x w))) ((m + 1) * INR (length x)).
Proof.
  intros f s k m x w HL Hm Hs HT HF.
  destruct (sum_of_bound RD f s s (fun _ => m) k (combine x w) (nsum (map f (combine x w)))) as [_ B]; [| |apply so_nsum|exact HF|].
  { intros p _. split; [|exact Hm]. rewrite Rabs_right by (apply Rle_ge, Hs). lra. }
  { exact HT. }
  apply Rle_trans with (1 := B). assert (length (combine x w) = length x) as EL by (rewrite combine_length; lia).
  assert (Rsum (map (fun _ : num * num => m) (combine x w)) = m * INR (length x)) as EM.
  { rewrite <- EL. generalize (combine x w). induction l as [|q l IH]; [cbn; ring|]. cbn [map length]. rewrite S_INR. unfold Rsum in *. cbn [fold_right]. rewrite IH. ring. }
  rewrite EM, EL. apply bnd_mono; [lia| |].
  - split; [|lra]. apply Rounding.Rsum_nonneg. intros p _. apply Hs.
  - pose proof (pos_INR (length x)). pose proof (pos_INR (pred (length x))). assert (INR (pred (length x)) <= INR (length x)) by (apply le_INR; lia).
    assert (0 <= m * INR (length x)) by (apply Rmult_le_pos; auto). lra.
Qed.
Lemma gap_bound : signs -> forall f x w, is_rbf f = true -> length x = length w -> Forall rep x -> Forall rep w ->
  forall d, d = match f with RbfL1 => nsum (map2 (fun a c => nabs (nsub a c)) x w) | _ => nsqrt (nsum (map2 (fun a c => nsq (nsub a c)) x w)) end ->
  fin d -> Rabs (val d * val d - gap f x w) <= gap_err f x w.
Proof.
  intros [_ _ GA GAF GS] f x w Hf HL Rx Rw d Ed Fd. pose proof (combine_rep x w Rx Rw) as HR. pose proof (r_u_pos K RD) as Pu. pose proof (r_eta_pos K RD) as Pt.
  destruct f; try discriminate; cbn [gap gap_err] in *.
  - rewrite map2_combine in Ed. subst d.
    pose proof (sum_err (fun p => nabs (nsub (fst p) (snd p))) (fun p => Rabs (val (fst p) - val (snd p))) 1 0 x w HL (Rle_refl 0) (fun p => Rabs_pos _)) as B.
    pose proof (l1_nonneg x w) as PL.
    assert (Rsum (map (fun p => Rabs (val (fst p) - val (snd p))) (combine x w)) = l1 x w) as EL by (unfold l1; rewrite map2_combine; reflexivity). rewrite EL in B.
    replace (l1 x w ^ 2) with (l1 x w * l1 x w) by ring. apply sq_diff; [exact PL|]. replace ((0 + 1) * INR (length x)) with (INR (length x)) in B by ring. apply B; [|exact Fd].
    intros p Hp Fp. destruct (HR p Hp) as [R1 R2]. destruct (r_sub K RD _ _ R1 R2 (GAF _ Fp)) as (_ & _ & E). rewrite GA. unfold Rounding.bnd.
    rewrite pow_1. replace ((1 + u - 1) * Rabs (val (fst p) - val (snd p)) + (1 + u) * 0 * eta) with (u * Rabs (val (fst p) - val (snd p))) by ring.
    eapply Rle_trans; [apply Rabs_triang_inv2|exact E].
  - rewrite map2_combine in Ed. subst d. set (S0 := nsum (map (fun p => nsq (nsub (fst p) (snd p))) (combine x w))) in *.
    pose proof (GS _ Fd) as PS. destruct (r_sqrt K RD _ Fd PS) as (FS & EQ).
    pose proof (sum_err (fun p => nsq (nsub (fst p) (snd p))) (fun p => (val (fst p) - val (snd p)) ^ 2) 3 1 x w HL Rle_0_1 (fun p => pow2_ge_0 _)) as B. fold S0 in B.
    assert (Rsum (map (fun p => (val (fst p) - val (snd p)) ^ 2) (combine x w)) = l2sq x w) as EL by (unfold l2sq; rewrite map2_combine; reflexivity). rewrite EL in B.
    replace ((1 + 1) * INR (length x)) with (2 * INR (length x)) in B by ring. 
    specialize (B (fun p Hp Fp => sqd_bound RD p (proj1 (HR p Hp)) (proj2 (HR p Hp)) Fp) FS).
    set (s := l2sq x w) in *. set (E := bnd (3 + length x) s (2 * INR (length x))) in *.
    assert (val S0 <= s + E) as US by (pose proof (Rle_abs (val S0 - s)); lra).
    assert (sqrt (val S0) <= sqrt (s + E)) as UQ by (apply sqrt_le_1_alt; exact US). pose proof (sqrt_pos (val S0)) as PQ.
    set (q := sqrt (val S0)) in *. set (z := sqrt (s + E)) in *. set (r := u * z + eta).
    assert (Rabs (val (nsqrt S0) - q) <= r) as E1. { apply Rle_trans with (1 := EQ). unfold r. assert (u * q <= u * z) by (apply Rmult_le_compat_l; auto). lra. }
    assert (0 <= r) as Pr by (unfold r; assert (0 <= u * z) by (apply Rmult_le_pos; lra); lra).
    pose proof (sq_diff _ _ _ PQ E1) as E2. assert (q * q = val S0) as EQ2 by (unfold q; apply sqrt_sqrt; exact PS). rewrite EQ2 in E2.
    replace (val (nsqrt S0) * val (nsqrt S0) - s) with ((val (nsqrt S0) * val (nsqrt S0) - val S0) + (val S0 - s)) by ring.
    eapply Rle_trans; [apply Rabs_triang|]. assert (r * (2 * q + r) <= r * (2 * z + r)) by (apply Rmult_le_compat_l; lra). lra.
Qed.

(** ---- the argument of exp, and exp ---- *)
Lemma gap_nonneg : forall f x w, 0 <= gap f x w.
Proof. intros f x w. destruct f; cbn [gap]; try apply l2_nonneg. apply pow2_ge_0. Qed.
Lemma arg_bound : signs -> forall f x w b, is_rbf f = true -> length x = length w -> in_range x (f, w, b) ->
  Rabs (val (rbf_arg f x w b) - - gap f x w / val b) <= arg_err f x w b.
Proof.
  intros HS f x w b Hf HL HI. unfold in_range in HI. rewrite Hf in HI. destruct HI as (Rx & Rw & Fb & Pb & Fa). unfold rbf_arg in *.
  set (d := match f with RbfL1 => nsum (map2 (fun a c => nabs (nsub a c)) x w) | _ => nsqrt (nsum (map2 (fun a c => nsq (nsub a c)) x w)) end) in *.
  destruct (r_div K RD _ _ Fa Fb ltac:(lra)) as (Fo & ED). pose proof (g_opp_fin HS _ Fo) as Fq. unfold nsq in *. destruct (r_mul K RD _ _ Fq) as (Fd & _ & EM).
  pose proof (gap_bound HS f x w Hf HL Rx Rw d eq_refl Fd) as EG. pose proof (gap_nonneg f x w) as PG. rewrite (g_opp HS) in ED.
  set (q := val (nmul d d)) in *. set (g := gap f x w) in *. set (G := gap_err f x w) in *. pose proof (r_u_pos K RD) as Pu. pose proof (r_eta_pos K RD) as Pt.
  assert (Rabs (val d * val d) <= g + G) as B1. { replace (val d * val d) with ((val d * val d - g) + g) by ring. eapply Rle_trans; [apply Rabs_triang|]. rewrite (Rabs_right g) by lra. lra. }
  assert (Rabs (q - g) <= sq_err f x w) as B2.
  { replace (q - g) with ((q - val d * val d) + (val d * val d - g)) by ring. eapply Rle_trans; [apply Rabs_triang|]. unfold sq_err. fold g G. assert (u * Rabs (val d * val d) <= u * (g + G)) by (apply Rmult_le_compat_l; auto). lra. }
  set (Q := sq_err f x w) in *. assert (Rabs q <= g + Q) as B3. { replace q with ((q - g) + g) by ring. eapply Rle_trans; [apply Rabs_triang|]. rewrite (Rabs_right g) by lra. lra. }
  assert (Rabs (- q / val b) <= (g + Q) / val b) as B4.
  { unfold Rdiv. rewrite Rabs_mult, Rabs_Ropp, (Rabs_right (/ val b)) by (apply Rle_ge, Rlt_le, Rinv_0_lt_compat, Pb). apply Rmult_le_compat_r; [apply Rlt_le, Rinv_0_lt_compat, Pb|exact B3]. }
  assert (Rabs (- q / val b - - g / val b) <= Q / val b) as B5.
  { replace (- q / val b - - g / val b) with (- (q - g) * / val b) by (field; lra). rewrite Rabs_mult, Rabs_Ropp, (Rabs_right (/ val b)) by (apply Rle_ge, Rlt_le, Rinv_0_lt_compat, Pb). unfold Rdiv. apply Rmult_le_compat_r; [apply Rlt_le, Rinv_0_lt_compat, Pb|exact B2]. }
  match goal with |- Rabs (?a - _) <= _ => replace (a - - g / val b) with ((a - - q / val b) + (- q / val b - - g / val b)) by ring end.
  eapply Rle_trans; [apply Rabs_triang|]. unfold arg_err. fold g Q. assert (u * Rabs (- q / val b) <= u * ((g + Q) / val b)) by (apply Rmult_le_compat_l; auto).
  replace ((Q + u * (g + Q)) / val b) with (Q / val b + u * ((g + Q) / val b)) by (field; lra). lra.
Qed.
Lemma exp_close : forall q t d, Rabs (q - t) <= d -> exp q <= exp t * exp d /\ Rabs (exp q - exp t) <= exp t * (exp d - 1).
Proof.
  intros q t d H. assert (forall a c, a <= c -> exp a <= exp c) as EM by (intros a c [L| ->]; [left; now apply exp_increasing|lra]).
  assert (q - t <= d /\ - d <= q - t) as [U L] by (split; [pose proof (Rle_abs (q - t)); lra|pose proof (Rle_abs (- (q - t))) as Z; rewrite Rabs_Ropp in Z; lra]).
  assert (exp q = exp t * exp (q - t)) as E1 by (rewrite <- exp_plus; f_equal; ring). pose proof (exp_pos t) as Pt. pose proof (exp_pos d) as Pd.
  split; [rewrite E1; apply Rmult_le_compat_l; [lra|apply EM; exact U]|].
  rewrite E1. replace (exp t * exp (q - t) - exp t) with (exp t * (exp (q - t) - 1)) by ring. rewrite Rabs_mult, (Rabs_right (exp t)) by lra. apply Rmult_le_compat_l; [lra|].
  pose proof (EM _ _ U) as A1. pose proof (EM _ _ L) as A2. assert (exp d * exp (- d) = 1) as A3 by (rewrite <- exp_plus, Rplus_opp_r; apply exp_0).
  pose proof (exp_pos (- d)) as Pn. apply Rabs_le. split; [|lra]. assert (0 <= (exp d - 1) ^ 2) as Sq by apply pow2_ge_0. nra.
Qed.
Lemma gap_entry : forall x w : vec, length x = length w ->
  Rsum (map (fun i => Rabs (entry (map val x) i - entry (map val w) i)) (seq 0 (length x))) = l1 x w /\
  Rsum (map (fun i => (entry (map val x) i - entry (map val w) i) ^ 2) (seq 0 (length x))) = l2sq x w.
Proof.
  intros x w HL. unfold l1, l2sq. rewrite !map2_combine. split; f_equal.
  - rewrite (map_seq_combine (fun a c => Rabs (val a - val c)) x w HL). apply map_ext. intros i. rewrite !(entry_vals RD). reflexivity.
  - rewrite (map_seq_combine (fun a c => (val a - val c) ^ 2) x w HL). apply map_ext. intros i. rewrite !(entry_vals RD). reflexivity.
Qed.
Theorem rbf_rounding : signs -> forall v f x w b z, library RD v -> In f [RbfL1; RbfL2] -> length x = length w ->
  in_range x (f, w, b) -> fin (act f x w b) ->
  neuron_value (length x) f (map val x) (map val w) (val b) z -> Rabs (val (act f x w b) - z) <= rbf_err v f x w b.
Proof.
  intros HS v f x w b z HV Hf HL HI Fa NV.
  assert (is_rbf f = true) as Hr by (destruct Hf as [<-|[<-|[]]]; reflexivity).
  assert (act f x w b = nexp (rbf_arg f x w b)) as EA by (destruct Hf as [<-|[<-|[]]]; reflexivity).
  assert (z = exp (- gap f x w / val b)) as EZ.
  { destruct (gap_entry x w HL) as [G1 G2]. destruct Hf as [<-|[<-|[]]]; cbn [neuron_value gap] in *; subst z; [rewrite G1|rewrite G2]; f_equal; unfold Rdiv; ring. }
  pose proof (arg_bound HS f x w b Hr HL HI) as AB. destruct (exp_close _ _ _ AB) as [X1 X2]. rewrite EA in *. subst z.
  pose proof HI as HI'. unfold in_range in HI'. rewrite Hr in HI'. destruct HI' as (_ & _ & _ & _ & Fg). pose proof (l_exp RD v HV _ Fg Fa) as LE. pose proof (l_v RD v HV) as Pv.
  set (q := val (rbf_arg f x w b)) in *. set (t := - gap f x w / val b) in *.
  replace (val (nexp (rbf_arg f x w b)) - exp t) with ((val (nexp (rbf_arg f x w b)) - exp q) + (exp q - exp t)) by ring.
  eapply Rle_trans; [apply Rabs_triang|]. unfold rbf_err. fold t. assert (v * exp q <= v * (exp t * exp (arg_err f x w b))) by (apply Rmult_le_compat_l; auto). lra.
Qed.
Theorem any_network_rounding : signs -> forall v e e' X B Y, library RD v -> kappa RD v < 1 -> wf_net (e_net e) -> exact_model RD e e' ->
  (forall n, In n (s_neurons (e_net e)) -> In (n_func n) [Lin; Sigm; Tanh; RbfL1; RbfL2]) -> s_B (e_net e) = Some B ->
  elm_predict e (Arr2 (s_inputs (e_net e)) X) = Ok Y ->
  exists (H : mat) (Yx : list (list R)), elm_project e (Arr2 (s_inputs (e_net e)) X) = Ok H /\ @elm_predict NumR e' (@Arr2 NumR (s_inputs (e_net e)) (vals X)) = Ok Yx /\
    forall r k, (r < length X)%nat -> (k < s_outputs (e_net e))%nat -> (forall c, In c (cells (s_neurons (e_net e))) -> in_range (nth r X []) c) -> fin (mget Y r k) ->
      Rabs (val (mget Y r k) - entry (nth r Yx []) k) <=
      bnd (length B) (predict1 (mags B) (nth r (mags H) []) k) (2 * INR (length B)) + predict1 (mags B) (map (any_err v (nth r X [])) (cells (s_neurons (e_net e)))) k.
Proof.
  intros HS v e e' X B Y HV Hk HW HM HF EB EP. apply (network_close RD in_range (any_err v)); auto.
  intros n x w b z Hn HL HO Fa NV. specialize (HF n Hn). set (f := n_func n) in *. unfold any_err. destruct (is_rbf f) eqn:E.
  - apply rbf_rounding; auto. destruct HF as [<-|[<-|[<-|[<-|[<-|[]]]]]]; try discriminate; cbn; auto.
  - unfold in_range in HO. rewrite E in HO. apply (neuron_rounding RD v f x w b z); auto. destruct HF as [<-|[<-|[<-|[<-|[<-|[]]]]]]; try discriminate; cbn; auto.
Qed.
End Rbf.

(** ---- IEEE arithmetic ---- *)
Theorem signs_F : forall prec emax fe ft (Hp : (0 < prec < emax)%Z), signs (rounded_F prec emax fe ft Hp).
Proof.
  intros prec emax fe ft Hp. split; intros a; cbn [r_val r_fin rounded_F nopp nabs nsqrt NumF].
  - change (sf_val (SFopp a) = - sf_val a). destruct a as [s|s| |s m e]; cbn; try ring. destruct s; unfold sf_sign; cbn; ring.
  - change (sf_fin (SFopp a) -> sf_fin a). destruct a; auto.
  - change (sf_val (SFabs a) = Rabs (sf_val a)). destruct a as [s|s| |s m e]; cbn [SFabs sf_val]; try (rewrite Rabs_R0; reflexivity).
    rewrite Rabs_mult, sf_sign_abs, Rabs_right; [reflexivity|]. apply Rle_ge, Rmult_le_pos; [apply IZR_le; lia|apply Rlt_le, p2_pos].
  - change (sf_fin (SFabs a) -> sf_fin a). destruct a; auto.
  - intros HF. exact (proj1 (proj2 (sf_sqrt_ok prec emax ltac:(lia) a HF))).
Qed.

(** an exp that is known at 0 and -1 only, for the concrete network of C109 *)
Definition demo_exp (a : spec_float) : spec_float :=
  match a with
  | S754_zero _ => S754_finite false (2 ^ 52)%positive (-52)
  | S754_finite true m e => if (m =? 2 ^ 52)%positive && (e =? -52)%Z then S754_finite false 3 (-3) else S754_nan
  | _ => S754_nan
  end.
Theorem demo_library : library (rounded_64 demo_exp coarse_tanh) (1 / 2) /\ kappa (rounded_64 demo_exp coarse_tanh) (1 / 2) < 1.
Proof.
  split; [|exact (proj2 coarse_library)]. split.
  - lra.
  - exact (l_one _ _ (proj1 coarse_library)).
  - exact (l_tanh _ _ (proj1 coarse_library)).
  - intros a _ Fe. change (Rabs (sf_val (demo_exp a) - exp (sf_val a)) <= 1 / 2 * exp (sf_val a) + p2 (-1075)). change (sf_fin (demo_exp a)) in Fe.
    pose proof (p2_pos (-1075)) as P. assert (IZR (Z.pos (2 ^ 52)) * p2 (-52) = 1) as E1.
    { change (Z.pos (2 ^ 52)) with (2 ^ 52)%Z. rewrite <- p2_pow by lia. rewrite <- p2_add. unfold p2. simpl. lra. }
    destruct a as [s|s| |s m e]; try destruct Fe.
    + cbn [demo_exp sf_val sf_sign]. rewrite E1, exp_0. replace (1 * 1 - 1) with 0 by ring. rewrite Rabs_R0. lra.
    + cbn [demo_exp] in *. destruct s; [|destruct Fe]. destruct ((m =? 2 ^ 52)%positive && (e =? -52)%Z) eqn:E; [|destruct Fe].
      apply andb_prop in E as [Em Ee]. apply Pos.eqb_eq in Em. apply Z.eqb_eq in Ee. subst m e. unfold sf_val, sf_sign. rewrite E1.
      replace (-1 * 1) with (- (1)) by ring. assert (IZR 3 * p2 (-3) = 3 / 8) as E3 by (unfold p2; simpl; lra). rewrite E3.
      pose proof exp_le_3 as U3. pose proof (exp_ineq1 1 ltac:(lra)) as L3. pose proof (exp_pos 1) as P1. rewrite exp_Ropp.
      assert (/ 3 <= / exp 1) by (apply Rinv_le_contravar; lra). assert (/ exp 1 <= / 2) by (apply Rinv_le_contravar; lra). apply Rabs_le. lra.
Qed.
