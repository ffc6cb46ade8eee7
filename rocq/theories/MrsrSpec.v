(** What MRSR computes (mrsr.py): after every step the neurons chosen so far are equally
    correlated with the residual, no other neuron is more correlated, and the next neuron
    reaches the same correlation. *)
From Coq Require Import Reals Lra Permutation.
From Verif Require Import Base Num Mat LinAlg Mrsr MatFacts RankThms RLin ErrThms RidgeProofs RankMore Spec.
Local Open Scope R_scope.
#[local] Existing Instance NumR.

(** ---- specification ---- *)
Definition at_ (M : list (list R)) (i j : nat) : R := nth j (nth i M []) 0.
Definition total (n : nat) (f : nat -> R) : R := Rsum (map f (seq 0 n)).
(** sum over the outputs of the absolute correlation of neuron j with the residual T - Y *)
Definition residual_strength (n p : nat) (H T : list (list R)) (Y : nat -> nat -> R) (j : nat) : R :=
  total p (fun o => Rabs (total n (fun i => at_ H i j * (at_ T i o - Y i o)))).
(** Y is the least squares fit of T by the neurons ks: a combination of their columns whose
    residual is orthogonal to them *)
Definition best_fit (n p : nat) (H T : list (list R)) (ks : list nat) (Y : nat -> nat -> R) : Prop :=
  (exists W : nat -> nat -> R, forall i o, (i < n)%nat -> (o < p)%nat ->
     Y i o = total (length ks) (fun l => at_ H i (nth l ks O) * W l o)) /\
  (forall k o, In k ks -> (o < p)%nat -> total n (fun i => at_ H i k * (at_ T i o - Y i o)) = 0).
(** j is most correlated with the residual among the neurons not yet chosen *)
Definition strongest (n m p : nat) (H T : list (list R)) (Y : nat -> nat -> R) (ks : list nat) (j : nat) : Prop :=
  (j < m)%nat /\ ~ In j ks /\
  forall i, (i < m)%nat -> ~ In i ks -> residual_strength n p H T Y i <= residual_strength n p H T Y j.
(** the neurons chosen so far and the model output so far *)
Inductive mrsr_path (n m p : nat) (H T : list (list R)) : list nat -> (nat -> nat -> R) -> Prop :=
| Path_start : mrsr_path n m p H T [] (fun _ _ => 0)
| Path_step : forall ks Y j Yls g Y' c, mrsr_path n m p H T ks Y -> strongest n m p H T Y ks j ->
    best_fit n p H T (ks ++ [j]) Yls -> 0 <= g ->
    (forall i o, (i < n)%nat -> (o < p)%nat -> Y' i o = (1 - g) * Y i o + g * Yls i o) ->
    (forall i, In i (ks ++ [j]) -> residual_strength n p H T Y' i = c) ->
    (forall i, (i < m)%nat -> residual_strength n p H T Y' i <= c) ->
    (exists i, (i < m)%nat /\ ~ In i (ks ++ [j]) /\ residual_strength n p H T Y' i = c) ->
    mrsr_path n m p H T (ks ++ [j]) Y'.
(** no neuron is a combination of the others *)
Definition independent (n m : nat) (H : list (list R)) : Prop :=
  forall x : nat -> R, (forall i, (i < n)%nat -> total m (fun j => at_ H i j * x j) = 0) ->
    forall j, (j < m)%nat -> x j = 0.

(** ---- the step length ---- *)
Definition asum (v : list R) : R := Rsum (map Rabs v).

Lemma asum_pos : forall v, 0 <= asum v.
Proof. unfold asum. induction v; cbn; [lra|]. pose proof (Rabs_pos a). unfold Rsum in *. cbn. lra. Qed.

Lemma dotv_cons : forall a b (v w : list R), @dotv NumR (a :: v) (b :: w) = a * b + @dotv NumR v w.
Proof. intros. unfold dotv. cbn [map2]. rewrite nsum_cons. reflexivity. Qed.

Lemma sign_exists : forall v : list R, exists s, In s (@signs NumR (length v)) /\ @dotv NumR s v = - asum v.
Proof.
  induction v as [|a v (s & Hs & E)].
  - exists []. split; [left; reflexivity|]. unfold asum, dotv. cbn. lra.
  - destruct (Rle_lt_dec 0 a) as [Ha|Ha].
    + exists ((-1) :: s). split.
      * cbn [length signs]. apply in_or_app. left. change (-1) with (- (1)). apply in_map. exact Hs.
      * rewrite dotv_cons. unfold asum in *. cbn [map Rsum fold_right]. unfold Rsum in *. cbn [fold_right]. rewrite Rabs_pos_eq by lra. cbn [num NumR] in *. lra.
    + exists (1 :: s). split.
      * cbn [length signs]. apply in_or_app. right. apply in_map. exact Hs.
      * rewrite dotv_cons. unfold asum in *. unfold Rsum in *. cbn [map fold_right]. rewrite Rabs_left by lra. cbn [num NumR] in *. lra.
Qed.

Lemma sign_bound : forall p s (v : list R), In s (@signs NumR p) -> length v = p -> - asum v <= @dotv NumR s v <= asum v.
Proof.
  induction p as [|p IH]; intros s v Hs Hv; cbn [signs] in Hs.
  - destruct Hs as [<-|[]]. destruct v; [|discriminate]. unfold asum, dotv. cbn. lra.
  - destruct v as [|a v]; [discriminate|]. injection Hv as Hv.
    assert (forall s', In s' (@signs NumR p) -> - asum v <= @dotv NumR s' v <= asum v) as Q by (intros; apply IH; auto).
    pose proof (Rle_abs a). pose proof (Rle_abs (- a)) as Q2. rewrite Rabs_Ropp in Q2.
    apply in_app_or in Hs. destruct Hs as [Hs|Hs]; apply in_map_iff in Hs; destruct Hs as (s' & <- & Hs'); specialize (Q s' Hs');
      rewrite dotv_cons; unfold asum, Rsum in *; cbn [map fold_right]; [change (@nopp NumR (@n1 NumR)) with (- (1))|change (@n1 NumR) with 1]; cbn [num NumR] in *; lra.
Qed.

Lemma dotv_lin : forall g (s v w : list R), length v = length w -> @dotv NumR s (map2 (fun a b => a - g * b) v w) = @dotv NumR s v - g * @dotv NumR s w.
Proof.
  induction s as [|x s IH]; intros [|a v] [|b w] Hl; try discriminate; try (unfold dotv; cbn; lra).
  cbn [map2]. rewrite !dotv_cons. injection Hl as Hl. rewrite IH by auto. rring.
Qed.

Lemma xmin_from_spec : forall l x, (forall y, In y l -> @xnonneg NumR y = true) ->
  match x with Fin a => 0 <= a | PInf => True | _ => False end ->
  match @xmin_from NumR x l with
  | Fin g => 0 <= g /\ (x = Fin g \/ In (Fin g) l) /\ (forall a, x = Fin a -> g <= a) /\ (forall a, In (Fin a) l -> g <= a)
  | PInf => True | _ => False end.
Proof.
  induction l as [|y l IH]; intros x Hl Hx; cbn [xmin_from].
  - destruct x; try tauto. split; [exact Hx|]. split; [auto|]. split; [intros b Hb; injection Hb as <-; lra|intros b []].
  - assert (forall z, In z l -> @xnonneg NumR z = true) as Hl' by (intros; apply Hl; right; auto).
    pose proof (Hl y (or_introl eq_refl)) as Hy. destruct y as [a| | |]; try discriminate Hy.
    + cbn [xnonneg] in Hy. change (@nltb NumR a (@n0 NumR)) with (Rltb a 0) in Hy. unfold Rltb in Hy. destruct (Rlt_dec a 0) as [|Ha]; [discriminate|].
      destruct x as [b| | |]; try tauto.
      * assert (@nmin NumR a b = a /\ a <= b \/ @nmin NumR a b = b /\ b <= a) as Hm.
        { unfold nmin. change (@nltb NumR) with Rltb. unfold Rltb. repeat (destruct (Rlt_dec _ _); [|]); auto; cbn [num NumR] in *; try (left; split; [reflexivity|lra]); right; split; [reflexivity|lra]. }
        specialize (IH (Fin (@nmin NumR a b)) Hl'). cbn [num NumR] in *. destruct (xmin_from _ l) as [g| | |]; try (apply IH; destruct Hm as [[-> _]|[-> _]]; lra).
        destruct IH as (I1 & I2 & I3 & I4); [destruct Hm as [[-> _]|[-> _]]; lra|]. split; [auto|]. split.
        { destruct I2 as [I2|I2]; [|right; right; auto]. injection I2 as I2. destruct Hm as [[E _]|[E _]]; [right; left; congruence|left; congruence]. }
        specialize (I3 _ eq_refl). split.
        { intros c Hc. injection Hc as <-. destruct Hm as [[E Q]|[E Q]]; rewrite E in I3; lra. }
        { intros c [Hc|Hc]; [injection Hc as <-; destruct Hm as [[E Q]|[E Q]]; rewrite E in I3; lra|auto]. }
      * specialize (IH (Fin a) Hl'). destruct (xmin_from _ l) as [g| | |]; try (apply IH; lra).
        destruct IH as (I1 & I2 & I3 & I4); [lra|]. split; [auto|]. split; [destruct I2 as [I2|I2]; right; [left; auto|right; auto]|].
        split; [intros c Hc; discriminate|]. intros c [Hc|Hc]; [injection Hc as <-; apply I3; reflexivity|auto].
    + specialize (IH x Hl' Hx). destruct (xmin_from x l); auto. destruct IH as (I1 & I2 & I3 & I4). split; [auto|].
      split; [destruct I2; auto; right; right; auto|]. split; [auto|]. intros c [Hc|Hc]; [discriminate|auto].
Qed.

Lemma min_step_spec : forall G g, @min_step NumR G = Ok g -> 0 <= g /\ In (Fin g) G /\ forall a, In (Fin a) G -> 0 <= a -> g <= a.
Proof.
  intros G g E. unfold min_step in E.
  assert (forall y, In y (filter (@xnonneg NumR) G) -> @xnonneg NumR y = true) as Q by (intros y Hy; apply filter_In in Hy; apply Hy).
  pose proof (xmin_from_spec (filter (@xnonneg NumR) G) PInf Q I) as P.
  assert (@xmin_from NumR PInf (filter (@xnonneg NumR) G) = Fin g) as Ef.
  { destruct (filter _ G); [discriminate|]. destruct (xmin_from _ _); try discriminate. injection E as ->. reflexivity. }
  rewrite Ef in P. destruct P as (P1 & P2 & _ & P4). split; [exact P1|]. split.
  - destruct P2 as [P2|P2]; [discriminate|]. apply filter_In in P2. apply P2.
  - intros a Ha H0. apply P4. apply filter_In. split; [auto|]. cbn [xnonneg]. change (@nltb NumR a (@n0 NumR)) with (Rltb a 0). unfold Rltb.
    destruct (Rlt_dec a 0); [lra|reflexivity].
Qed.

Lemma in_g_matrix : forall p c cmax A B x, In x (@g_matrix NumR p c cmax A B) <->
  exists s j, In s (@signs NumR p) /\ (j < c)%nat /\ x = @np_div NumR (cmax + @dotv NumR s (@mcol NumR A j)) (cmax + @dotv NumR s (@mcol NumR B j)).
Proof.
  intros. unfold g_matrix. rewrite in_concat. split.
  - intros (l & Hl & Hx). apply in_map_iff in Hl. destruct Hl as (s & <- & Hs). apply in_map_iff in Hx. destruct Hx as (j & <- & Hj). apply in_seq in Hj.
    exists s, j. repeat split; auto; lia.
  - intros (s & j & Hs & Hj & ->). eexists. split; [apply in_map; exact Hs|]. apply in_map_iff. exists j. split; [reflexivity|apply in_seq; lia].
Qed.

Definition mix (g : R) (v w : list R) : list R := map2 (fun a b => a - g * b) v w.

Theorem step_length : forall p c cmax A B g, length A = p -> length B = p ->
  (forall j, (j < c)%nat -> asum (@mcol NumR A j) <= cmax) -> @min_step NumR (@g_matrix NumR p c cmax A B) = Ok g ->
  0 <= g /\ (forall j, (j < c)%nat -> asum (mix g (@mcol NumR A j) (@mcol NumR B j)) <= (1 - g) * cmax) /\
  exists j, (j < c)%nat /\ asum (mix g (@mcol NumR A j) (@mcol NumR B j)) = (1 - g) * cmax.
Proof.
  intros p c cmax A B g HA HB Hc E. destruct (min_step_spec _ _ E) as (G0 & G1 & G2). split; [exact G0|].
  assert (forall j, length (@mcol NumR A j) = length (@mcol NumR B j) /\ length (@mcol NumR A j) = p) as HL.
  { intros j. unfold mcol. rewrite !map_length. split; congruence. }
  assert (forall j, length (mix g (@mcol NumR A j) (@mcol NumR B j)) = p) as HM.
  { intros j. unfold mix. destruct (HL j) as [H1 H2]. revert H1 H2. generalize (@mcol NumR A j), (@mcol NumR B j). clear. cbn [num NumR].
    intros l m. revert m p. induction l as [|a l IH]; intros [|b m] [|p]; cbn; intros; auto; try discriminate. }
  assert (forall j, (j < c)%nat -> asum (mix g (@mcol NumR A j) (@mcol NumR B j)) <= (1 - g) * cmax) as Hle.
  { intros j Hj. destruct (sign_exists (mix g (@mcol NumR A j) (@mcol NumR B j))) as (s & Hs & Es). rewrite HM in Hs.
    unfold mix at 1 in Es. rewrite dotv_lin in Es by apply HL. specialize (Hc j Hj).
    pose proof (sign_bound p s _ Hs (proj2 (HL j))) as [Hb _].
    set (a := @dotv NumR s (@mcol NumR A j)) in *. set (b := @dotv NumR s (@mcol NumR B j)) in *.
    assert (g * (cmax + b) <= cmax + a) as Q; [|lra].
    assert (0 <= cmax + a) as Qa by (cbn [num NumR] in *; lra).
    destruct (Rle_lt_dec (cmax + b) 0) as [Hb0|Hb0]; [nra|].
    assert (In (Fin ((cmax + a) / (cmax + b))) (@g_matrix NumR p c cmax A B)) as Hin.
    { apply in_g_matrix. exists s, j. split; [auto|]. split; [auto|]. fold a b. unfold np_div. change (@neqb NumR) with Reqb. unfold Reqb.
      change (@n0 NumR) with 0. destruct (Req_EM_T (cmax + b) 0); [lra|reflexivity]. }
    assert (0 <= (cmax + a) / (cmax + b)) as Hq by (apply Rmult_le_pos; [lra|left; now apply Rinv_0_lt_compat]).
    specialize (G2 _ Hin Hq). apply (Rmult_le_compat_r (cmax + b)) in G2; [|lra]. unfold Rdiv in G2. rewrite Rmult_assoc, Rinv_l in G2 by lra. lra. }
  split; [exact Hle|]. apply in_g_matrix in G1. destruct G1 as (s & j & Hs & Hj & Eg). exists j. split; [auto|].
  apply Rle_antisym; [auto|]. pose proof (sign_bound p s _ Hs (HM j)) as [Hb _]. unfold mix at 2 in Hb. rewrite dotv_lin in Hb by apply HL.
  set (a := @dotv NumR s (@mcol NumR A j)) in *. set (b := @dotv NumR s (@mcol NumR B j)) in *. unfold np_div in Eg. change (@neqb NumR) with Reqb in Eg. unfold Reqb in Eg.
  change (@n0 NumR) with 0 in Eg. destruct (Req_EM_T (cmax + b) 0) as [Z|Z].
  { destruct (Req_EM_T (cmax + a) 0); [discriminate|]. unfold xinf in Eg. destruct (nltb _ _); discriminate. }
  injection Eg as Eg. change (g = (cmax + a) / (cmax + b)) in Eg. assert (g * (cmax + b) = cmax + a) as Q.
  { rewrite Eg. unfold Rdiv. rewrite Rmult_assoc, Rinv_l by auto. ring. }
  lra.
Qed.
