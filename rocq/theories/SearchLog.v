(** The search for the number of neurons: how many sub-models it evaluates, and
    how far from the optimum it stops on a unimodal error curve (C65, C66; reals). *)
From Coq Require Import Reals Lra.
From Verif Require Import Base Num Search MatFacts SearchThms.
#[local] Existing Instance NumR.
Local Open Scope Z_scope.

(** ** the potential of a bracket of width l with its middle point at distance c *)
Definition pot (l c : Z) : Z := (l - 1) ^ 4 * 2 ^ Z.abs (2 * (2 * c - l) + 1).

Lemma pow4_mono : forall a b, 0 <= a <= b -> a ^ 4 <= b ^ 4.
Proof. intros a b H. apply Z.pow_le_mono_l. lia. Qed.
Lemma pow2_add : forall a b, 0 <= a -> 0 <= b -> 2 ^ (a + b) = 2 ^ a * 2 ^ b.
Proof. intros. now apply Z.pow_add_r. Qed.
Lemma pow2_le : forall a b, a <= b -> 2 ^ a <= 2 ^ b.
Proof. intros. apply Z.pow_le_mono_r; lia. Qed.
Lemma pow2_pos : forall a, 0 <= a -> 0 < 2 ^ a.
Proof. intros. apply Z.pow_pos_nonneg; lia. Qed.

(** 3 (2+w)^4 <= 256 * 2^w *)
Lemma quartic2 : forall w, 0 <= w -> 3 * (2 + w) ^ 4 <= 256 * 2 ^ w.
Proof.
  intros w H. destruct (Z.le_gt_cases w 4) as [C|C].
  - assert (w = 0 \/ w = 1 \/ w = 2 \/ w = 3 \/ w = 4) as D by lia. destruct D as [->|[->|[->|[->| ->]]]]; vm_compute; discriminate.
  - apply Z.lt_gt in C. revert w H C. apply (natlike_ind (fun w => w > 4 -> 3 * (2 + w) ^ 4 <= 256 * 2 ^ w)); [lia|]. intros w Hw IH _.
    destruct (Z.le_gt_cases w 4) as [C|C].
    + assert (w = 4 \/ w = 3 \/ w = 2 \/ w = 1 \/ w = 0) as D by lia. destruct D as [->|[->|[->|[->| ->]]]]; vm_compute; discriminate.
    + specialize (IH ltac:(lia)). rewrite <- Z.add_1_r, pow2_add by lia. change (2 ^ 1) with 2.
      assert ((2 + (w + 1)) ^ 4 <= 2 * (2 + w) ^ 4) as HQ; [|lia].
      replace ((2 + (w + 1)) ^ 4) with ((w + 3) * (w + 3) * ((w + 3) * (w + 3))) by ring.
      replace ((2 + w) ^ 4) with ((w + 2) * (w + 2) * ((w + 2) * (w + 2))) by ring.
      assert (5 * ((w + 3) * (w + 3)) <= 7 * ((w + 2) * (w + 2))) as H1 by nia.
      set (x := (w + 3) * (w + 3)) in *. set (y := (w + 2) * (w + 2)) in *. assert (0 <= x) by (unfold x; nia). assert (0 <= y) by (unfold y; nia). clearbody x y. nia.
Qed.
Lemma quartic3 : forall w, 0 <= w -> 3 * (3 + w) ^ 4 <= 648 * 2 ^ w.
Proof.
  intros w H. destruct (Z.le_gt_cases w 4) as [C|C].
  - assert (w = 0 \/ w = 1 \/ w = 2 \/ w = 3 \/ w = 4) as D by lia. destruct D as [->|[->|[->|[->| ->]]]]; vm_compute; discriminate.
  - apply Z.lt_gt in C. revert w H C. apply (natlike_ind (fun w => w > 4 -> 3 * (3 + w) ^ 4 <= 648 * 2 ^ w)); [lia|]. intros w Hw IH _.
    destruct (Z.le_gt_cases w 4) as [C|C].
    + assert (w = 4 \/ w = 3 \/ w = 2 \/ w = 1 \/ w = 0) as D by lia. destruct D as [->|[->|[->|[->| ->]]]]; vm_compute; discriminate.
    + specialize (IH ltac:(lia)). rewrite <- Z.add_1_r, pow2_add by lia. change (2 ^ 1) with 2.
      assert ((3 + (w + 1)) ^ 4 <= 2 * (3 + w) ^ 4) as HQ; [|lia].
      replace ((3 + (w + 1)) ^ 4) with ((w + 4) * (w + 4) * ((w + 4) * (w + 4))) by ring.
      replace ((3 + w) ^ 4) with ((w + 3) * (w + 3) * ((w + 3) * (w + 3))) by ring.
      assert (5 * ((w + 4) * (w + 4)) <= 7 * ((w + 3) * (w + 3))) as H1 by nia.
      set (x := (w + 4) * (w + 4)) in *. set (y := (w + 3) * (w + 3)) in *. assert (0 <= x) by (unfold x; nia). assert (0 <= y) by (unfold y; nia). clearbody x y. nia.
Qed.

(** u+w against u: 3 (u+w)^4 <= 16 u^4 2^w for u >= 2 *)
Lemma grow2 : forall u w, 2 <= u -> 0 <= w -> 3 * (u + w) ^ 4 <= 16 * u ^ 4 * 2 ^ w.
Proof.
  intros u w Hu Hw. pose proof (quartic2 w Hw) as Q.
  assert ((2 * (u + w)) ^ 4 <= (u * (2 + w)) ^ 4) as P by (apply pow4_mono; nia).
  rewrite !Z.pow_mul_l in P. change (2 ^ 4) with 16 in P. assert (0 <= u ^ 4) by (apply Z.pow_nonneg; lia).
  set (a := (u + w) ^ 4) in *. set (b := (2 + w) ^ 4) in *. set (x := u ^ 4) in *. set (z := 2 ^ w) in *. clearbody a b x z. nia.
Qed.
Lemma grow3 : forall u w, 3 <= u -> 0 <= w -> 3 * (u + w) ^ 4 <= 8 * u ^ 4 * 2 ^ w.
Proof.
  intros u w Hu Hw. pose proof (quartic3 w Hw) as Q.
  assert ((3 * (u + w)) ^ 4 <= (u * (3 + w)) ^ 4) as P by (apply pow4_mono; nia).
  rewrite !Z.pow_mul_l in P. change (3 ^ 4) with 81 in P. assert (0 <= u ^ 4) by (apply Z.pow_nonneg; lia).
  set (a := (u + w) ^ 4) in *. set (b := (3 + w) ^ 4) in *. set (x := u ^ 4) in *. set (z := 2 ^ w) in *. clearbody a b x z. nia.
Qed.

(** from [l', c'] to [l, c] when 2 (l'-1) <= (l-1) + s and the exponents differ by t *)
Lemma pot_step : forall u u' s x x' t, 2 <= u -> 0 <= u' -> 0 <= s -> 2 * u' <= u + s -> 0 <= x' -> x' + t <= x -> 0 <= x ->
  s <= t -> 48 * u' ^ 4 * 2 ^ x' <= 16 * u ^ 4 * 2 ^ x.
Proof.
  intros u u' s x x' t Hu Hu' Hs H Hx' Ht Hx Hst. pose proof (grow2 u s Hu Hs) as G.
  assert ((2 * u') ^ 4 <= (u + s) ^ 4) as P by (apply pow4_mono; lia).
  rewrite Z.pow_mul_l in P. change (2 ^ 4) with 16 in P.
  assert (2 ^ x' * 2 ^ s <= 2 ^ x) as E by (rewrite <- pow2_add by lia; apply pow2_le; lia).
  assert (0 <= u ^ 4) by (apply Z.pow_nonneg; lia). assert (0 < 2 ^ x') by (apply pow2_pos; lia). assert (0 < 2 ^ s) by (apply pow2_pos; lia).
  set (a := u' ^ 4) in *. set (b := (u + s) ^ 4) in *. set (c := u ^ 4) in *. set (p := 2 ^ x') in *. set (q := 2 ^ s) in *. set (r := 2 ^ x) in *. clearbody a b c p q r.
  assert (3 * (16 * a) * p <= 16 * c * q * p) by nia.
  assert (16 * c * (p * q) <= 16 * c * r) by nia. nia.
Qed.

Lemma pot_step3 : forall u u' s x x' t, 3 <= u -> 0 <= u' -> 0 <= s -> 2 * u' <= u + s -> 0 <= x' -> x' + t <= x -> 0 <= x ->
  s <= t + 1 -> 48 * u' ^ 4 * 2 ^ x' <= 16 * u ^ 4 * 2 ^ x.
Proof.
  intros u u' s x x' t Hu Hu' Hs H Hx' Ht Hx Hst. pose proof (grow3 u s Hu Hs) as G.
  assert ((2 * u') ^ 4 <= (u + s) ^ 4) as P by (apply pow4_mono; lia).
  rewrite Z.pow_mul_l in P. change (2 ^ 4) with 16 in P.
  assert (2 ^ x' * 2 ^ s <= 2 * 2 ^ x) as E.
  { rewrite <- pow2_add by lia. change 2 with (2 ^ 1) at 2. rewrite <- pow2_add by lia. apply pow2_le; lia. }
  assert (0 <= u ^ 4) by (apply Z.pow_nonneg; lia). assert (0 < 2 ^ x') by (apply pow2_pos; lia). assert (0 < 2 ^ s) by (apply pow2_pos; lia).
  set (a := u' ^ 4) in *. set (b := (u + s) ^ 4) in *. set (c := u ^ 4) in *. set (p := 2 ^ x') in *. set (q := 2 ^ s) in *. set (r := 2 ^ x) in *. clearbody a b c p q r.
  assert (3 * (16 * a) * p <= 8 * c * q * p) by nia.
  assert (8 * c * (p * q) <= 8 * c * (2 * r)) by nia. nia.
Qed.
Lemma pot_half : forall u u' x x', 0 <= u' -> 2 * u' <= u -> 0 <= x' -> x' <= x + 2 -> 0 <= x ->
  48 * u' ^ 4 * 2 ^ x' <= 16 * u ^ 4 * 2 ^ x.
Proof.
  intros u u' x x' Hu' H Hx' Ht Hx.
  assert ((2 * u') ^ 4 <= u ^ 4) as P by (apply pow4_mono; lia).
  rewrite Z.pow_mul_l in P. change (2 ^ 4) with 16 in P.
  assert (2 ^ x' <= 4 * 2 ^ x) as E.
  { change 4 with (2 ^ 2). rewrite <- pow2_add by lia. apply pow2_le; lia. }
  assert (0 <= u' ^ 4) by (apply Z.pow_nonneg; lia). assert (0 < 2 ^ x') by (apply pow2_pos; lia).
  set (a := u' ^ 4) in *. set (c := u ^ 4) in *. set (p := 2 ^ x') in *. set (r := 2 ^ x) in *. clearbody a c p r.
  assert (16 * a * p <= c * p) by nia. assert (c * p <= c * (4 * r)) by nia. nia.
Qed.

Lemma pot_unfold : forall u u' x x', 48 * u' ^ 4 * 2 ^ x' <= 16 * u ^ 4 * 2 ^ x -> 3 * (u' ^ 4 * 2 ^ x') <= u ^ 4 * 2 ^ x.
Proof. intros. nia. Qed.

(** the three ways a bracket shrinks *)
Lemma pot_case1 : forall l c, 2 < l -> 2 < c -> 3 * pot c (l / 4) <= pot l c.
Proof.
  intros l c Hl Hc2. unfold pot. apply pot_unfold.
  assert (exists r, l = 4 * (l / 4) + r /\ 0 <= r <= 3) as (r & E & Hr).
  { exists (l mod 4). split; [apply Z.div_mod; lia|]. pose proof (Z.mod_pos_bound l 4). lia. }
  set (q := l / 4) in *. clearbody q.
  destruct (Z.le_gt_cases (2 * c - l) 0) as [C|C].
  - apply pot_half; lia.
  - apply (pot_step _ _ (2 * c - l - 1) _ _ (2 * c - l + 2 - r)); lia.
Qed.
Lemma pot_case2 : forall l c, 2 < l -> 2 < l - c -> 3 * pot (l - c) (3 * l / 4 - c) <= pot l c.
Proof.
  intros l c Hl Hc2. unfold pot. apply pot_unfold.
  assert (exists s, 3 * l = 4 * (3 * l / 4) + s /\ 0 <= s <= 3) as (s & E & Hs).
  { exists (3 * l mod 4). split; [apply Z.div_mod; lia|]. pose proof (Z.mod_pos_bound (3 * l) 4). lia. }
  set (p := 3 * l / 4) in *. clearbody p.
  destruct (Z.le_gt_cases 0 (2 * c - l)) as [C|C].
  - apply pot_half; lia.
  - destruct (Z.eq_dec s 0) as [->|S0].
    + apply (pot_step3 _ _ (l - 2 * c - 1) _ _ (l - 2 * c - 2)); lia.
    + apply (pot_step _ _ (l - 2 * c - 1) _ _ (l - 2 * c - 1)); lia.
Qed.
Lemma pot_case3 : forall l c, 2 < l -> 2 < 3 * l / 4 - l / 4 -> 3 * pot (3 * l / 4 - l / 4) (c - l / 4) <= pot l c.
Proof.
  intros l c Hl Hc2. unfold pot. apply pot_unfold.
  assert (exists s, 3 * l = 4 * (3 * l / 4) + s /\ 0 <= s <= 3) as (s & E & Hs).
  { exists (3 * l mod 4). split; [apply Z.div_mod; lia|]. pose proof (Z.mod_pos_bound (3 * l) 4). lia. }
  assert (exists r, l = 4 * (l / 4) + r /\ 0 <= r <= 3) as (r & E' & Hr).
  { exists (l mod 4). split; [apply Z.div_mod; lia|]. pose proof (Z.mod_pos_bound l 4). lia. }
  set (p := 3 * l / 4) in *. set (q := l / 4) in *. clearbody p q.
  apply pot_half; lia.
Qed.

(** ** one iteration *)
Section Step.
Context (n : nat).
Definition mem (i : Z) : Prop := 0 <= i < Z.of_nat n.

Definition smallest (t : list R) (pts : list Z) (m : R) : Prop :=
  (forall i, In i pts -> (m <= at_ t i)%R) /\ exists i, In i pts /\ at_ t i = m.

Definition pts (A C E : Z) : list Z := [A; A + (E - A) / 4; C; A + (3 * (E - A)) / 4; E].

(** the three continuations, with what is known about the minimum in each *)
Definition narrowed (t : list R) (m : R) (A C E A' C' E' : Z) : Prop :=
  let B := A + (E - A) / 4 in let D := A + (3 * (E - A)) / 4 in
  ((m = at_ t A \/ m = at_ t B) /\ A' = A /\ C' = B /\ E' = C) \/
  ((m = at_ t D \/ m = at_ t E) /\ A' = C /\ C' = D /\ E' = E) \/
  (m = at_ t C /\ m <> at_ t A /\ m <> at_ t B /\ m <> at_ t D /\ m <> at_ t E /\ A' = B /\ C' = C /\ E' = D).

Lemma pts_mem : forall A C E, mem A -> mem C -> mem E -> Forall mem (pts A C E).
Proof.
  intros A C E HA HC HE. unfold mem in *.
  pose proof (five_inside 0 (Z.of_nat n - 1) n A C E) as F. unfold inside in F. specialize (F ltac:(lia) ltac:(lia) ltac:(lia)).
  unfold pts. eapply Forall_impl; [|exact F]. intros; cbn beta in *; lia.
Qed.

Lemma eval_points_length : forall ev ps (t t' : list R), length t = n -> @eval_points NumR ev t ps = Ok t' -> length t' = n.
Proof.
  induction ps as [|i ps IH]; intros t t' Ht H; cbn [eval_points] in H; [inversion H; subst; auto|].
  destruct (@zget NumR t i) as [v|]; [|discriminate]. cbn [rbind] in H. destruct (neqb v minus1).
  - destruct (ev i) as [v'|]; [|discriminate]. cbn [rbind] in H. apply IH in H; auto. now rewrite zset_length.
  - eapply IH; eauto.
Qed.

Definition unknown (t : list R) (i : Z) : Prop := at_ t i = (-1)%R.

(** evaluation only asks for unknown points *)
Lemma eval_points_agree : forall ev ev' ps (t : list R), length t = n -> Forall mem ps ->
  (forall i, In i ps -> unknown t i -> ev' i = ev i) -> @eval_points NumR ev' t ps = @eval_points NumR ev t ps.
Proof.
  induction ps as [|i ps IH]; intros t Ht HF Hag; [reflexivity|]. apply Forall_cons_iff in HF as [Hi HF]. unfold mem in Hi.
  cbn [eval_points]. rewrite zget_in by (rewrite Ht; lia). cbn [rbind]. destruct (@neqb NumR (at_ t i) minus1) eqn:E.
  - apply neqb_R in E. rewrite minus1_R in E. rewrite Hag by (auto; left; auto). destruct (ev i) as [v|x]; [|reflexivity]. cbn [rbind].
    apply IH; auto; [now rewrite zset_length|]. intros j Hj Hu. unfold unknown in Hu.
    destruct (Z.eq_dec j i) as [->|Hne]; [apply Hag; [left; auto|exact E]|].
    assert (0 <= j) as J0 by (eapply Forall_forall in HF; [|exact Hj]; unfold mem in HF; lia).
    pose proof (at_zset t i j v ltac:(rewrite Ht; lia) J0) as A1. cbn [num NumR] in *. rewrite A1 in Hu.
    apply Z.eqb_neq in Hne. rewrite Hne in Hu. apply Hag; [right; auto|exact Hu].
  - apply IH; auto. intros j Hj. apply Hag. right; auto.
Qed.

(** what evaluation leaves in the table *)
Lemma eval_points_at : forall ev ps (t t' : list R), length t = n -> Forall mem ps -> @eval_points NumR ev t ps = Ok t' ->
  (forall i, mem i -> at_ t' i = at_ t i \/ unknown t i /\ In i ps /\ ev i = Ok (at_ t' i)) /\
  (forall i, In i ps -> at_ t i <> (-1)%R \/ ev i = Ok (at_ t' i)).
Proof.
  induction ps as [|i ps IH]; intros t t' Ht HF H; cbn [eval_points] in H.
  - inversion H; subst. split; [auto|intros i []].
  - apply Forall_cons_iff in HF as [Hi HF]. unfold mem in Hi. pose proof (zget_in t i ltac:(rewrite Ht; lia)) as G0. cbn [num NumR] in *. rewrite G0 in H. clear G0. cbn [rbind] in H.
    destruct (@neqb NumR (at_ t i) minus1) eqn:E.
    + apply neqb_R in E. rewrite minus1_R in E. destruct (ev i) as [v|x] eqn:Ev; [|discriminate]. cbn [rbind] in H.
      set (t1 := @zset NumR t i v) in *. assert (length t1 = n) as L1 by (unfold t1; now rewrite zset_length).
      assert (forall j, 0 <= j -> at_ t1 j = if j =? i then v else at_ t j) as A1 by (intros; apply at_zset; rewrite ?Ht; lia).
      destruct (IH t1 t' L1 HF H) as [P1 P2].
      assert (ev i = Ok (at_ t' i)) as Ei.
      { destruct (P1 i Hi) as [Q|(_ & _ & Q)]; [|exact Q]. rewrite Q, A1, Z.eqb_refl by lia. exact Ev. }
      split.
      * intros j Hj. destruct (Z.eq_dec j i) as [->|Hne]; [right; split; [exact E|]; split; [left; auto|exact Ei]|].
        specialize (A1 j ltac:(unfold mem in Hj; lia)). apply Z.eqb_neq in Hne. rewrite Hne in A1.
        destruct (P1 j Hj) as [Q|(Q1 & Q2 & Q3)]; [left; congruence|right]. unfold unknown in *. split; [congruence|]. split; [right; auto|auto].
      * intros j [<-|Hj]; [auto|]. destruct (P2 j Hj) as [Q|Q]; [|auto].
        destruct (Z.eq_dec j i) as [->|Hne]; [auto|]. left. rewrite A1 in Q by (eapply Forall_forall in HF; [|exact Hj]; unfold mem in HF; lia).
        apply Z.eqb_neq in Hne. now rewrite Hne in Q.
    + apply neqb_R_false in E. rewrite minus1_R in E. destruct (IH t t' Ht HF H) as [P1 P2]. split.
      * intros j Hj. destruct (P1 j Hj) as [Q|(Q1 & Q2 & Q3)]; [auto|right; split; [auto|split; [right; auto|auto]]].
      * intros j [<-|Hj]; auto.
Qed.

Lemma search_step : forall (t1 : list R) A C E, length t1 = n -> mem A -> mem C -> mem E -> exists m A' C' E',
  smallest t1 (pts A C E) m /\ narrowed t1 m A C E A' C' E' /\ mem A' /\ mem C' /\ mem E' /\
  (2 < E' - A' -> forall ev t fuel, @eval_points NumR ev t (pts A C E) = Ok t1 ->
     @search NumR (S fuel) ev t A (A + (E - A) / 4) C (A + (3 * (E - A)) / 4) E =
     @search NumR fuel ev t1 A' (A' + (E' - A') / 4) C' (A' + (3 * (E' - A')) / 4) E') /\
  (E' - A' <= 2 -> exists k, In k (pts A' C' E') /\ at_ t1 k = m /\
     forall ev t fuel, @eval_points NumR ev t (pts A C E) = Ok t1 ->
     @search NumR (S fuel) ev t A (A + (E - A) / 4) C (A + (3 * (E - A)) / 4) E = Ok (m, k, t1)).
Proof.
  intros t1 A C E Hlen HA HC HE. pose proof (pts_mem A C E HA HC HE) as HF. unfold pts in *.
  set (B := A + (E - A) / 4) in *. set (D := A + (3 * (E - A)) / 4) in *.
  assert (mem B) as HB by (eapply Forall_forall; [exact HF|cbn [In]; auto]).
  assert (mem D) as HD by (eapply Forall_forall; [exact HF|cbn [In]; auto]).
  assert (forall i, mem i -> @zget NumR t1 i = Ok (at_ t1 i)) as G by (intros i Hi; apply zget_in; rewrite Hlen; exact Hi).
  pose proof (G A HA) as GA. pose proof (G B HB) as GB. pose proof (G C HC) as GC. pose proof (G D HD) as GD. pose proof (G E HE) as GE.
  pose proof (min5_spec (at_ t1 A) (at_ t1 B) (at_ t1 C) (at_ t1 D) (at_ t1 E)) as [Hmin Hone].
  set (m := @min5 NumR (at_ t1 A) (at_ t1 B) (at_ t1 C) (at_ t1 D) (at_ t1 E)) in *.
  assert (smallest t1 [A; B; C; D; E] m) as HS.
  { split.
    - intros i [<-|[<-|[<-|[<-|[<-|[]]]]]]; lra.
    - cbn [In]. destruct Hone as [H|[H|[H|[H|H]]]]; eexists; (split; [|symmetry; exact H]); tauto. }
  assert (exists A' C' E', (if @neqb NumR m (at_ t1 A) || @neqb NumR m (at_ t1 B) then (A, B, C)
      else if @neqb NumR m (at_ t1 D) || @neqb NumR m (at_ t1 E) then (C, D, E) else (B, C, D)) = (A', C', E') /\
      narrowed t1 m A C E A' C' E' /\ mem A' /\ mem C' /\ mem E' /\ exists p, In p (pts A' C' E') /\ at_ t1 p = m) as (A' & C' & E' & Eu & Hn & HA' & HC' & HE' & HW).
  { unfold narrowed. fold B D. unfold pts.
    destruct (@neqb NumR m (at_ t1 A) || @neqb NumR m (at_ t1 B)) eqn:C1.
    - apply orb_true_iff in C1. rewrite !neqb_R in C1. exists A, B, C. split; [reflexivity|]. split; [left; tauto|]. split; [auto|]. split; [auto|]. split; [auto|].
      cbn [In]. destruct C1 as [H|H]; eexists; (split; [|symmetry; exact H]); tauto.
    - apply orb_false_iff in C1 as [C1 C1']. apply neqb_R_false in C1, C1'.
      destruct (@neqb NumR m (at_ t1 D) || @neqb NumR m (at_ t1 E)) eqn:C2.
      + apply orb_true_iff in C2. rewrite !neqb_R in C2. exists C, D, E. split; [reflexivity|]. split; [right; left; tauto|]. split; [auto|]. split; [auto|]. split; [auto|].
        cbn [In]. destruct C2 as [H|H]; eexists; (split; [|symmetry; exact H]); tauto.
      + apply orb_false_iff in C2 as [C2 C2']. apply neqb_R_false in C2, C2'.
        assert (m = at_ t1 C) as Hm by (destruct Hone as [H|[H|[H|[H|H]]]]; try contradiction; auto).
        exists B, C, D. split; [reflexivity|]. split; [right; right; tauto|]. split; [auto|]. split; [auto|]. split; [auto|].
        cbn [In]. exists C. split; [tauto|auto]. }
  exists m, A', C', E'. split; [exact HS|]. split; [exact Hn|]. split; [auto|]. split; [auto|]. split; [auto|].
  split.
  - intros Hl ev t fuel E1. cbn [search]. cbn [num NumR] in *. rewrite E1. cbn [rbind]. rewrite GA, GB, GC, GD, GE. cbn [rbind]. fold m. rewrite Eu.
    destruct (Z.ltb_spec 2 (E' - A')) as [C1|C1]; [reflexivity|lia].
  - intros Hl. destruct (first_match (at_ t1) m (pts A' C' E') HW) as (k & r & Ek & Hk & Hat). exists k. split; [auto|]. split; [auto|].
    intros ev t fuel E1. cbn [search]. cbn [num NumR] in *. rewrite E1. cbn [rbind]. rewrite GA, GB, GC, GD, GE. cbn [rbind]. fold m. rewrite Eu.
    destruct (Z.ltb_spec 2 (E' - A')) as [C1|C1]; [lia|].
    pose proof (pts_mem A' C' E' HA' HC' HE') as HF'. unfold pts in *.
    rewrite (mapM_ok_map _ (fun i => (i, at_ t1 i))).
    + cbn [rbind]. cbn [num NumR] in *. rewrite Ek. reflexivity.
    + intros i Hi. eapply Forall_forall in HF'; [|exact Hi]. pose proof (G i HF') as Gi. cbn [num NumR] in *. rewrite Gi. reflexivity.
Qed.

Lemma search_step_err : forall ev t A C E fuel x, @eval_points NumR ev t (pts A C E) = Err x ->
  @search NumR (S fuel) ev t A (A + (E - A) / 4) C (A + (3 * (E - A)) / 4) E = Err x.
Proof. intros ev t A C E fuel x H. cbn [search]. unfold pts in H. cbn [num NumR] in *. rewrite H. reflexivity. Qed.
End Step.

Lemma narrowed_pts : forall t m A C E A' C' E', narrowed t m A C E A' C' E' ->
  In A' (pts A C E) /\ In C' (pts A C E) /\ In E' (pts A C E).
Proof.
  intros t m A C E A' C' E' H. unfold pts. cbn [In].
  destruct H as [(_ & -> & -> & ->)|[(_ & -> & -> & ->)|(_ & _ & _ & _ & _ & -> & -> & ->)]]; tauto.
Qed.
Lemma narrowed_pot : forall t m A C E A' C' E', narrowed t m A C E A' C' E' -> 2 < E - A -> 2 < E' - A' ->
  3 * pot (E' - A') (C' - A') <= pot (E - A) (C - A).
Proof.
  intros t m A C E A' C' E' H Hl Hl'.
  destruct H as [(_ & -> & -> & ->)|[(_ & -> & -> & ->)|(_ & _ & _ & _ & _ & -> & -> & ->)]].
  - replace (A + (E - A) / 4 - A) with ((E - A) / 4) by lia. apply pot_case1; lia.
  - replace (E - C) with (E - A - (C - A)) in * by lia. replace (A + 3 * (E - A) / 4 - C) with (3 * (E - A) / 4 - (C - A)) by lia. apply pot_case2; lia.
  - replace (A + 3 * (E - A) / 4 - (A + (E - A) / 4)) with (3 * (E - A) / 4 - (E - A) / 4) in * by lia.
    replace (C - (A + (E - A) / 4)) with (C - A - (E - A) / 4) by lia. apply pot_case3; lia.
Qed.
Lemma pot_pos : forall l c, 2 < l -> 1 <= pot l c.
Proof.
  intros l c H. unfold pot. assert (0 < (l - 1) ^ 4) by (apply Z.pow_pos_nonneg; lia).
  assert (0 < 2 ^ Z.abs (2 * (2 * c - l) + 1)) by (apply pow2_pos; lia). nia.
Qed.

(** ** the number of sub-models asked for *)
Section Queries.
Context (ev : Z -> res R) (lo L : Z) (n : nat) (Hlo : 0 <= lo) (HL : L < Z.of_nat n).

Lemma inside_mem : forall i, inside lo L i -> mem n i.
Proof. unfold inside, mem. lia. Qed.
Lemma pts_inside : forall A C E, inside lo L A -> inside lo L C -> inside lo L E -> Forall (inside lo L) (pts A C E).
Proof. intros A C E HA HC HE. exact (five_inside lo L n A C E HA HC HE). Qed.
(** what one more round adds *)
Lemma round_agree : forall ev' t A C E (S : list Z), length t = n -> Forall (inside lo L) (pts A C E) ->
  (forall i, In i [A; C; E] -> at_ t i <> (-1)%R \/ In i S) ->
  (forall i, In i (S ++ [A + (E - A) / 4; A + (3 * (E - A)) / 4]) -> ev' i = ev i) ->
  @eval_points NumR ev' t (pts A C E) = @eval_points NumR ev t (pts A C E).
Proof.
  intros ev' t A C E S Ht HF HS Hag. apply (eval_points_agree n); auto.
  - eapply Forall_impl; [|exact HF]. apply inside_mem.
  - intros i Hi Hu. apply Hag. apply in_or_app. unfold unknown in Hu. unfold pts in Hi. cbn [In] in *.
    destruct Hi as [<-|[<-|[<-|[<-|[<-|[]]]]]]; auto.
    + destruct (HS A) as [Q|Q]; auto; contradiction.
    + destruct (HS C) as [Q|Q]; auto; contradiction.
    + destruct (HS E) as [Q|Q]; auto; contradiction.
Qed.

Lemma queries : forall fuel N A C E (t : list R) (S : list Z), length t = n -> inside lo L A -> inside lo L C -> inside lo L E ->
  (2 < E - A -> pot (E - A) (C - A) < 3 ^ Z.of_nat N) -> (E - A <= 2 -> (0 < N)%nat /\ A <= C <= E) ->
  (forall i, In i [A; C; E] -> at_ t i <> (-1)%R \/ In i S) ->
  exists S', (length S' <= 2 * N)%nat /\ Forall (inside lo L) S' /\
    (forall ev', (forall i, In i (S ++ S') -> ev' i = ev i) ->
       @search NumR fuel ev' t A (A + (E - A) / 4) C (A + (3 * (E - A)) / 4) E =
       @search NumR fuel ev t A (A + (E - A) / 4) C (A + (3 * (E - A)) / 4) E) /\
    (forall m k t', @search NumR fuel ev t A (A + (E - A) / 4) C (A + (3 * (E - A)) / 4) E = Ok (m, k, t') ->
       forall i, mem n i -> at_ t' i <> at_ t i -> In i (S ++ S')).
Proof.
  induction fuel as [|fuel IH]; intros N A C E t S Ht HA HC HE HP Hsm HS.
  { exists []. cbn [length]. split; [lia|]. split; [constructor|]. split; [reflexivity|]. intros; discriminate. }
  assert (1 <= N)%nat as HN.
  { destruct (Z.lt_ge_cases 2 (E - A)) as [Hl|Hl]; [|destruct Hsm; lia]. specialize (HP Hl). pose proof (pot_pos (E - A) (C - A) Hl). destruct N; [cbn in HP; lia|lia]. }
  pose proof (pts_inside A C E HA HC HE) as HF. set (B := A + (E - A) / 4) in *. set (D := A + (3 * (E - A)) / 4) in *.
  assert (inside lo L B) as HB by (eapply Forall_forall; [exact HF|unfold pts; cbn [In]; auto]).
  assert (inside lo L D) as HD by (eapply Forall_forall; [exact HF|unfold pts; cbn [In]; auto]).
  assert (Forall (mem n) (pts A C E)) as HM by (eapply Forall_impl; [|exact HF]; apply inside_mem).
  destruct (@eval_points NumR ev t (pts A C E)) as [t1|x] eqn:E1.
  2:{ exists [B; D]. split; [cbn [length]; lia|]. split; [auto|]. pose proof (search_step_err ev t A C E fuel x E1) as E2. fold B D in E2. split.
      - intros ev' Hag. cbn [num NumR] in *. rewrite E2. apply (search_step_err ev' t A C E fuel x). etransitivity; [eapply round_agree; eauto; exact Hag|exact E1].
      - intros. cbn [num NumR] in *. congruence. }
  pose proof (eval_points_length n _ _ _ _ Ht E1) as Ht1.
  destruct (eval_points_at n ev (pts A C E) t t1 Ht HM E1) as [P1 P2].
  assert (forall i, mem n i -> at_ t1 i <> at_ t i -> In i (S ++ [B; D])) as Hnew.
  { intros i Hi Hd. destruct (P1 i Hi) as [Q|(Q1 & Q2 & _)]; [contradiction|]. unfold unknown in Q1. apply in_or_app. unfold pts in Q2. fold B D in Q2. cbn [In] in *.
    destruct Q2 as [<-|[<-|[<-|[<-|[<-|[]]]]]]; auto.
    - destruct (HS A) as [Q|Q]; auto; contradiction.
    - destruct (HS C) as [Q|Q]; auto; contradiction.
    - destruct (HS E) as [Q|Q]; auto; contradiction. }
  destruct (search_step n t1 A C E Ht1) as (m & A' & C' & E' & Hmin & Hn & HA' & HC' & HE' & Hgo & Hend); try (apply inside_mem; assumption).
  destruct (narrowed_pts _ _ _ _ _ _ _ _ Hn) as (IA & IC & IE). rewrite Forall_forall in HF.
  destruct (Z.lt_ge_cases 2 (E' - A')) as [Hl'|Hl'].
  - assert (2 < E - A) as Hl.
    { destruct (Z.lt_ge_cases 2 (E - A)) as [|Hc]; auto. exfalso. destruct (Hsm Hc) as [_ Ho]. clear - Hn Ho Hc Hl'.
      destruct Hn as [(_ & -> & -> & ->)|[(_ & -> & -> & ->)|(_ & _ & _ & _ & _ & -> & -> & ->)]]; try lia. quarters (E - A). lia. }
    pose proof (narrowed_pot _ _ _ _ _ _ _ _ Hn Hl Hl') as Hpot.
    destruct (IH (N - 1)%nat A' C' E' t1 (S ++ [B; D]) Ht1 (HF _ IA) (HF _ IC) (HF _ IE)) as (S' & HS1 & HS2 & HS3 & HS4).
    + intros _. specialize (HP Hl). replace (Z.of_nat N) with (1 + Z.of_nat (N - 1)) in HP by lia. rewrite Z.pow_add_r in HP by lia. change (3 ^ 1) with 3 in HP. lia.
    + lia.
    + intros i Hi. assert (In i (pts A C E)) as Hip by (cbn [In] in Hi; destruct Hi as [<-|[<-|[<-|[]]]]; auto).
      destruct (Req_EM_T (at_ t i) (-1)) as [Hu|Hu].
      * right. apply in_or_app. unfold pts in Hip. fold B D in Hip. cbn [In] in *. destruct Hip as [<-|[<-|[<-|[<-|[<-|[]]]]]]; auto.
        -- destruct (HS A) as [Q|Q]; auto; contradiction.
        -- destruct (HS C) as [Q|Q]; auto; contradiction.
        -- destruct (HS E) as [Q|Q]; auto; contradiction.
      * left. rewrite Forall_forall in HM. destruct (P1 i (HM i Hip)) as [->|(Q & _)]; auto.
    + exists ([B; D] ++ S'). split; [rewrite app_length; cbn [length]; lia|]. split; [apply Forall_app; auto|].
      pose proof (Hgo Hl') as ST. fold B D in ST. rewrite app_assoc. split.
      * intros ev' Hag. assert (@eval_points NumR ev' t (pts A C E) = Ok t1) as E1'.
        { etransitivity; [|exact E1]. apply (round_agree ev' t A C E S); auto; [apply Forall_forall; auto|]. intros i Hi. apply Hag. apply in_or_app. auto. }
        etransitivity; [exact (ST ev' t fuel E1')|]. etransitivity; [apply HS3; auto|]. symmetry. exact (ST ev t fuel E1).
      * intros m' k t' Hr i Hi Hd. specialize (ST ev t fuel E1). cbn [num NumR] in *. rewrite ST in Hr. destruct (Req_EM_T (at_ t' i) (at_ t1 i)) as [Q|Q].
        -- apply in_or_app. left. apply Hnew; auto. congruence.
        -- eapply HS4; eauto.
  - exists [B; D]. split; [cbn [length]; lia|]. split; [auto|]. destruct (Hend Hl') as (k & _ & _ & ST). fold B D in ST. split.
    + intros ev' Hag. assert (@eval_points NumR ev' t (pts A C E) = Ok t1) as E1'.
      { etransitivity; [|exact E1]. apply (round_agree ev' t A C E S); auto. apply Forall_forall; auto. }
      etransitivity; [exact (ST ev' t fuel E1')|]. symmetry. exact (ST ev t fuel E1).
    + intros m' k' t' Hr i Hi Hd. specialize (ST ev t fuel E1). cbn [num NumR] in *. rewrite ST in Hr. inversion Hr; subst. apply Hnew; auto.
Qed.
End Queries.

Lemma half_bounds : forall l, 0 <= l -> 0 <= l / 2 <= l /\ (2 * (l / 2) - l = 0 \/ 2 * (l / 2) - l = -1).
Proof.
  intros l H. pose proof (Z.div_mod l 2 ltac:(lia)). pose proof (Z.mod_pos_bound l 2 ltac:(lia)). lia.
Qed.
Lemma pot_start : forall l, 0 <= l -> pot l (l / 2) = 2 * (l - 1) ^ 4.
Proof.
  intros l H. unfold pot. destruct (half_bounds l H) as [_ [-> | ->]]; [change (2 ^ Z.abs (2 * 0 + 1)) with 2|change (2 ^ Z.abs (2 * -1 + 1)) with 2]; lia.
Qed.
Lemma log_bound : forall l L, 1 <= l -> l < L -> 2 * (l - 1) ^ 4 < 3 ^ (3 * Z.log2_up L + 1).
Proof.
  intros l L H1 H2. pose proof (Z.log2_up_nonneg L) as Hn. pose proof (Z.log2_up_spec L ltac:(lia)) as [_ Hs].
  set (k := Z.log2_up L) in *. clearbody k.
  assert ((l - 1) ^ 4 <= (2 ^ k) ^ 4) as P by (apply pow4_mono; lia).
  rewrite <- Z.pow_mul_r in P by lia. rewrite Z.mul_comm in P. rewrite Z.pow_mul_r in P by lia. change (2 ^ 4) with 16 in P.
  assert (16 ^ k <= 27 ^ k) as P2 by (apply Z.pow_le_mono_l; lia).
  rewrite Z.pow_add_r, Z.pow_mul_r by lia. change (3 ^ 3) with 27. change (3 ^ 1) with 3.
  assert (0 < 27 ^ k) by (apply Z.pow_pos_nonneg; lia). lia.
Qed.

(** C65: the outcome depends on the error of at most 6 log2(L) + 5 sub-models, and only those are evaluated *)
Theorem search_queries : forall (ev : Z -> res R) lo L eL size, 1 <= lo -> lo <= L -> L <= Z.of_nat size ->
  exists qs : list Z, Z.of_nat (length qs) <= 6 * Z.log2_up L + 5 /\ Forall (fun i => lo <= i <= L) qs /\
    (forall ev', (forall i, In i qs -> ev' i = ev i) ->
       @search_from NumR ev' (@init_table NumR size L eL) lo L = @search_from NumR ev (@init_table NumR size L eL) lo L) /\
    (forall m k t, @search_from NumR ev (@init_table NumR size L eL) lo L = Ok (m, k, t) ->
       forall i, 0 <= i <= Z.of_nat size -> at_ t i <> (-1)%R -> In i qs).
Proof.
  intros ev lo L eL size H0 H1 H2. unfold search_from. set (l := L - lo).
  set (t0 := @init_table NumR size L eL). pose proof (Z.log2_up_nonneg L) as Hk.
  destruct (half_bounds l ltac:(unfold l; lia)) as [Hc _].
  destruct (queries ev lo L (S size) ltac:(lia) ltac:(lia) (search_fuel lo L) (Z.to_nat (3 * Z.log2_up L + 1)) lo (lo + l / 2) L t0 [lo; lo + l / 2; L])
    as (S' & HS1 & HS2 & HS3 & HS4); try (unfold inside; lia).
  - apply init_table_length.
  - fold l. intros Hl. replace (lo + l / 2 - lo) with (l / 2) by lia. rewrite pot_start by lia. rewrite Z2Nat.id by lia. apply log_bound; unfold l in *; lia.
  - intros i Hi. right. cbn [In] in *. tauto.
  - exists ([lo; lo + l / 2; L] ++ S'). fold l in HS3, HS4. split; [|split; [|split]].
    + rewrite app_length. cbn [length]. lia.
    + apply Forall_app. split; [|exact HS2]. repeat constructor; unfold l in *; lia.
    + exact HS3.
    + intros m k t Hr i Hi Hk2. destruct (Z.eq_dec i L) as [->|Hne]; [cbn [app In]; auto|]. apply (HS4 m k t Hr i); [unfold mem; lia|]. intros Heq. apply Hk2. rewrite Heq. unfold t0.
      rewrite init_table_at by lia. apply Z.eqb_neq in Hne. now rewrite Hne.
Qed.

(** ** unimodal error curves *)
Section Unimodal.
Context (ev : Z -> res R) (f : Z -> R) (lo L o : Z) (n : nat) (Hlo : 0 <= lo) (HL : L < Z.of_nat n).

(** f decreases until o and increases afterwards *)
Definition valley : Prop :=
  (forall i j, lo <= i -> i < j -> j <= o -> (f j < f i)%R) /\ (forall i j, o <= i -> i < j -> j <= L -> (f i < f j)%R).
Definition true_table (t : list R) : Prop :=
  length t = n /\ forall i, lo <= i <= L -> at_ t i = (-1)%R \/ at_ t i = f i.

Lemma search_hull : forall x y fuel A C E (t : list R) m k t', length t = n ->
  x <= A <= y -> x <= C <= y -> x <= E <= y -> lo <= x -> y <= L ->
  @search NumR fuel ev t A (A + (E - A) / 4) C (A + (3 * (E - A)) / 4) E = Ok (m, k, t') -> x <= k <= y.
Proof.
  intros x y. induction fuel as [|fuel IH]; intros A C E t m k t' Ht HA HC HE Hx Hy Hr; [discriminate|].
  destruct (@eval_points NumR ev t (pts A C E)) as [t1|e] eqn:E1.
  2:{ pose proof (search_step_err ev t A C E fuel e E1) as Q. cbn [num NumR] in *. congruence. }
  pose proof (eval_points_length n _ _ _ _ Ht E1) as Ht1.
  destruct (search_step n t1 A C E Ht1) as (m1 & A' & C' & E' & _ & Hn & HA' & HC' & HE' & Hgo & Hend); try (unfold mem; lia).
  pose proof (pts_inside x y n A C E HA HC HE) as HF. destruct (narrowed_pts _ _ _ _ _ _ _ _ Hn) as (IA & IC & IE). rewrite Forall_forall in HF.
  pose proof (HF _ IA) as JA. pose proof (HF _ IC) as JC. pose proof (HF _ IE) as JE.
  destruct (Z.lt_ge_cases 2 (E' - A')) as [Hl|Hl].
  - specialize (Hgo Hl ev t fuel E1). cbn [num NumR] in *. rewrite Hgo in Hr. exact (IH A' C' E' t1 m k t' Ht1 JA JC JE Hx Hy Hr).
  - destruct (Hend Hl) as (k' & Hk & _ & Q). specialize (Q ev t fuel E1). cbn [num NumR] in *. rewrite Q in Hr. assert (k' = k) as <- by congruence.
    pose proof (pts_inside x y n A' C' E' JA JC JE) as HF'. rewrite Forall_forall in HF'. apply HF'. exact Hk.
Qed.

Lemma unimodal_search : forall P b, valley -> lo <= o <= L -> (forall i, lo <= i <= L -> ev i = Ok (f i) /\ (0 <= f i)%R) ->
  2 <= b -> (forall l, 2 < l -> (l - 1) ^ 4 * 2 ^ (l - 2) <= P -> l <= b) ->
  forall fuel A C E t m k t', true_table t -> lo <= A -> A <= C <= E -> E <= L -> A <= o <= E -> 2 < E - A -> pot (E - A) (C - A) <= P ->
  @search NumR fuel ev t A (A + (E - A) / 4) C (A + (3 * (E - A)) / 4) E = Ok (m, k, t') -> Z.abs (k - o) <= b.
Proof.
  intros P b [Hd Hu] Ho Hev Hb2 Hb. induction fuel as [|fuel IH]; intros A C E t m k t' [Ht Htab] HA HC HE Hin Hl HP Hr; [discriminate|].
  set (q := (E - A) / 4) in *. set (p := (3 * (E - A)) / 4) in *.
  assert (0 <= q <= E - A /\ 0 <= p <= E - A /\ 4 * q <= E - A <= 4 * q + 3 /\ 4 * p <= 3 * (E - A) <= 4 * p + 3) as Hqp.
  { pose proof (Z.div_mod (E - A) 4 ltac:(lia)). pose proof (Z.mod_pos_bound (E - A) 4 ltac:(lia)).
    pose proof (Z.div_mod (3 * (E - A)) 4 ltac:(lia)). pose proof (Z.mod_pos_bound (3 * (E - A)) 4 ltac:(lia)). unfold q, p. lia. }
  destruct (Z_lt_dec q (C - A)) as [Cq|Cq]; [destruct (Z_lt_dec (C - A) p) as [Cp|Cp]|].
  2,3: assert (A <= k <= E) as Hk by (apply (search_hull A E (S fuel) A C E t m k t'); auto; lia);
    assert (E - A <= b); [|lia]; apply Hb; [lia|]; etransitivity; [|exact HP]; unfold pot;
    apply Z.mul_le_mono_nonneg_l; [apply Z.pow_nonneg; lia|apply pow2_le; lia].
  destruct (@eval_points NumR ev t (pts A C E)) as [t1|e] eqn:E1.
  2:{ pose proof (search_step_err ev t A C E fuel e E1) as Q. unfold q, p in Hr. cbn [num NumR] in *. congruence. }
  pose proof (eval_points_length n _ _ _ _ Ht E1) as Ht1.
  assert (Forall (inside lo L) (pts A C E)) as HF by (apply (pts_inside lo L n); unfold inside; lia).
  assert (Forall (mem n) (pts A C E)) as HM by (eapply Forall_impl; [|exact HF]; apply inside_mem; lia).
  destruct (eval_points_at n ev (pts A C E) t t1 Ht HM E1) as [P1 P2].
  assert (true_table t1) as Htab1.
  { split; [auto|]. intros i Hi. destruct (P1 i ltac:(unfold mem; lia)) as [->|(_ & _ & Q)]; [auto|]. right. destruct (Hev i Hi) as [Q' _]. congruence. }
  assert (forall i, In i (pts A C E) -> at_ t1 i = f i) as Hat.
  { intros i Hi. rewrite Forall_forall in HF. pose proof (HF i Hi) as Hii. unfold inside in Hii. destruct (Hev i Hii) as [Q Qf].
    destruct (P2 i Hi) as [Q1|Q1]; [|congruence]. destruct (P1 i ltac:(unfold mem; lia)) as [->|(Q2 & _ & _)]; [|contradiction].
    destruct (Htab i Hii); [contradiction|auto]. }
  destruct (search_step n t1 A C E Ht1) as (m1 & A' & C' & E' & [Hmin _] & Hn & HA' & HC' & HE' & Hgo & Hend); try (unfold mem; lia).
  unfold pts in Hat, Hmin. fold q p in Hat, Hmin. cbn [In] in Hat, Hmin.
  pose proof (Hat A ltac:(auto)) as FA. pose proof (Hat (A + q) ltac:(auto)) as FB. pose proof (Hat C ltac:(auto)) as FC.
  pose proof (Hat (A + p) ltac:(auto)) as FD. pose proof (Hat E ltac:(auto 6)) as FE.
  pose proof (Hmin A ltac:(auto)) as MA. pose proof (Hmin (A + q) ltac:(auto)) as MB. pose proof (Hmin C ltac:(auto)) as MC.
  pose proof (Hmin (A + p) ltac:(auto)) as MD. pose proof (Hmin E ltac:(auto 6)) as ME. rewrite FA in MA. rewrite FB in MB. rewrite FC in MC. rewrite FD in MD. rewrite FE in ME.
  (* the optimum stays in the bracket *)
  assert (A' <= o <= E' /\ A' <= C' <= E' /\ lo <= A' /\ E' <= L) as (Ho' & HC2 & HA2 & HE2).
  { pose proof Hn as Hn0. unfold narrowed in Hn0. fold q p in Hn0. rewrite FA, FB, FC, FD, FE in Hn0.
    destruct Hn0 as [(Hm & -> & -> & ->)|[(Hm & -> & -> & ->)|(Hm & _ & _ & _ & _ & -> & -> & ->)]].
    - split; [|lia]. split; [lia|]. destruct (Z.le_gt_cases o C) as [|Hc]; [auto|exfalso].
      pose proof (Hd (A + q) C ltac:(lia) ltac:(lia) ltac:(lia)). pose proof (Hd A C ltac:(lia) ltac:(lia) ltac:(lia)). destruct Hm as [Hm|Hm]; lra.
    - split; [|lia]. split; [|lia]. destruct (Z.le_gt_cases C o) as [|Hc]; [auto|exfalso].
      pose proof (Hu C (A + p) ltac:(lia) ltac:(lia) ltac:(lia)). pose proof (Hu C E ltac:(lia) ltac:(lia) ltac:(lia)). destruct Hm as [Hm|Hm]; lra.
    - split; [|lia]. split.
      + destruct (Z.le_gt_cases (A + q) o) as [|Hc]; [auto|exfalso]. pose proof (Hu (A + q) C ltac:(lia) ltac:(lia) ltac:(lia)). lra.
      + destruct (Z.le_gt_cases o (A + p)) as [|Hc]; [auto|exfalso]. pose proof (Hd C (A + p) ltac:(lia) ltac:(lia) ltac:(lia)). lra. }
  destruct (Z.lt_ge_cases 2 (E' - A')) as [Hl'|Hl'].
  - specialize (Hgo Hl' ev t fuel E1). fold q p in Hgo. cbn [num NumR] in *. rewrite Hgo in Hr. eapply IH; eauto.
    pose proof (narrowed_pot _ _ _ _ _ _ _ _ Hn Hl Hl') as Hpot. pose proof (pot_pos (E' - A') (C' - A') Hl'). lia.
  - destruct (Hend Hl') as (k' & Hk & _ & Q). specialize (Q ev t fuel E1). fold q p in Q. cbn [num NumR] in *. rewrite Q in Hr. assert (k' = k) as <- by congruence.
    pose proof (pts_inside A' E' n A' C' E') as HF'. unfold inside in HF'. specialize (HF' ltac:(lia) ltac:(lia) ltac:(lia)). rewrite Forall_forall in HF'. specialize (HF' _ Hk). lia.
Qed.
End Unimodal.

Lemma narrow_bound : forall L l, 1 < L -> 2 < l -> forall l0, 1 <= l0 -> l0 < L -> (l - 1) ^ 4 * 2 ^ (l - 2) <= 2 * (l0 - 1) ^ 4 -> l <= 4 * Z.log2_up L.
Proof.
  intros L l HL Hl l0 H1 H2 H. pose proof (Z.log2_up_nonneg L) as Hn. pose proof (Z.log2_up_spec L ltac:(lia)) as [_ Hs].
  set (k := Z.log2_up L) in *. clearbody k.
  assert ((l0 - 1) ^ 4 <= (2 ^ k) ^ 4) as P by (apply pow4_mono; lia). rewrite <- Z.pow_mul_r in P by lia.
  assert (2 ^ 4 <= (l - 1) ^ 4) as P2 by (apply pow4_mono; lia).
  assert (2 ^ (l + 2) <= 2 ^ (k * 4 + 1)) as P3.
  { replace (l + 2) with (4 + (l - 2)) by lia. rewrite (pow2_add 4), (pow2_add (k * 4)) by lia. change (2 ^ 1) with 2.
    assert (0 < 2 ^ (l - 2)) by (apply pow2_pos; lia). nia. }
  apply Z.pow_le_mono_r_iff in P3; lia.
Qed.

(** C66: on a unimodal error curve the returned size is within 4 log2(L) of the best one *)
Theorem search_unimodal : forall (ev : Z -> res R) (f : Z -> R) lo L o size, 1 <= lo -> lo <= L -> L <= Z.of_nat size ->
  valley f lo L o -> lo <= o <= L -> (forall i, lo <= i <= L -> ev i = Ok (f i) /\ (0 <= f i)%R) ->
  forall m k t, @search_from NumR ev (@init_table NumR size L (f L)) lo L = Ok (m, k, t) -> m = f k /\ Z.abs (k - o) <= 4 * Z.log2_up L.
Proof.
  intros ev f lo L o size H0 H1 H2 Hv Ho Hev m k t Hr. split.
  { destruct (search_from_spec ev lo L (f L) size ltac:(lia) H1 H2) as [(m' & k' & t' & E & Hk & Hat & Hrec & Hpos)|(x & i & _ & _ & E)].
    - cbn [num NumR] in *. rewrite E in Hr. inversion Hr; subst.
      destruct Hpos as [[_ Hk2] _].
      + intros i v [Hi [[-> ->]|Hi2]]; [apply Hev; lia|]. destruct (Hev i Hi) as [Q Q']. rewrite Q in Hi2. inversion Hi2; subst. auto.
      + destruct Hk2 as [[-> ->]|Hk2]; [reflexivity|]. destruct (Hev k Hk) as [Q _]. rewrite Q in Hk2. now inversion Hk2.
    - cbn [num NumR] in *. rewrite E in Hr. discriminate. }
  unfold search_from in Hr. set (l := L - lo) in *. set (t0 := @init_table NumR size L (f L)) in *.
  destruct (half_bounds l ltac:(unfold l; lia)) as [Hc _].
  assert (length t0 = S size) as Ht0 by apply init_table_length.
  destruct (Z.lt_ge_cases 2 l) as [Hl|Hl].
  - apply (unimodal_search ev f lo L o (S size) ltac:(lia) ltac:(lia) (2 * (l - 1) ^ 4) (4 * Z.log2_up L) Hv Ho Hev) with
      (fuel := search_fuel lo L) (A := lo) (C := lo + l / 2) (E := L) (t := t0) (m := m) (t' := t); auto; try (unfold l in *; lia).
    + pose proof (Z.log2_up_spec L ltac:(lia)) as [_ Hs]. pose proof (Z.log2_up_nonneg L). destruct (Z.eq_dec (Z.log2_up L) 0) as [E|]; [rewrite E in Hs; cbn in Hs; lia|lia].
    + intros l1 Hl1. apply narrow_bound; unfold l in *; lia.
    + split; [exact Ht0|]. intros i Hi. unfold t0. rewrite init_table_at by lia. destruct (Z.eqb_spec i L) as [->|]; auto.
    + fold l. replace (lo + l / 2 - lo) with (l / 2) by lia. rewrite pot_start by lia. lia.
  - assert (lo <= k <= L) as Hk by (apply (search_hull ev lo L (S size) ltac:(lia) ltac:(lia) lo L (search_fuel lo L) lo (lo + l / 2) L t0 m k t Ht0); auto; unfold l in *; lia).
    destruct (Z.eq_dec L 1) as [->|HL1]; [cbn; lia|].
    pose proof (Z.log2_up_spec L ltac:(lia)) as [_ Hs]. pose proof (Z.log2_up_nonneg L). destruct (Z.eq_dec (Z.log2_up L) 0) as [E|]; [rewrite E in Hs; cbn in Hs; lia|unfold l in *; lia].
Qed.

(** ** evaluating more sizes successfully changes nothing *)
Lemma eval_points_mono : forall (ev ev' : Z -> res R) n ps (t t1 : list R), length t = n -> Forall (mem n) ps ->
  (forall i v, mem n i -> unknown t i -> ev i = Ok v -> ev' i = Ok v) ->
  @eval_points NumR ev t ps = Ok t1 -> @eval_points NumR ev' t ps = Ok t1.
Proof.
  induction ps as [|i ps IH]; intros t t1 Ht HF Hag H; [exact H|]. apply Forall_cons_iff in HF as [Hi HF]. pose proof Hi as Hi0. unfold mem in Hi.
  cbn [eval_points] in H |- *. pose proof (zget_in t i ltac:(rewrite Ht; lia)) as G. cbn [num NumR] in *. rewrite G in H |- *. cbn [rbind] in H |- *.
  destruct (@neqb NumR (at_ t i) minus1) eqn:E; [|apply IH; auto].
  apply neqb_R in E. rewrite minus1_R in E. destruct (ev i) as [v|] eqn:Ev; [|discriminate]. rewrite (Hag i v Hi0 E Ev). cbn [rbind] in H |- *.
  apply IH; auto; [now rewrite zset_length|]. intros j w Hj Hu. unfold mem in Hj. unfold unknown in Hu.
  rewrite at_zset in Hu by (rewrite ?Ht; lia). destruct (Z.eqb_spec j i) as [->|Hne]; apply Hag; auto.
Qed.
Lemma search_mono : forall (ev ev' : Z -> res R) n fuel A C E (t : list R) r, length t = n -> mem n A -> mem n C -> mem n E ->
  (forall i v, mem n i -> unknown t i -> ev i = Ok v -> ev' i = Ok v) ->
  @search NumR fuel ev t A (A + (E - A) / 4) C (A + (3 * (E - A)) / 4) E = Ok r ->
  @search NumR fuel ev' t A (A + (E - A) / 4) C (A + (3 * (E - A)) / 4) E = Ok r.
Proof.
  induction fuel as [|fuel IH]; intros A C E t r Ht HA HC HE Hag Hr; [discriminate|].
  destruct (@eval_points NumR ev t (pts A C E)) as [t1|e] eqn:E1.
  2:{ pose proof (search_step_err ev t A C E fuel e E1) as Q. cbn [num NumR] in *. congruence. }
  pose proof (pts_mem n A C E HA HC HE) as HF.
  pose proof (eval_points_mono ev ev' n _ _ _ Ht HF Hag E1) as E1'.
  destruct (eval_points_at n ev (pts A C E) t t1 Ht HF E1) as [P1 _].
  pose proof (eval_points_length n _ _ _ _ Ht E1) as Ht1.
  destruct (search_step n t1 A C E Ht1 HA HC HE) as (m1 & A' & C' & E' & _ & Hn & HA' & HC' & HE' & Hgo & Hend).
  destruct (Z.lt_ge_cases 2 (E' - A')) as [Hl|Hl].
  - pose proof (Hgo Hl ev t fuel E1) as Q. pose proof (Hgo Hl ev' t fuel E1') as Q'. cbn [num NumR] in *. rewrite Q in Hr. rewrite Q'. apply IH; auto.
    intros i v Hi Hu Ev. destruct (P1 i Hi) as [P|(P & _)]; apply Hag; auto. unfold unknown in *. congruence.
  - destruct (Hend Hl) as (k' & _ & _ & Q). pose proof (Q ev t fuel E1) as Q1. pose proof (Q ev' t fuel E1') as Q2. cbn [num NumR] in *. rewrite Q1 in Hr. rewrite Q2. exact Hr.
Qed.

(** the same bound when only the evaluated sizes are known to be on the curve *)
Theorem search_valley : forall (ev : Z -> res R) (f : Z -> R) lo L o size, 1 <= lo -> lo <= L -> L <= Z.of_nat size ->
  valley f lo L o -> lo <= o <= L -> (forall i, lo <= i <= L -> (0 <= f i)%R) -> (forall i v, lo <= i < L -> ev i = Ok v -> v = f i) ->
  forall m k t, @search_from NumR ev (@init_table NumR size L (f L)) lo L = Ok (m, k, t) -> Z.abs (k - o) <= 4 * Z.log2_up L.
Proof.
  intros ev f lo L o size H0 H1 H2 Hv Ho Hf Hev m k t Hr.
  set (ev' := fun i => if (lo <=? i) && (i <=? L) then Ok (f i) else ev i).
  destruct (half_bounds (L - lo) ltac:(lia)) as [Hc _].
  assert (@search_from NumR ev' (@init_table NumR size L (f L)) lo L = Ok (m, k, t)) as Hr'.
  { unfold search_from in Hr |- *. apply (search_mono ev ev' (S size)); auto; try (unfold mem; lia); [apply init_table_length|].
    intros i v Hi Hu E. unfold ev'. destruct (Z.leb_spec lo i), (Z.leb_spec i L); cbn [andb]; auto.
    destruct (Z.eq_dec i L) as [->|Hne]; [|f_equal; symmetry; apply Hev; auto; lia].
    exfalso. unfold unknown in Hu. rewrite init_table_at, Z.eqb_refl in Hu by lia. specialize (Hf L ltac:(lia)). lra. }
  apply (search_unimodal ev' f lo L o size H0 H1 H2 Hv Ho) with (m := m) (t := t); auto.
  intros i Hi. split; [|auto]. unfold ev'. destruct (Z.leb_spec lo i), (Z.leb_spec i L); cbn [andb]; auto; lia.
Qed.
