(** The rankings: a smaller kmax gives the beginning of the ranking of a larger one (C67);
    the first neuron is the one most correlated with the targets (C68). *)
From Coq Require Import Reals Lra Permutation.
From Verif Require Import Base Num Mat LinAlg Mrsr MatFacts RankThms RLin ErrThms Spec.
Local Open Scope nat_scope.

Section Any.
Context {K : Num} {SG : Sing} {BR : Brent}.

(** two steps from the same state choose the same neuron *)
Lemma mrsr_step_same : forall X T m p k1 k2 k st st1, k <= k1 -> k1 <= k2 -> mrsr_step X T m p k2 k st = Ok st1 ->
  exists st2, mrsr_step X T m p k1 k st = Ok st2 /\ i1 st2 = i1 st1 /\ (k < k1 -> st2 = st1).
Proof.
  intros X T m p k1 k2 k st st1 H1 H2 E. unfold mrsr_step in *.
  match type of E with context [abs_colsum ?c ?A] => set (ss := abs_colsum c A) in * end.
  destruct ss as [|s0 ss]; [discriminate|]. cbv zeta in *.
  match goal with |- context [k =? k1] => destruct (Nat.eqb_spec k k1) as [->|N1] end.
  - eexists. split; [reflexivity|]. cbn [i1]. split; [|lia]. destruct (Nat.eqb_spec k1 k2) as [_|N2].
    + injection E as <-. reflexivity.
    + destruct (min_step _) as [g|]; cbn [rbind] in E; [|discriminate]. injection E as <-. reflexivity.
  - destruct (Nat.eqb_spec k k2) as [->|N2]; [lia|]. destruct (min_step _) as [g|]; cbn [rbind] in *; [|discriminate].
    injection E as <-. eexists. split; [reflexivity|]. split; auto.
Qed.
Lemma mrsr_step_app : forall X T m p kmax k st st', mrsr_step X T m p kmax k st = Ok st' -> exists x, i1 st' = i1 st ++ [x].
Proof.
  intros X T m p kmax k st st' E. unfold mrsr_step in E.
  match type of E with context [abs_colsum ?c ?A] => set (ss := abs_colsum c A) in * end.
  destruct ss as [|s0 ss]; [discriminate|]. cbv zeta in E. destruct (k =? kmax).
  - injection E as <-. eexists. reflexivity.
  - destruct (min_step _) as [g|]; cbn [rbind] in E; [|discriminate]. injection E as <-. eexists. reflexivity.
Qed.
Lemma mrsr_loop_app : forall X T m p kmax ks st st', mrsr_loop X T m p kmax ks st = Ok st' -> exists l, i1 st' = i1 st ++ l.
Proof.
  induction ks as [|k ks IH]; intros st st' E; cbn [mrsr_loop] in E.
  - injection E as <-. exists []. now rewrite app_nil_r.
  - destruct (mrsr_step _ _ _ _ _ _ st) as [st1|] eqn:E1; cbn [rbind] in E; [|discriminate].
    destruct (mrsr_step_app _ _ _ _ _ _ _ _ E1) as [x Hx]. destruct (IH _ _ E) as [l Hl]. exists (x :: l). rewrite Hl, Hx, <- app_assoc. reflexivity.
Qed.
Lemma mrsr_loop_prefix : forall X T m p k1 k2 n1 n2 k st st2, k1 <= k2 -> k + n1 = S k1 -> n1 <= n2 ->
  mrsr_loop X T m p k2 (seq k n2) st = Ok st2 ->
  exists st1 l, mrsr_loop X T m p k1 (seq k n1) st = Ok st1 /\ i1 st2 = i1 st1 ++ l.
Proof.
  intros X T m p k1 k2. induction n1 as [|n1 IH]; intros n2 k st st2 Hk Hn Hn2 E.
  - cbn [seq mrsr_loop]. destruct (mrsr_loop_app _ _ _ _ _ _ _ _ E) as [l Hl]. exists st, l. auto.
  - destruct n2 as [|n2]; [lia|]. cbn [seq mrsr_loop] in E |- *.
    destruct (mrsr_step X T m p k2 k st) as [s1|] eqn:E1; cbn [rbind] in E; [|discriminate].
    destruct (mrsr_step_same X T m p k1 k2 k st s1 ltac:(lia) Hk E1) as (s2 & E2 & Ei & Es). rewrite E2. cbn [rbind].
    destruct (Nat.eq_dec n1 0) as [->|Hn0].
    + cbn [seq mrsr_loop]. destruct (mrsr_loop_app _ _ _ _ _ _ _ _ E) as [l Hl]. exists s2, l. split; [auto|]. now rewrite Ei.
    + rewrite (Es ltac:(lia)). apply (IH n2 (S k) s1 st2); auto; lia.
Qed.

Theorem mrsr_prefix : forall X T m p k1 k2 r, k1 <= k2 -> mrsr X T m p k2 = Ok r ->
  exists r1 l, mrsr X T m p k1 = Ok r1 /\ r = r1 ++ l.
Proof.
  intros X T m p k1 k2 r Hk E. unfold mrsr in *. destruct (mrsr_first X T m p) as [st|]; cbn [rbind] in *; [|discriminate].
  destruct (mrsr_loop _ _ _ _ _ _ st) as [st2|] eqn:E2; cbn [rbind] in E; [|discriminate]. injection E as <-.
  destruct (Nat.eq_dec (Nat.min k1 m) 0) as [E0|N0].
  - rewrite E0. cbn [Nat.sub seq mrsr_loop rbind]. destruct (mrsr_loop_app _ _ _ _ _ _ _ _ E2) as [l Hl]. exists (i1 st), l. auto.
  - destruct (mrsr_loop_prefix X T m p (Nat.min k1 m) (Nat.min k2 m) (Nat.min k1 m - 1) (Nat.min k2 m - 1) 2 st st2) as (st1 & l & E1 & El); auto; try lia.
    rewrite E1. cbn [rbind]. exists (i1 st1), l. auto.
Qed.

Lemma mrsr2_step_app : forall X T m p st st', mrsr2_step X T m p st = Ok st' -> exists l, rank2 st' = rank2 st ++ l.
Proof.
  intros X T m p st st' E. unfold mrsr2_step in E. destruct (rank2 st) as [|r0 rs].
  - destruct (first_max _ _ _ _) as [j|]; cbn [rbind] in E; [|discriminate]. injection E as <-. cbn [rank2]. exists [j]. reflexivity.
  - destruct (non2 st).
    + cbn [rbind] in E. injection E as <-. exists []. cbn [rank2]. now rewrite app_nil_r.
    + cbv zeta in E. destruct (min_new _ _ _ _ _ _). cbn [rbind] in E. injection E as <-. cbn [rank2]. eexists. reflexivity.
Qed.
Lemma mrsr2_loop_prefix : forall X T m p k1 k2 st st2, k1 <= k2 -> mrsr2_loop X T m p k2 st = Ok st2 ->
  exists st1 l, mrsr2_loop X T m p k1 st = Ok st1 /\ rank2 st2 = rank2 st1 ++ l.
Proof.
  induction k1 as [|k1 IH]; intros k2 st st2 Hk E; cbn [mrsr2_loop].
  - exists st. clear Hk. revert st E. induction k2 as [|k2 IH2]; intros st E; cbn [mrsr2_loop] in E.
    + injection E as <-. exists []. split; auto. now rewrite app_nil_r.
    + destruct (mrsr2_step X T m p st) as [s1|] eqn:E1; cbn [rbind] in E; [|discriminate].
      destruct (mrsr2_step_app _ _ _ _ _ _ E1) as [l Hl]. destruct (IH2 _ E) as (l' & _ & Hl'). exists (l ++ l'). split; auto. rewrite Hl', Hl. now rewrite app_assoc.
  - destruct k2 as [|k2]; [lia|]. cbn [mrsr2_loop] in E. destruct (mrsr2_step X T m p st) as [s1|] eqn:E1; cbn [rbind] in *; [|discriminate].
    apply (IH k2); auto. lia.
Qed.
Theorem mrsr2_prefix : forall X T m p k1 k2 r, k1 <= k2 -> mrsr2 X T m p k2 = Ok r ->
  exists r1 l, mrsr2 X T m p k1 = Ok r1 /\ r = r1 ++ l.
Proof.
  intros X T m p k1 k2 r Hk E. unfold mrsr2 in *.
  match type of E with context [mrsr2_loop _ _ _ _ ?k ?s] => destruct (mrsr2_loop X T m p k s) as [st2|] eqn:E2; [|discriminate] end. cbn [rbind] in E. injection E as <-.
  destruct (mrsr2_loop_prefix X T m p (Nat.min k1 (length X)) (Nat.min k2 (length X)) _ _ ltac:(lia) E2) as (st1 & l & E1 & El). rewrite E1. cbn [rbind]. eauto.
Qed.
End Any.

Section Real.
#[local] Existing Instance NumR.
Context {SG : @Sing NumR} {BR : @Brent NumR}.
Local Open Scope R_scope.

(** correlation of neuron j with output o over the samples *)
Definition correlation (H T : list (list R)) (j o : nat) : R := Rsum (map2 (fun h t => entry t o * entry h j) H T).
(** strength of neuron j: sum of absolute correlations, or root of the sum of squares *)
Definition strength_abs (H T : list (list R)) (p j : nat) : R := Rsum (map (fun o => Rabs (correlation H T j o)) (seq 0 p)).
Definition strength_sqr (H T : list (list R)) (p j : nat) : R := sqrt (Rsum (map (fun o => correlation H T j o * correlation H T j o) (seq 0 p))).

Lemma nsum_Rsum : forall l : list R, @nsum NumR l = Rsum l.
Proof. reflexivity. Qed.

Lemma map2_swap : forall {A B C} (f : A -> B -> C) l m, map2 f l m = map2 (fun b a => f a b) m l.
Proof. induction l as [|a l IH]; intros [|b m]; cbn [map2]; auto. f_equal. apply IH. Qed.

Lemma colsum_strength : forall H T m p, @abs_colsum NumR m (@tdot NumR p m T H) = map (strength_abs H T p) (seq 0 m).
Proof.
  intros H T m p. unfold abs_colsum, mkv. apply map_ext_in. intros j Hj. apply in_seq in Hj. unfold strength_abs.
  rewrite nsum_Rsum. f_equal. unfold tdot, mk. rewrite map_map. apply map_ext_in. intros o _. change (@nabs NumR) with Rabs. f_equal.
  unfold mkv, vget. rewrite (nth_map_lt _ (seq 0 m) j 0%nat 0) by (rewrite seq_length; lia). rewrite seq_nth by lia. cbn [Nat.add].
  unfold correlation. rewrite map2_swap. reflexivity.
Qed.

Lemma head_of : forall (r l : list nat) x, r = [x] ++ l -> hd_error r = Some x.
Proof. intros r l x ->. reflexivity. Qed.

Theorem mrsr_first_choice : forall H T m p kmax r, @mrsr NumR SG H T m p kmax = Ok r ->
  exists j, hd_error r = Some j /\ (j < m)%nat /\ (forall i, (i < m)%nat -> strength_abs H T p i <= strength_abs H T p j) /\
    (forall i, (i < j)%nat -> strength_abs H T p i < strength_abs H T p j).
Proof.
  intros H T m p kmax r E. unfold mrsr in E. destruct (mrsr_first H T m p) as [st|] eqn:E1; cbn [rbind] in E; [|discriminate].
  destruct (mrsr_loop _ _ _ _ _ _ st) as [st2|] eqn:E2; cbn [rbind] in E; [|discriminate]. injection E as <-.
  destruct (mrsr_loop_app _ _ _ _ _ _ _ _ E2) as [l Hl].
  unfold mrsr_first in E1. rewrite colsum_strength in E1. set (ss := map (strength_abs H T p) (seq 0 m)) in *.
  assert (length ss = m) as HL by (unfold ss; now rewrite map_length, seq_length).
  assert (forall i, (i < m)%nat -> entry ss i = strength_abs H T p i) as HE.
  { intros i Hi. unfold ss, entry. rewrite (nth_map_lt _ (seq 0 m) i 0%nat 0) by (rewrite seq_length; lia). now rewrite seq_nth by lia. }
  clearbody ss. destruct ss as [|s0 ss]; [discriminate|].
  destruct (argmax_first (s0 :: ss) ltac:(discriminate)) as (A1 & A2 & A3). cbv zeta in E1. cbn [num NumR] in *. set (c := @argmax NumR (s0 :: ss)) in *. clearbody c.
  rewrite HL in *. exists c.
  assert (i1 st = [c]) as Hi.
  { destruct (np_div _ _); try discriminate. destruct (min_step _); cbn [rbind] in E1; [|discriminate]. injection E1 as <-. cbn [i1]. now rewrite seq_nth by lia. }
  split; [rewrite Hl, Hi; reflexivity|]. split; [exact A1|]. split.
  - intros i Hi0. rewrite <- !HE by lia. apply A2. lia.
  - intros i Hi0. rewrite <- !HE by lia. apply A3. lia.
Qed.

Lemma first_max_spec : forall (f : nat -> R) js c j0 j, @first_max NumR f js c j0 = Some j ->
  (forall i, In i js -> f i <= f j \/ j0 = Some j /\ f i <= c) /\ (j0 = Some j \/ In j js /\ c < f j).
Proof.
  induction js as [|x js IH]; intros c j0 j E; cbn [first_max] in E.
  - split; [intros i []|auto].
  - change (@nltb NumR c (f x)) with (Rltb c (f x)) in E. unfold Rltb in E. destruct (Rlt_dec c (f x)) as [Hc|Hc].
    + destruct (IH _ _ _ E) as [A B]. split.
      * intros i [<-|Hi].
        -- destruct B as [B|[_ B]]; [injection B as <-; left; lra|left; lra].
        -- destruct (A i Hi) as [Q|[Q1 Q2]]; [auto|]. injection Q1 as <-. left; lra.
      * right. destruct B as [B|[B1 B2]]; [injection B as <-; split; [left; auto|lra]|split; [right; auto|lra]].
    + destruct (IH _ _ _ E) as [A B]. split.
      * intros i [<-|Hi]; [|auto]. destruct B as [B|[_ B]]; [right; split; [auto|lra]|left; lra].
      * destruct B as [B|[B1 B2]]; [auto|right; split; [right; auto|lra]].
Qed.

Lemma norm_strength : forall H T p j, length H = length T -> @norm2 NumR (@tvec NumR p T (@mcol NumR H j)) = strength_sqr H T p j.
Proof.
  intros H T p j _. unfold norm2, strength_sqr. change (@nsqrt NumR) with sqrt. f_equal. rewrite nsum_Rsum. f_equal.
  unfold tvec, mkv. rewrite map_map. apply map_ext. intros o.
  assert (@nsum NumR (map2 (fun t a => @nmul NumR (@vget NumR t o) a) T (@mcol NumR H j)) = correlation H T j o) as ->; [|reflexivity].
  rewrite nsum_Rsum. unfold correlation. f_equal. unfold mcol. clear. revert T. induction H as [|h H IH]; intros [|t T]; cbn [map map2]; auto. f_equal. apply IH.
Qed.

Theorem mrsr2_first_choice : forall H T m p kmax r, length H = length T -> (0 < kmax)%nat -> H <> [] -> @mrsr2 NumR SG BR H T m p kmax = Ok r ->
  exists j, hd_error r = Some j /\ (j < m)%nat /\ (forall i, (i < m)%nat -> strength_sqr H T p i <= strength_sqr H T p j).
Proof.
  intros H T m p kmax r HLn Hk HN E. destruct (mrsr2_prefix H T m p 1 kmax r ltac:(lia) E) as (r1 & l & E1 & ->).
  unfold mrsr2 in E1. replace (Nat.min 1 (length H)) with 1%nat in E1 by (destruct H; [congruence|cbn; lia]). cbn [mrsr2_loop] in E1.
  unfold mrsr2_step in E1. cbn [rank2 non2] in E1. destruct (first_max _ _ _ _) as [j|] eqn:Ej; cbn [rbind] in E1; [|discriminate].
  injection E1 as <-. exists j. split; [reflexivity|]. destruct (first_max_spec _ _ _ _ _ Ej) as [A [B|[B _]]]; [discriminate|].
  apply in_seq in B. split; [lia|]. intros i Hi. destruct (A i ltac:(apply in_seq; lia)) as [Q|[Q _]]; [|discriminate].
  now rewrite !norm_strength in Q by auto.
Qed.
End Real.
