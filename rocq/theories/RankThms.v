(** The rankings of mrsr and mrsr2 list distinct existing columns (C41). *)
From Coq Require Import Reals Lra Permutation.
From Verif Require Import Base Num Mat LinAlg Mrsr MatFacts.
Local Open Scope nat_scope.

Section Any.
Context {K : Num} {SG : Sing} {BR : Brent}.

Lemma del_nth_perm : forall {A} (d : A) i l, i < length l -> Permutation (nth i l d :: del_nth i l) l.
Proof.
  induction i; intros [|x l] H; cbn in *; try lia; [apply Permutation_refl|].
  rewrite perm_swap. apply perm_skip, IHi. lia.
Qed.
Lemma del_nth_length : forall {A} i (l : list A), i < length l -> S (length (del_nth i l)) = length l.
Proof. induction i; intros [|x l] H; cbn in *; try lia. rewrite IHi; lia. Qed.
Lemma argmax_from_lt : forall v b bi i, bi < i -> argmax_from b bi i v < i + length v.
Proof.
  induction v as [|x v IH]; intros b bi i H; cbn; [lia|].
  destruct (nltb b x); [specialize (IH x i (S i) ltac:(lia))|specialize (IH b bi (S i) ltac:(lia))]; lia.
Qed.
Lemma argmax_lt : forall v, v <> [] -> argmax v < length v.
Proof. intros [|x v] H; [congruence|]. unfold argmax. pose proof (argmax_from_lt v x 0 1 ltac:(lia)). cbn [length]. lia. Qed.
Lemma abs_colsum_length : forall c A, length (abs_colsum c A) = c.
Proof. intros. apply mkv_length. Qed.

(** chosen columns first, then the remaining ones *)
Definition split_of (m : nat) (a b : list nat) : Prop := Permutation (a ++ b) (seq 0 m).

Lemma mrsr_first_split : forall X T m p st, mrsr_first X T m p = Ok st -> split_of m (i1 st) (i2 st) /\ length (i1 st) = 1.
Proof.
  intros X T m p st E. unfold mrsr_first in E.
  set (A0 := tdot p m T X) in E. set (ss := abs_colsum m A0) in E.
  assert (length ss = m) as HL by apply abs_colsum_length.
  assert (ss <> [] -> argmax ss < m) as HA by (intros N; rewrite <- HL; now apply argmax_lt).
  clearbody ss A0. destruct ss as [|s0 ss]; [discriminate|]. specialize (HA ltac:(discriminate)).
  set (c := argmax (s0 :: ss)) in *. clearbody c.
  destruct (np_div _ _) as [i| | |]; try discriminate.
  destruct (min_step _) as [g|]; cbn [rbind] in E; [|discriminate]. injection E as <-. cbn [i1 i2].
  split; [|reflexivity]. unfold split_of. cbn [app].
  assert (c < length (seq 0 m)) as Hc by (rewrite seq_length; auto). exact (del_nth_perm 0 c (seq 0 m) Hc).
Qed.

Lemma mrsr_step_split : forall X T m p kmax k st st', mrsr_step X T m p kmax k st = Ok st' ->
  split_of m (i1 st) (i2 st) -> split_of m (i1 st') (i2 st') /\ length (i1 st') = S (length (i1 st)).
Proof.
  intros X T m p kmax k st st' E HS. unfold mrsr_step in E.
  match type of E with context [abs_colsum ?c ?A] => set (ss := abs_colsum c A) in E end.
  assert (length ss = length (i2 st)) as HL by apply abs_colsum_length.
  assert (ss <> [] -> argmax ss < length (i2 st)) as HA by (intros N; rewrite <- HL; now apply argmax_lt).
  clearbody ss. destruct ss as [|s0 ss]; [discriminate|]. specialize (HA ltac:(discriminate)).
  set (c := argmax (s0 :: ss)) in *. clearbody c.
  set (ind := nth c (i2 st) 0) in E. set (rest := del_nth c (i2 st)) in E.
  assert (Permutation ((i1 st ++ [ind]) ++ rest) (seq 0 m)) as HP.
  { unfold split_of in HS. rewrite <- HS, <- app_assoc. apply Permutation_app_head. cbn [app]. now apply del_nth_perm. }
  clearbody ind rest.
  destruct (k =? kmax).
  - injection E as <-. cbn [i1 i2]. split; [exact HP|]. rewrite app_length; cbn; lia.
  - destruct (min_step _) as [g|]; cbn [rbind] in E; [|discriminate]. injection E as <-. cbn [i1 i2]. split; [exact HP|]. rewrite app_length; cbn; lia.
Qed.

Lemma mrsr_loop_split : forall X T m p kmax ks st st', mrsr_loop X T m p kmax ks st = Ok st' ->
  split_of m (i1 st) (i2 st) -> split_of m (i1 st') (i2 st') /\ length (i1 st') = length (i1 st) + length ks.
Proof.
  induction ks as [|k ks IH]; intros st st' E HS; cbn [mrsr_loop] in E.
  - injection E as <-. split; [auto|cbn; lia].
  - destruct (mrsr_step _ _ _ _ _ _ st) as [st1|] eqn:E1; cbn [rbind] in E; [|discriminate].
    destruct (mrsr_step_split _ _ _ _ _ _ _ _ E1 HS) as [H1 H2]. destruct (IH _ _ E H1) as [H3 H4]. split; auto. cbn [length]. lia.
Qed.

Lemma split_facts : forall m a b, split_of m a b -> NoDup a /\ (forall i, In i a -> i < m) /\ length a <= m /\ (length a = m -> Permutation a (seq 0 m)).
Proof.
  intros m a b H. unfold split_of in H.
  assert (NoDup (a ++ b)) as ND by (eapply Permutation_NoDup; [apply Permutation_sym; exact H|apply seq_NoDup]).
  assert (length a + length b = m) as HL by (rewrite <- app_length, (Permutation_length H); apply seq_length).
  split; [|split; [|split; [lia|]]].
  - clear -ND. induction a; cbn in *; [constructor|]. inversion ND; subst. constructor; auto. intros C. apply H1. apply in_or_app; auto.
  - intros i Hi. assert (In i (seq 0 m)) as Hs by (eapply Permutation_in; [exact H|]; apply in_or_app; auto). apply in_seq in Hs. lia.
  - intros E. destruct b; [now rewrite app_nil_r in H|cbn in HL; lia].
Qed.

(** [r] lists [n] distinct columns of the [m] existing ones *)
Definition lists_columns (m n : nat) (r : list nat) : Prop :=
  NoDup r /\ (forall i, In i r -> i < m) /\ length r = n /\ (n = m -> Permutation r (seq 0 m)).

Theorem mrsr_lists : forall X T m p kmax r, mrsr X T m p kmax = Ok r -> lists_columns m (Nat.max 1 (Nat.min kmax m)) r.
Proof.
  intros X T m p kmax r E. unfold mrsr in E.
  destruct (mrsr_first X T m p) as [st|] eqn:E1; cbn [rbind] in E; [|discriminate].
  destruct (mrsr_loop _ _ _ _ _ _ st) as [st'|] eqn:E2; cbn [rbind] in E; [|discriminate]. injection E as <-.
  destruct (mrsr_first_split _ _ _ _ _ E1) as [H1 H2]. destruct (mrsr_loop_split _ _ _ _ _ _ _ _ E2 H1) as [H3 H4].
  rewrite seq_length in H4. destruct (split_facts _ _ _ H3) as (A & B & C & D). split; [auto|]. split; [auto|]. split; [lia|]. intros E. apply D. lia.
Qed.

(** a model with fewer than two neurons cannot be ranked *)
Lemma mrsr_single : forall X T m p kmax, m < 2 -> exists x, mrsr X T m p kmax = Err x.
Proof.
  intros X T m p kmax H. unfold mrsr. enough (exists x, mrsr_first X T m p = Err x) as [x ->] by (eexists; reflexivity).
  unfold mrsr_first. destruct (abs_colsum m _) eqn:Ea; [eexists; reflexivity|].
  destruct (np_div _ _) as [i| | |]; try (eexists; reflexivity).
  enough (forall c A B, g_matrix p (m - 1) c A B = []) as -> by (eexists; reflexivity).
  intros c A B. unfold g_matrix. replace (m - 1) with 0 by lia. cbn [seq map]. induction (signs p); auto.
Qed.

Lemma remove1_perm : forall j l, In j l -> Permutation (j :: remove1 j l) l.
Proof.
  induction l as [|x l IH]; intros H; [destruct H|]. cbn [remove1]. destruct (x =? j) eqn:E.
  - apply Nat.eqb_eq in E as ->. apply Permutation_refl.
  - destruct H as [->|H]; [rewrite Nat.eqb_refl in E; discriminate|]. rewrite perm_swap. apply perm_skip. auto.
Qed.
Lemma first_max_in : forall f js c j0 j, first_max f js c j0 = Some j -> In j js \/ j0 = Some j.
Proof.
  induction js as [|x js IH]; intros c j0 j E; cbn [first_max] in E; [auto|].
  destruct (nltb c (f x)); destruct (IH _ _ _ E) as [H|H]; auto; [left; right; auto|left; left; congruence|left; right; auto].
Qed.
Lemma min_new_in : forall p1 p2 cm js y j0 y' j, min_new p1 p2 cm js y j0 = (y', Some j) -> In j js \/ j0 = Some j.
Proof.
  induction js as [|x js IH]; intros y j0 y' j E; cbn [min_new] in E; [injection E as <- ->; auto|].
  destruct (nltb _ _); [destruct (brentq _ _ _ _)|]; destruct (IH _ _ _ _ E) as [H|H]; auto; try (left; right; assumption). left; left; congruence.
Qed.
Lemma last_in : forall {A} (l : list A) d, l <> [] -> In (last l d) l.
Proof. induction l as [|x [|y l] IH]; intros d H; [congruence|left; auto|]. right. apply IH. discriminate. Qed.

Lemma mrsr2_step_split : forall X T m p st st', mrsr2_step X T m p st = Ok st' -> split_of m (rank2 st) (non2 st) ->
  (rank2 st = [] -> non2 st <> []) ->
  split_of m (rank2 st') (non2 st') /\ length (rank2 st') = Nat.min m (S (length (rank2 st))) /\ rank2 st' <> [].
Proof.
  intros X T m p st st' E HS HN. unfold mrsr2_step in E.
  assert (length (rank2 st) + length (non2 st) = m) as HL by (rewrite <- app_length, (Permutation_length HS); apply seq_length).
  assert (forall r j, In j (non2 st) -> r = rank2 st -> split_of m (r ++ [j]) (remove1 j (non2 st))) as HR.
  { intros r j Hj ->. unfold split_of in *. rewrite <- HS, <- app_assoc. apply Permutation_app_head. now apply remove1_perm. }
  destruct (rank2 st) as [|r0 rs] eqn:Er.
  - destruct (first_max _ _ _ _) as [j|] eqn:Ej; cbn [rbind] in E; [|discriminate]. injection E as <-. cbn [rank2 non2].
    destruct (first_max_in _ _ _ _ _ Ej) as [H|H]; [|discriminate]. specialize (HR [] j H eq_refl). split; [exact HR|]. split; [|discriminate].
    cbn [length] in *. destruct (non2 st); [destruct H|cbn in HL; lia].
  - destruct (non2 st) as [|n0' ns] eqn:En.
    + cbn [rbind] in E. injection E as <-. cbn [rank2 non2]. split; [exact HS|]. split; [cbn [length] in *; lia|discriminate].
    + cbv zeta in E. destruct (min_new _ _ _ _ _ _) as [y jm] eqn:Em. cbn [rbind] in E. injection E as <-. cbn [rank2 non2].
      assert (forall j, In j (n0' :: ns) -> split_of m (r0 :: rs ++ [j]) (remove1 j (n0' :: ns)) /\
        length (r0 :: rs ++ [j]) = Nat.min m (S (length (r0 :: rs))) /\ r0 :: rs ++ [j] <> []) as Q.
      { intros j Hj. split; [apply (HR (r0 :: rs) j Hj eq_refl)|]. split; [|discriminate]. cbn [length] in *. rewrite app_length. cbn [length]. lia. }
      pose proof (last_in (n0' :: ns) 0 ltac:(discriminate)) as HLast.
      apply Q. destruct (neqb y n1); [exact HLast|]. destruct jm as [j|]; [|exact HLast].
      destruct (min_new_in _ _ _ _ _ _ _ _ Em) as [H|H]; [auto|discriminate].
Qed.

Lemma mrsr2_loop_split : forall X T m p k st st', mrsr2_loop X T m p k st = Ok st' -> split_of m (rank2 st) (non2 st) ->
  (rank2 st = [] -> non2 st <> []) -> split_of m (rank2 st') (non2 st') /\ length (rank2 st') = Nat.min m (k + length (rank2 st)).
Proof.
  induction k as [|k IH]; intros st st' E HS HN; cbn [mrsr2_loop] in E.
  - injection E as <-. split; auto. pose proof (split_facts _ _ _ HS). lia.
  - destruct (mrsr2_step X T m p st) as [st1|] eqn:E1; cbn [rbind] in E; [|discriminate].
    destruct (mrsr2_step_split _ _ _ _ _ _ E1 HS HN) as (H1 & H2 & H3). destruct (IH _ _ E H1 ltac:(intros C; congruence)) as [H4 H5].
    split; auto. lia.
Qed.

Theorem mrsr2_lists : forall X T m p kmax r, mrsr2 X T m p kmax = Ok r ->
  lists_columns m (Nat.min m (Nat.min kmax (length X))) r.
Proof.
  intros X T m p kmax r E. unfold mrsr2 in E.
  destruct (mrsr2_loop _ _ _ _ _ _) as [st|] eqn:E1; cbn [rbind] in E; [|discriminate]. injection E as <-.
  assert (0 < m \/ Nat.min kmax (length X) = 0 \/ False) as [Hm|[Hk|[]]].
  { destruct m; [|left; lia]. destruct (Nat.min kmax (length X)); [auto|]. discriminate. }
  - destruct (mrsr2_loop_split _ _ _ _ _ _ _ E1) as [H1 H2]; cbn [rank2 non2].
    + apply Permutation_refl.
    + intros _. destruct m; [lia|discriminate].
    + destruct (split_facts _ _ _ H1) as (A & B & C & D). cbn [rank2 length] in H2. rewrite Nat.add_0_r in H2. split; [auto|]. split; [auto|]. split; [auto|].
      intros Q. apply D. lia.
  - rewrite Hk in E1. cbn [mrsr2_loop] in E1. injection E1 as <-. cbn [rank2]. rewrite Hk, Nat.min_0_r.
    split; [constructor|]. split; [intros i []|]. split; [reflexivity|]. intros <-. apply Permutation_refl.
Qed.
End Any.

Section Real.
#[local] Existing Instance NumR.
Context {SG : @Sing NumR} {BR : @Brent NumR}.
Local Open Scope R_scope.

Lemma norm2_nonneg : forall v, 0 <= @norm2 NumR v.
Proof. intros. unfold norm2. cbn [nsqrt NumR]. apply sqrt_pos. Qed.

(** mrsr2 always returns a ranking of an existing set of columns *)
Theorem mrsr2_total : forall X T m p kmax, (0 < m)%nat -> exists r, mrsr2 X T m p kmax = Ok r.
Proof.
  intros X T m p kmax Hm. unfold mrsr2.
  match goal with |- context [mrsr2_loop _ _ _ _ ?k ?s] => generalize k; set (st := s) end. intros k.
  assert (split_of m (rank2 st) (non2 st)) as HS by apply Permutation_refl.
  assert (rank2 st = [] -> non2 st <> []) as HN by (intros _; destruct m; [lia|discriminate]). clearbody st.
  enough (exists st', mrsr2_loop X T m p k st = Ok st') as [st' ->] by (eexists; reflexivity).
  revert st HS HN. induction k as [|k IH]; intros st HS HN; [eexists; reflexivity|]. cbn [mrsr2_loop].
  assert (exists st1, mrsr2_step X T m p st = Ok st1) as [st1 E1].
  { unfold mrsr2_step. destruct (rank2 st) as [|r rs].
    - specialize (HN eq_refl). destruct (non2 st) as [|j js]; [congruence|]. cbn [first_max].
      assert (@nltb NumR (@nopp NumR (@n1 NumR)) (norm2 (tvec p T (mcol X j))) = true) as ->.
      { pose proof (norm2_nonneg (tvec p T (mcol X j))). cbn [nltb nopp n1 NumR]. unfold Rltb. destruct (Rlt_dec _ _) as [|n]; auto. exfalso. apply n. lra. }
      assert (forall f js c j0, exists j1, @first_max NumR f js c (Some j0) = Some j1) as F.
      { intros f js'. induction js' as [|x js' IH']; intros c j0; cbn [first_max]; [eauto|]. destruct (nltb _ _); auto. }
      match goal with |- context [first_max ?f ?l ?c (Some ?q)] => destruct (F f l c q) as [j1 ->] end. cbn [rbind]. eexists; reflexivity.
    - destruct (non2 st); [cbn [rbind]; eexists; reflexivity|]. cbv zeta. destruct (min_new _ _ _ _ _ _). cbn [rbind]. eexists; reflexivity. }
  rewrite E1. cbn [rbind]. destruct (mrsr2_step_split _ _ _ _ _ _ E1 HS HN) as (H1 & _ & H3). apply IH; auto; intros; congruence.
Qed.
End Real.
