(** The parts used by k-fold cross-validation (C36). *)
From Coq Require Import Permutation.
From Verif Require Import Base Num Mat LinAlg Slfn Strs Elm Mrsr Search Mss.

Definition train_part (s : list nat * list nat * list nat) : list nat := fst (fst s).
Definition val_part (s : list nat * list nat * list nat) : list nat := snd (fst s).
Definition test_part (s : list nat * list nat * list nat) : list nat := snd s.

(** k repetitions; [part]: the k parts of the samples 0 .. N-1 *)
Definition k_fold (N k : nat) (split : nat -> list nat * list nat * list nat) : Prop :=
  exists part : nat -> list nat,
    Permutation (concat (map part (seq 0 k))) (seq 0 N) /\
    (forall i, i < k -> length (part i) = N / k \/ length (part i) = S (N / k)) /\
    Permutation (map (fun i => val_part (split i)) (seq 0 k)) (map part (seq 0 k)) /\
    Permutation (map (fun i => test_part (split i)) (seq 0 k)) (map part (seq 0 k)) /\
    forall i, i < k -> Permutation (train_part (split i) ++ val_part (split i) ++ test_part (split i)) (seq 0 N).

Lemma filter_split : forall (f : nat -> nat) k l,
  Permutation (filter (fun n => f n <? k) l ++ filter (fun n => f n =? k) l) (filter (fun n => f n <? S k) l).
Proof.
  induction l as [|a l IH]; [constructor|]. cbn [filter].
  destruct (Nat.ltb_spec (f a) k), (Nat.eqb_spec (f a) k), (Nat.ltb_spec (f a) (S k)); try lia; cbn [app].
  - now apply perm_skip.
  - rewrite <- Permutation_middle. now apply perm_skip.
  - exact IH.
Qed.
Lemma filters_all : forall (f : nat -> nat) l k,
  Permutation (concat (map (fun i => filter (fun n => f n =? i) l) (seq 0 k))) (filter (fun n => f n <? k) l).
Proof.
  intros f l. induction k as [|k IH].
  - cbn. induction l; [constructor|exact IHl].
  - rewrite seq_S, map_app, concat_app. cbn [map concat Nat.add]. rewrite app_nil_r, IH. apply filter_split.
Qed.
Lemma filter_true : forall {A} (P : A -> bool) l, (forall a, In a l -> P a = true) -> filter P l = l.
Proof. induction l as [|a l IH]; intros H; cbn; [reflexivity|]. rewrite H by (left; auto). f_equal. apply IH. intros; apply H; right; auto. Qed.

Lemma parts_all : forall N k, 0 < k -> Permutation (concat (map (fold_idx N k) (seq 0 k))) (seq 0 N).
Proof.
  intros N k Hk. unfold fold_idx. rewrite (filters_all (fun n => n mod k)). rewrite filter_true; auto.
  intros a _. apply Nat.ltb_lt, Nat.mod_upper_bound. lia.
Qed.

Lemma rotation : forall i k, i < k -> Permutation (map (fun j => (i + j) mod k) (seq 0 k)) (seq 0 k).
Proof.
  intros i k Hi.
  assert (map (fun j => (i + j) mod k) (seq 0 k) = seq i (k - i) ++ seq 0 i) as ->.
  { transitivity (map (fun j => (i + j) mod k) (seq 0 ((k - i) + i))); [f_equal; f_equal; lia|]. rewrite seq_app, map_app. f_equal.
    - transitivity (map (fun j => i + j) (seq 0 (k - i))).
      + apply map_ext_in. intros j Hj. apply in_seq in Hj. apply Nat.mod_small. lia.
      + assert (forall m s, map (fun j => i + j) (seq s m) = seq (i + s) m) as G.
        { induction m as [|m IH]; intros s; [reflexivity|]. cbn [seq map]. f_equal. rewrite IH. f_equal. lia. }
        rewrite G. f_equal. lia.
    - transitivity (map (fun j => j - (k - i)) (seq (0 + (k - i)) i)).
      + apply map_ext_in. intros j Hj. apply in_seq in Hj. replace (i + j) with ((j - (k - i)) + 1 * k) by lia.
        rewrite Nat.mod_add by lia. apply Nat.mod_small. lia.
      + assert (forall d m s, map (fun j => j - d) (seq (s + d) m) = seq s m) as G; [|apply G].
        intros d. induction m as [|m IH]; intros s; [reflexivity|]. cbn [seq map]. f_equal; [lia|]. apply (IH (S s)). }
  transitivity (seq 0 i ++ seq i (k - i)); [apply Permutation_app_comm|].
  transitivity (seq 0 (i + (k - i))); [rewrite seq_app; reflexivity|]. replace (i + (k - i)) with k by lia. reflexivity.
Qed.

Lemma last_two : forall {A} (d : A) (l : list A) k, length l = k -> 2 <= k -> l = firstn (k - 2) l ++ [nth (k - 2) l d; nth (k - 1) l d].
Proof.
  intros A d l k Hl Hk. rewrite <- (firstn_skipn (k - 2) l) at 1. f_equal.
  assert (length (skipn (k - 2) l) = 2) as HS by (rewrite skipn_length; lia).
  assert (forall n m, nth n (skipn m l) d = nth (m + n) l d) as HN.
  { clear. intros n m. revert l. induction m; intros l; [reflexivity|]. destruct l; [destruct n; reflexivity|]. apply IHm. }
  destruct (skipn (k - 2) l) as [|a [|b [|]]] eqn:E; try discriminate.
  pose proof (HN 0 (k - 2)) as H0. pose proof (HN 1 (k - 2)) as H1. rewrite E in H0, H1. cbn in H0, H1.
  replace (k - 2 + 0) with (k - 2) in H0 by lia. replace (k - 2 + 1) with (k - 1) in H1 by lia. now rewrite H0, H1.
Qed.

Lemma fold_idx_len : forall N k i, 0 < k -> i < k -> length (fold_idx N k i) = N / k + (if i <? N mod k then 1 else 0).
Proof.
  intros N k i Hk Hi. induction N as [|N IH].
  - cbn. rewrite Nat.div_0_l, Nat.mod_0_l by lia. destruct (Nat.ltb_spec i 0); lia.
  - unfold fold_idx in *. rewrite seq_S, filter_app, app_length, IH. cbn [filter Nat.add].
    pose proof (Nat.div_mod N k ltac:(lia)). pose proof (Nat.mod_upper_bound N k ltac:(lia)).
    destruct (Nat.eq_dec (N mod k) (k - 1)) as [E|E].
    + assert (S N / k = S (N / k) /\ S N mod k = 0) as [-> ->].
      { split; [symmetry; apply (Nat.div_unique (S N) k (S (N / k)) 0); lia|symmetry; apply (Nat.mod_unique (S N) k (S (N / k)) 0); lia]. }
      destruct (Nat.eqb_spec (N mod k) i), (Nat.ltb_spec i (N mod k)), (Nat.ltb_spec i 0); cbn [length]; lia.
    + assert (S N / k = N / k /\ S N mod k = S (N mod k)) as [-> ->].
      { split; [symmetry; apply (Nat.div_unique (S N) k (N / k) (S (N mod k))); lia|symmetry; apply (Nat.mod_unique (S N) k (N / k) (S (N mod k))); lia]. }
      destruct (Nat.eqb_spec (N mod k) i), (Nat.ltb_spec i (N mod k)), (Nat.ltb_spec i (S (N mod k))); cbn [length]; lia.
Qed.

Theorem fold_parts_k_fold : forall N k, 2 <= k -> k_fold N k (fold_parts N k).
Proof.
  intros N k Hk. exists (fold_idx N k).
  assert (forall i m, m < k -> nth m (map (fun j => (i + j) mod k) (seq 0 k)) 0 = (i + m) mod k) as HN.
  { intros i m Hm. rewrite (nth_indep _ _ ((i + 0) mod k)) by (rewrite map_length, seq_length; lia).
    rewrite (map_nth (fun j => (i + j) mod k)). rewrite seq_nth by lia. reflexivity. }
  split; [apply parts_all; lia|]. split; [intros i Hi; rewrite fold_idx_len by lia; destruct (i <? N mod k); lia|].
  split; [|split].
  - rewrite <- (Permutation_map (fold_idx N k) (rotation (k - 2) k ltac:(lia))). rewrite map_map.
    erewrite map_ext; [reflexivity|]. intros i. unfold val_part, fold_parts. cbn [fst snd]. rewrite HN by lia. f_equal. f_equal. lia.
  - rewrite <- (Permutation_map (fold_idx N k) (rotation (k - 1) k ltac:(lia))). rewrite map_map.
    erewrite map_ext; [reflexivity|]. intros i. unfold test_part, fold_parts. cbn [fst snd]. rewrite HN by lia. f_equal. f_equal. lia.
  - intros i Hi. rewrite <- (parts_all N k) by lia.
    assert (forall l m, Permutation l m -> Permutation (concat (map (fold_idx N k) l)) (concat (map (fold_idx N k) m))) as PC.
    { induction 1; cbn; auto.
      - now apply Permutation_app_head.
      - rewrite !app_assoc. apply Permutation_app_tail, Permutation_app_comm.
      - etransitivity; eauto. }
    rewrite <- (PC _ _ (rotation i k Hi)). unfold train_part, val_part, test_part, fold_parts. cbn [fst snd].
    set (items := map (fun j => (i + j) mod k) (seq 0 k)).
    rewrite (last_two 0 items k) at 4 by (unfold items; rewrite ?map_length, ?seq_length; lia).
    rewrite map_app, concat_app. cbn [map concat]. rewrite app_nil_r. reflexivity.
Qed.
Lemma fold_parts_in : forall N k i n, 2 <= k -> i < k ->
  In n (train_part (fold_parts N k i)) \/ In n (val_part (fold_parts N k i)) \/ In n (test_part (fold_parts N k i)) -> n < N.
Proof.
  intros N k i n Hk Hi H. destruct (fold_parts_k_fold N k Hk) as (part & _ & _ & _ & _ & HP). specialize (HP i Hi).
  assert (In n (seq 0 N)) as HI; [|apply in_seq in HI; lia].
  eapply Permutation_in; [exact HP|]. rewrite !in_app_iff. tauto.
Qed.
