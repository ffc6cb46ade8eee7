(** Splitting rows into batches: np.array_split and batch ranges. *)
From Verif Require Import Base Num Mat LinAlg Slfn Elm Hpelm MatFacts.

Lemma list_sum_repeat : forall a n, list_sum (repeat a n) = n * a.
Proof. induction n; simpl; auto. Qed.

Lemma split_sizes_sum : forall n k, 0 < k -> list_sum (split_sizes n k) = n.
Proof.
  intros. unfold split_sizes. rewrite list_sum_app, !list_sum_repeat.
  pose proof (Nat.div_mod n k ltac:(lia)). pose proof (Nat.mod_upper_bound n k ltac:(lia)).
  set (q := n / k) in *. set (r := n mod k) in *. nia.
Qed.
Lemma split_sizes_length : forall n k, 0 < k -> length (split_sizes n k) = k.
Proof.
  intros. unfold split_sizes. rewrite app_length, !repeat_length.
  pose proof (Nat.mod_upper_bound n k ltac:(lia)). lia.
Qed.

Lemma cut_concat : forall {A} sizes (l : list A), list_sum sizes = length l -> concat (cut sizes l) = l.
Proof.
  induction sizes as [|s r IH]; intros l H.
  - simpl in *. destruct l; auto; discriminate.
  - cbn [cut concat]. rewrite IH.
    + apply firstn_skipn.
    + rewrite skipn_length. change (list_sum (s :: r)) with (s + list_sum r) in H. lia.
Qed.
Lemma cut_length : forall {A} sizes (l : list A), length (cut sizes l) = length sizes.
Proof. induction sizes; intros; simpl; auto. Qed.
Lemma cut_sizes : forall {A} sizes (l : list A), list_sum sizes = length l ->
  map (@length A) (cut sizes l) = sizes.
Proof.
  induction sizes as [|s r IH]; intros l H; auto.
  change (list_sum (s :: r)) with (s + list_sum r) in H.
  cbn [cut map]. rewrite firstn_length, IH.
  - f_equal; lia.
  - rewrite skipn_length. lia.
Qed.

(** exact ceiling *)
Lemma ceil_div_spec : forall n b, (0 < b)%Z ->
  ((ceil_div n b - 1) * b < n <= ceil_div n b * b)%Z.
Proof.
  intros. unfold ceil_div.
  pose proof (Z.div_mod (- n) b ltac:(lia)). pose proof (Z.mod_pos_bound (- n) b ltac:(lia)).
  set (q := (- n / b)%Z) in *. nia.
Qed.
Lemma ceil_div_unique : forall n b q, (0 < b)%Z -> ((q - 1) * b < n <= q * b)%Z -> q = ceil_div n b.
Proof. intros. pose proof (ceil_div_spec n b H). nia. Qed.
Lemma ceil_div_pos : forall n b, (0 < b)%Z -> (0 < n)%Z -> (0 < ceil_div n b)%Z.
Proof. intros. pose proof (ceil_div_spec n b H). nia. Qed.

Lemma nbatches_pos : forall n b, (0 < b)%Z -> nbatches n b = Ok (ceil_div n b).
Proof.
  intros. unfold nbatches. destruct (Z.eqb_spec b 0); [lia|].
  rewrite Z.sgn_pos, Z.mul_1_r, Z.abs_eq by lia. reflexivity.
Qed.

(** pieces of array_split when their number is the ceiling of n / batch *)
Lemma split_sizes_le : forall n k b, 0 < k -> n <= k * b -> forall s, In s (split_sizes n k) -> s <= b.
Proof.
  intros n k b Hk Hn s Hs. unfold split_sizes in Hs.
  pose proof (Nat.div_mod n k ltac:(lia)). pose proof (Nat.mod_upper_bound n k ltac:(lia)).
  set (q := n / k) in *. set (r := n mod k) in *. clearbody q r.
  apply in_app_or in Hs. destruct Hs as [Hs|Hs].
  - assert (0 < r) by (destruct r; [destruct Hs|lia]). apply repeat_spec in Hs. subst. nia.
  - apply repeat_spec in Hs. subst. nia.
Qed.
Lemma split_sizes_ge1 : forall n k, 0 < k -> k <= n -> forall s, In s (split_sizes n k) -> 1 <= s.
Proof.
  intros n k Hk Hn s Hs. unfold split_sizes in Hs.
  assert (1 <= n / k) by (apply Nat.div_le_lower_bound; lia).
  apply in_app_or in Hs. destruct Hs as [Hs|Hs]; apply repeat_spec in Hs; lia.
Qed.

Lemma combine_fst : forall {A B} (l : list A) (m : list B), length l = length m -> map fst (combine l m) = l.
Proof. intros A B l; induction l; intros [|b m] H; simpl in *; auto; try discriminate. f_equal; auto. Qed.
Lemma combine_snd : forall {A B} (l : list A) (m : list B), length l = length m -> map snd (combine l m) = m.
Proof. intros A B l; induction l; intros [|b m] H; simpl in *; auto; try discriminate. f_equal; auto. Qed.

(** ** slices *)
Lemma py_bound_in : forall n i, (0 <= i <= Z.of_nat n)%Z -> py_bound n i = Z.to_nat i.
Proof. intros; unfold py_bound. destruct (Z.ltb_spec i 0); [lia|]. lia. Qed.

Lemma slice_in : forall {A} (l : list A) a b, (0 <= a <= b)%Z -> (b <= Z.of_nat (length l))%Z ->
  slice l a b = firstn (Z.to_nat (b - a)) (skipn (Z.to_nat a) l).
Proof. intros; unfold slice. rewrite !py_bound_in by lia. f_equal. lia. Qed.

Lemma slice_length_in : forall {A} (l : list A) a b, (0 <= a <= b)%Z -> (b <= Z.of_nat (length l))%Z ->
  length (slice l a b) = Z.to_nat (b - a).
Proof. intros. rewrite slice_in by lia. rewrite firstn_length, skipn_length. lia. Qed.

Lemma firstn_skipn_app : forall {A} n m k (l : list A),
  firstn n (skipn k l) ++ firstn m (skipn (k + n) l) = firstn (n + m) (skipn k l).
Proof.
  intros. replace (skipn (k + n) l) with (skipn n (skipn k l)).
  - generalize (skipn k l). intros l'. revert l'. induction n; intros [|x l']; simpl; auto.
    + now rewrite firstn_nil.
    + f_equal; auto.
  - clear. revert l. induction k; intros [|x l]; simpl; auto. now rewrite skipn_nil.
Qed.

Lemma slice_app : forall {A} (l : list A) a b c, (0 <= a <= b)%Z -> (b <= c)%Z -> (c <= Z.of_nat (length l))%Z ->
  slice l a b ++ slice l b c = slice l a c.
Proof.
  intros. rewrite !slice_in by lia.
  replace (Z.to_nat b) with (Z.to_nat a + Z.to_nat (b - a)) by lia.
  rewrite firstn_skipn_app. f_equal. lia.
Qed.
Lemma slice_empty : forall {A} (l : list A) a, slice l a a = [].
Proof. intros; unfold slice. now rewrite Nat.sub_diag. Qed.
Lemma slice_all : forall {A} (l : list A), slice l 0 (Z.of_nat (length l)) = l.
Proof. intros. rewrite slice_in by lia. simpl. rewrite Z.sub_0_r, Nat2Z.id. apply firstn_all. Qed.
Lemma slice_map : forall {A B} (f : A -> B) l a b, slice (map f l) a b = map f (slice l a b).
Proof. intros; unfold slice. rewrite map_length, skipn_map, firstn_map. reflexivity. Qed.
Lemma slice_skip : forall {A} (l m : list A) a b, (0 <= a <= b)%Z ->
  slice (l ++ m) (Z.of_nat (length l) + a) (Z.of_nat (length l) + b) = slice m a b.
Proof.
  intros. unfold slice, py_bound. rewrite app_length.
  destruct (Z.ltb_spec (Z.of_nat (length l) + a) 0); [lia|].
  destruct (Z.ltb_spec (Z.of_nat (length l) + b) 0); [lia|].
  destruct (Z.ltb_spec a 0); [lia|]. destruct (Z.ltb_spec b 0); [lia|].
  rewrite skipn_app. replace (Nat.min (Z.to_nat (Z.of_nat (length l) + a)) (length l + length m))
    with (length l + Nat.min (Z.to_nat a) (length m)) by lia.
  rewrite skipn_all2 by lia. cbn [app].
  f_equal; [lia|]. f_equal. lia.
Qed.
Lemma slice_prefix : forall {A} (l m : list A) a b, (0 <= a <= b)%Z -> (b <= Z.of_nat (length l))%Z ->
  slice (l ++ m) a b = slice l a b.
Proof.
  intros. rewrite !slice_in by (rewrite ?app_length; lia).
  rewrite skipn_app, firstn_app, skipn_length.
  replace (Z.to_nat (b - a) - (length l - Z.to_nat a)) with 0 by lia. simpl. now rewrite app_nil_r.
Qed.
Lemma Forall_slice : forall {A} (P : A -> Prop) l a b, Forall P l -> Forall P (slice l a b).
Proof. intros; unfold slice. apply Forall_firstn, Forall_skipn; auto. Qed.

(** ** consecutive ranges *)
(** [rs] cuts [a, b) into consecutive ranges of 1..batch rows *)
Fixpoint tiles (batch a b : Z) (rs : list (Z * Z)) : Prop :=
  match rs with
  | [] => a = b
  | (x, y) :: r => x = a /\ (a < y <= b)%Z /\ (y - a <= batch)%Z /\ tiles batch y b r
  end.

Lemma tiles_le : forall batch rs a b, tiles batch a b rs -> (a <= b)%Z.
Proof. induction rs as [|[x y] r IH]; intros a b H; simpl in *; [lia|]. lia. Qed.

Lemma ranges_tiles_aux : forall batch istart cnt, (0 < batch)%Z ->
  forall k b0, (0 <= b0)%Z -> (k <> O /\ ((b0 + Z.of_nat k - 1) * batch < cnt <= (b0 + Z.of_nat k) * batch)%Z) \/ (k = O /\ cnt = b0 * batch)%Z ->
  tiles batch (b0 * batch + istart) (cnt + istart)
    (map (bounds batch istart cnt) (map (fun i => b0 + Z.of_nat i)%Z (seq 0 k))).
Proof.
  intros batch istart cnt Hb. induction k as [|k IH]; intros b0 H0 H.
  - cbn. destruct H; lia.
  - destruct H as [[_ H]|[H _]]; [|discriminate]. cbn [seq map].
    unfold bounds at 1. rewrite Z.add_0_r. cbn [tiles].
    split; [reflexivity|]. rewrite <- seq_shift, (map_map S).
    destruct k as [|k].
    + cbn [seq map]. cbn [tiles]. nia.
    + assert (Z.min ((b0 + 1) * batch + istart) (cnt + istart) = (b0 + 1) * batch + istart)%Z as -> by nia.
      split; [nia|]. split; [nia|].
      rewrite (map_ext (fun i => b0 + Z.of_nat (S i))%Z (fun i => (b0 + 1) + Z.of_nat i)%Z) by (intros; lia).
      apply IH; [lia|]. left. split; [auto|]. replace (b0 + 1 + Z.of_nat (S k))%Z with (b0 + Z.of_nat (S (S k)))%Z by lia. auto.
Qed.

Lemma ranges_tiles : forall batch istart cnt, (0 < batch)%Z -> (0 <= cnt)%Z ->
  tiles batch istart (istart + cnt) (ranges batch istart cnt (ceil_div cnt batch)).
Proof.
  intros. unfold ranges, zrange. pose proof (ceil_div_spec cnt batch H).
  assert (0 <= ceil_div cnt batch)%Z by nia.
  replace istart with (0 * batch + istart)%Z at 1 by lia.
  replace (istart + cnt)%Z with (cnt + istart)%Z by lia.
  rewrite (map_ext Z.of_nat (fun i => 0 + Z.of_nat i)%Z) by reflexivity.
  apply ranges_tiles_aux; auto; try lia.
Qed.

Lemma tiles_concat : forall {A} (l : list A) batch rs a b, (0 <= a)%Z -> (b <= Z.of_nat (length l))%Z ->
  tiles batch a b rs -> concat (map (fun ab => slice l (fst ab) (snd ab)) rs) = slice l a b.
Proof.
  intros A l batch. induction rs as [|[x y] r IH]; intros a b Ha Hb H.
  - simpl in H. subst. now rewrite slice_empty.
  - cbn [tiles] in H. destruct H as (-> & H1 & H2 & H3). cbn [map concat fst snd].
    rewrite (IH y b) by (auto; lia). apply slice_app; lia.
Qed.

Lemma tiles_bounds : forall batch rs a b, tiles batch a b rs ->
  Forall (fun ab => a <= fst ab /\ fst ab < snd ab /\ snd ab <= b /\ snd ab - fst ab <= batch)%Z rs.
Proof.
  intros batch. induction rs as [|[x y] r IH]; intros a b H; constructor.
  - cbn in *. destruct H as (-> & H1 & H2 & H3). lia.
  - cbn in H. destruct H as (-> & H1 & H2 & H3). apply IH in H3.
    eapply Forall_impl; [|exact H3]. cbn. intros [u v]; cbn; lia.
Qed.

(** A range of [cnt <= 0] has no batches. *)
Lemma ceil_div_nonpos : forall n b, (0 < b)%Z -> (n <= 0)%Z -> (ceil_div n b <= 0)%Z.
Proof. intros. pose proof (ceil_div_spec n b H). nia. Qed.
Lemma zrange_nonpos : forall n, (n <= 0)%Z -> zrange n = [].
Proof. intros; unfold zrange. replace (Z.to_nat n) with 0 by lia. reflexivity. Qed.
Lemma ranges_nonpos : forall batch istart cnt, (0 < batch)%Z -> (cnt <= 0)%Z ->
  ranges batch istart cnt (ceil_div cnt batch) = [].
Proof. intros; unfold ranges. rewrite zrange_nonpos; auto. now apply ceil_div_nonpos. Qed.
