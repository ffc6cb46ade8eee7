(** rbf_param (C52) and the GPU sigmoid kernel (C49). *)
From Coq Require Import Reals Lra Permutation.
From Verif Require Import Base Num Mat Slfn MatFacts SplitProofs Spec TrainThms RLin Rbf.

(** what np.random.choice(N, size=n) can return *)
Definition a_choice (N n : nat) (ix : list nat) : Prop := length ix = n /\ Forall (fun i => i < N)%nat ix.

Section Any.
Context {K : Num}.

(** ** the measured pairs *)
Lemma pairs_valid : forall N k ix, a_choice N (rbf_Nk N k) ix ->
  length (pairs ix) = rbf_Nk N k /\ forall i j, In (i, j) (pairs ix) -> i <> j /\ (i < N)%nat /\ (j < N)%nat.
Proof.
  intros N k ix [HL HF]. unfold pairs. split; [rewrite map_length, combine_length, seq_length; lia|].
  intros i j Hin. apply in_map_iff in Hin as ([a b] & E & Hin). cbn [fst snd] in E. injection E as <- <-.
  pose proof (in_combine_l _ _ _ _ Hin) as Ha. pose proof (in_combine_r _ _ _ _ Hin) as Hb. apply in_seq in Ha. rewrite Forall_forall in HF. apply HF in Hb.
  unfold rbf_Nk in *. destruct (Nat.eqb_spec a b); lia.
Qed.
Lemma mapM_nth : forall (X : mat) {A B} (f : A -> res B) (g : A -> B) l, (forall a, In a l -> f a = Ok (g a)) -> mapM f l = Ok (map g l).
Proof. intros X A B f g l H. now apply mapM_ok_map. Qed.

Definition pair_dist (kd : rkind) (X : mat) (ij : nat * nat) : num := rdist kd (nth (fst ij) X []) (nth (snd ij) X []).
Lemma measure_ok : forall kd X ij, (fst ij < length X)%nat -> (snd ij < length X)%nat -> measure kd X ij = Ok (pair_dist kd X ij).
Proof.
  intros kd X [i j] Hi Hj. cbn [fst snd] in *. unfold measure, pair_dist. cbn [fst snd].
  rewrite (nth_error_nth' X [] Hi), (nth_error_nth' X [] Hj). reflexivity.
Qed.

(** ** the loop *)
Definition loop_ok (k : nat) (B : vec) : Prop := length B = k /\ Forall (fun b => nltb n0 b = true) B.
Lemma widths_sound : forall fuel ms u i k B R, Forall (fun b => nltb n0 b = true) B -> widths fuel ms u i k B = Some R -> loop_ok k R.
Proof.
  induction fuel as [|fuel IH]; intros ms u i k B R HB E; cbn [widths] in E; [discriminate|]. destruct ms as [q|]; [|now apply IH in E].
  destruct (nltb n0 (width q (u i))) eqn:Ew; [|now apply IH in E].
  assert (Forall (fun b => nltb n0 b = true) (B ++ [width q (u i)])) as HB' by (apply Forall_app; auto).
  destruct (Nat.eqb_spec (length (B ++ [width q (u i)])) k) as [Ek|]; [|now apply IH in E]. injection E as <-. now split.
Qed.
Lemma widths_nan : forall fuel u i k B, widths fuel None u i k B = None.
Proof. induction fuel as [|fuel IH]; intros; [reflexivity|]. cbn [widths]. apply IH. Qed.
Lemma widths_never : forall fuel q u i k B, (forall n, nltb n0 (width q (u n)) = false) -> widths fuel (Some q) u i k B = None.
Proof. induction fuel as [|fuel IH]; intros q u i k B H; [reflexivity|]. cbn [widths]. rewrite H. now apply IH. Qed.
Lemma widths_none_or : forall fuel ms u i k B R, widths fuel ms u i k B = Some R -> widths (S fuel) ms u i k B = Some R.
Proof.
  induction fuel as [|fuel IH]; intros ms u i k B R E; [discriminate|]. cbn [widths] in E.
  change (widths (S (S fuel)) ms u i k B) with
    (match ms with None => widths (S fuel) ms u (S i) k B | Some q => let b0 := width q (u i) in
       if nltb n0 b0 then let B' := B ++ [b0] in if (length B' =? k)%nat then Some B' else widths (S fuel) ms u (S i) k B'
       else widths (S fuel) ms u (S i) k B end).
  destruct ms as [q|]; [|now apply IH]. cbn zeta in *. destruct (nltb n0 _); [|now apply IH]. destruct (_ =? _)%nat; [exact E|now apply IH].
Qed.
Lemma widths_mono : forall m fuel ms u i k B R, widths fuel ms u i k B = Some R -> widths (m + fuel) ms u i k B = Some R.
Proof. induction m as [|m IH]; intros fuel ms u i k B R E; [exact E|]. cbn [Nat.add]. apply widths_none_or. now apply IH. Qed.

(** as long as the values that give a positive width never stop coming *)
Definition infinitely_often (P : nat -> Prop) : Prop := forall n, exists m, (n <= m)%nat /\ P m.
Lemma widths_next : forall q u, infinitely_often (fun n => nltb n0 (width q (u n)) = true) ->
  forall i, exists m, (i <= m)%nat /\ nltb n0 (width q (u m)) = true /\ forall j, (i <= j < m)%nat -> nltb n0 (width q (u j)) = false.
Proof.
  intros q u H i. destruct (H i) as (m & Him & Hm). remember (m - i)%nat as d eqn:Ed. revert m Him Hm Ed.
  induction d as [d IH] using lt_wf_ind. intros m Him Hm Ed.
  assert ((forall j, (i <= j < m)%nat -> nltb n0 (width q (u j)) = false) \/ exists j, (i <= j < m)%nat /\ nltb n0 (width q (u j)) = true) as [G|(j & Hj & G)].
  { clear -K. induction m as [|m IH]; [left; intros; lia|]. destruct IH as [IH|(j & Hj & IH)].
    - destruct (nltb n0 (width q (u m))) eqn:E; [|left; intros j Hj; destruct (Nat.eq_dec j m) as [->|]; [exact E|apply IH; lia]].
      destruct (Nat.le_gt_cases i m); [right; exists m; split; [lia|exact E]|left; intros; lia].
    - right. exists j. split; [lia|exact IH]. }
  - exists m. auto.
  - apply (IH (j - i)%nat) with (m := j); auto; lia.
Qed.
Lemma widths_skip : forall q u k B d i, (forall j, (i <= j < i + d)%nat -> nltb n0 (width q (u j)) = false) ->
  forall fuel, widths (d + fuel) (Some q) u i k B = widths fuel (Some q) u (i + d) k B.
Proof.
  intros q u k B. induction d as [|d IH]; intros i H fuel; [now rewrite Nat.add_0_r|]. cbn [Nat.add widths]. rewrite (H i) by lia.
  rewrite (IH (S i)) by (intros; apply H; lia). f_equal. lia.
Qed.
Lemma widths_total : forall q u, infinitely_often (fun n => nltb n0 (width q (u n)) = true) ->
  forall n k i B, (0 < n)%nat -> (length B + n = k)%nat -> exists fuel R, widths fuel (Some q) u i k B = Some R.
Proof.
  intros q u H. induction n as [|n IH]; intros k i B Hn HL; [lia|].
  destruct (widths_next q u H i) as (m & Him & Hm & Hb). remember (m - i)%nat as d eqn:Ed. replace m with (i + d)%nat in * by lia.
  destruct n as [|n].
  - exists (d + 1)%nat. eexists. rewrite widths_skip by (intros; apply Hb; lia). cbn [widths]. rewrite Hm.
    destruct (Nat.eqb_spec (length (B ++ [width q (u (i + d)%nat)])) k) as [|C]; [reflexivity|]. exfalso. apply C. rewrite app_length. cbn. lia.
  - destruct (IH k (S (i + d)) (B ++ [width q (u (i + d)%nat)]) ltac:(lia)) as (fuel & R & E); [rewrite app_length; cbn; lia|].
    exists (d + S fuel)%nat, R. rewrite widths_skip by (intros; apply Hb; lia). cbn [widths]. rewrite Hm.
    destruct (Nat.eqb_spec (length (B ++ [width q (u (i + d)%nat)])) k) as [C|]; [|exact E]. rewrite app_length in C. cbn in C. lia.
Qed.

(** ** partial correctness: whatever the random numbers are *)
Lemma centres_ok : forall (X : mat) ix, Forall (fun i => i < length X)%nat ix ->
  mapM (fun i => match nth_error X i with Some x => Ok x | None => Err IndexError end) ix = Ok (map (fun i => nth i X []) ix).
Proof.
  intros X ix H. apply mapM_ok_map. intros i Hi. rewrite Forall_forall in H. now rewrite (nth_error_nth' X [] (H i Hi)).
Qed.
Lemma rbf_steps : forall fuel d X k kind ix1 ix2 u, X <> [] -> a_choice (length X) (rbf_Nk (length X) k) ix1 -> a_choice (length X) k ix2 ->
  rbf_param fuel d X k kind ix1 ix2 u =
    option_map (fun B => Ok (mk d k (fun r j => vget (nth (nth j ix2 0%nat) X []) r), B))
      (widths fuel (dist_stats (map (pair_dist (rkind_of kind) X) (pairs ix1))) u 0 k []).
Proof.
  intros fuel d X k kind ix1 ix2 u HX H1 H2. unfold rbf_param. destruct X as [|x0 X0] eqn:EX; [congruence|]. rewrite <- EX in *. clear x0 X0 EX HX.
  destruct (pairs_valid _ _ _ H1) as [_ HP].
  rewrite (mapM_ok_map _ (pair_dist (rkind_of kind) X)).
  2:{ intros [i j] Hij. apply HP in Hij. apply measure_ok; cbn; lia. }
  destruct H2 as [H2 H3]. rewrite centres_ok by exact H3.
  assert (mk d k (fun r j => vget (nth j (map (fun i => nth i X []) ix2) []) r) = mk d k (fun r j => vget (nth (nth j ix2 0%nat) X []) r)) as ->.
  { apply mk_ext. intros r j _ Hj. f_equal. rewrite (nth_indep _ [] (nth 0 X [])) by (rewrite map_length; lia). apply (map_nth (fun i => nth i X [])). }
  destruct (widths _ _ _ _ _ _); reflexivity.
Qed.
Theorem rbf_sound : forall fuel d X k kind ix1 ix2 u W B, a_choice (length X) (rbf_Nk (length X) k) ix1 -> a_choice (length X) k ix2 ->
  rbf_param fuel d X k kind ix1 ix2 u = Some (Ok (W, B)) ->
  W = mk d k (fun r j => vget (nth (nth j ix2 0%nat) X []) r) /\ length B = k /\ Forall (fun b => nltb n0 b = true) B.
Proof.
  intros fuel d X k kind ix1 ix2 u W B H1 H2 E. destruct X as [|x0 X0] eqn:EX; [discriminate|]. rewrite <- EX in *.
  rewrite rbf_steps in E by (auto; subst; discriminate). destruct (widths _ _ _ _ _ _) as [B0|] eqn:Ew; [|discriminate]. cbn [option_map] in E. injection E as <- <-.
  split; [reflexivity|]. eapply widths_sound; [|exact Ew]. constructor.
Qed.
(** a single sample: never returns *)
Theorem rbf_one_sample : forall fuel d x k kind ix1 ix2 u, a_choice 1 (rbf_Nk 1 k) ix1 -> a_choice 1 k ix2 ->
  rbf_param fuel d [x] k kind ix1 ix2 u = None.
Proof.
  intros fuel d x k kind ix1 ix2 u H1 H2. rewrite rbf_steps by (auto; discriminate). destruct H1 as [H1 _]. unfold rbf_Nk in H1. cbn in H1.
  rewrite Nat.min_0_r in H1. destruct ix1; [|discriminate]. cbn [pairs combine seq length map dist_stats]. rewrite widths_nan. reflexivity.
Qed.

(** ** GPU kernel *)
Lemma thread_index_inj : forall b t t', (snd t < b)%nat -> (snd t' < b)%nat -> thread_index b t = thread_index b t' -> t = t'.
Proof.
  intros b [x y] [x' y'] H H' E. unfold thread_index in E. cbn [fst snd] in *.
  assert (x = x') by nia. subst. f_equal. lia.
Qed.
Lemma threads_index : forall g b i, (0 < b)%nat -> (i < g * b)%nat <-> exists t, In t (threads g b) /\ thread_index b t = i.
Proof.
  intros g b i Hb. unfold threads, thread_index. split.
  - intros H. exists (i / b, i mod b)%nat. split.
    + apply in_prod; apply in_seq; [|pose proof (Nat.mod_upper_bound i b); lia]. split; [lia|]. cbn. apply Nat.div_lt_upper_bound; lia.
    + cbn [fst snd]. symmetry. apply Nat.div_mod. lia.
  - intros ([x y] & Hin & <-). apply in_prod_iff in Hin as [H1 H2]. apply in_seq in H1. apply in_seq in H2. cbn [fst snd]. nia.
Qed.
Lemma NoDup_app_intro : forall {A} (l m : list A), NoDup l -> NoDup m -> (forall x, In x l -> ~ In x m) -> NoDup (l ++ m).
Proof.
  intros A l m Hl Hm H. induction Hl as [|x l Hx _ IH]; [exact Hm|]. cbn [app]. constructor.
  - intros C. apply in_app_or in C as [C|C]; [contradiction|]. apply (H x); [now left|exact C].
  - apply IH. intros y Hy. apply H. now right.
Qed.
Lemma threads_nodup : forall g b, NoDup (threads g b).
Proof.
  intros g b. unfold threads. pose proof (seq_NoDup b 0) as H. set (l2 := seq 0 b) in *. clearbody l2. pose proof (seq_NoDup g 0) as H1. set (l1 := seq 0 g) in *. clearbody l1.
  induction H1 as [|x l1 Hx _ IH]; [constructor|]. cbn [list_prod]. apply NoDup_app_intro; [|exact IH|].
  - clear -H. induction H as [|y l Hy _ IH]; [constructor|]. cbn [map]. constructor; [|exact IH]. intros C. apply in_map_iff in C as (z & E & Hz). injection E as <-. contradiction.
  - intros t Ht C. apply in_map_iff in Ht as (y & <- & _). apply in_prod_iff in C as [C _]. contradiction.
Qed.

(** every thread transforms the element at its index once, whatever the order *)
Lemma launch_other : forall b order mem i, (forall t, In t order -> thread_index b t <> i) -> launch b order mem i = mem i.
Proof.
  intros b. unfold launch. induction order as [|t order IH]; intros mem i H; [reflexivity|]. cbn [fold_left].
  rewrite IH by (intros; apply H; now right). unfold run_thread. destruct (Nat.eqb_spec i (thread_index b t)) as [E|]; [|reflexivity].
  exfalso. apply (H t); [now left|auto].
Qed.
Lemma launch_one : forall b order mem t, NoDup order -> (forall t', In t' order -> (snd t' < b)%nat) -> In t order ->
  launch b order mem (thread_index b t) = sigm1 (mem (thread_index b t)).
Proof.
  intros b. induction order as [|t0 order IH]; intros mem t HN HB Hin; [destruct Hin|]. inversion HN as [|? ? N1 N2]; subst.
  change (launch b (t0 :: order) mem) with (launch b order (run_thread b mem t0)). destruct Hin as [->|Hin].
  - rewrite launch_other.
    + unfold run_thread. now rewrite Nat.eqb_refl.
    + intros t' Ht' E. apply thread_index_inj in E; [subst; contradiction| |]; apply HB; [now right|now left].
  - rewrite IH; auto; [|intros; apply HB; now right]. f_equal. unfold run_thread. destruct (Nat.eqb_spec (thread_index b t) (thread_index b t0)) as [E|]; [|reflexivity].
    apply thread_index_inj in E; [subst; contradiction| |]; apply HB; [now right|now left].
Qed.
Lemma launch_spec : forall g b order mem i, (0 < b)%nat -> Permutation order (threads g b) ->
  launch b order mem i = if (i <? g * b)%nat then sigm1 (mem i) else mem i.
Proof.
  intros g b order mem i Hb HP. destruct (Nat.ltb_spec i (g * b)) as [H|H].
  - apply threads_index in H as (t & Hin & <-); [|exact Hb]. apply launch_one.
    + apply (Permutation_NoDup (Permutation_sym HP)). apply threads_nodup.
    + intros t' Ht'. apply (Permutation_in _ HP) in Ht'. unfold threads in Ht'. destruct t'. apply in_prod_iff in Ht' as [_ Ht']. apply in_seq in Ht'. cbn. lia.
    + now apply (Permutation_in _ (Permutation_sym HP)).
  - apply launch_other. intros t Ht E. apply (Permutation_in _ HP) in Ht.
    assert (i < g * b)%nat by (apply threads_index; [exact Hb|]; now exists t). lia.
Qed.
Lemma sigm_grid_spec : forall size b, (0 < b)%nat -> (size <= sigm_grid size b * b < size + b)%nat /\ ((size mod b = 0)%nat -> sigm_grid size b * b = size)%nat.
Proof.
  intros size b Hb. unfold sigm_grid. pose proof (ceil_div_spec (Z.of_nat size) (Z.of_nat b) ltac:(lia)) as H.
  assert (0 <= ceil_div (Z.of_nat size) (Z.of_nat b))%Z as H0 by nia. split; [nia|].
  intros Hm. apply Nat.mod_divides in Hm as (q & ->); [|lia]. assert (ceil_div (Z.of_nat (b * q)) (Z.of_nat b) = Z.of_nat q) as -> by nia. lia.
Qed.

(** one launch: the matrix gets the sigmoid, entry by entry, exactly once; nothing else
    changes if the block divides the size of the matrix, and up to block-1 entries after
    the matrix are overwritten if it does not *)
Theorem sigm_launch : forall size b order mem, (0 < b)%nat -> Permutation order (threads (sigm_grid size b) b) ->
  (forall i, (i < size)%nat -> launch b order mem i = sigm1 (mem i) /\ (exists t, In t order /\ thread_index b t = i /\ forall t', In t' order -> thread_index b t' = i -> t' = t)) /\
  ((size mod b = 0)%nat -> forall i, (size <= i)%nat -> launch b order mem i = mem i) /\
  (forall i, (size + b <= i)%nat -> launch b order mem i = mem i) /\
  ((size mod b <> 0)%nat -> launch b order mem size = sigm1 (mem size)).
Proof.
  intros size b order mem Hb HP. destruct (sigm_grid_spec size b Hb) as [G1 G2].
  pose proof (fun i => launch_spec _ b order mem i Hb HP) as HL.
  split; [|split; [|split]].
  - intros i Hi. split; [rewrite HL; destruct (Nat.ltb_spec i (sigm_grid size b * b)); [reflexivity|lia]|].
    assert (i < sigm_grid size b * b)%nat as Hi2 by lia. apply threads_index in Hi2 as (t & Hin & E); [|exact Hb]. exists t.
    assert (forall t', In t' order -> (snd t' < b)%nat) as HB.
    { intros t' Ht'. apply (Permutation_in _ HP) in Ht'. unfold threads in Ht'. destruct t'. apply in_prod_iff in Ht' as [_ Ht']. apply in_seq in Ht'. cbn. lia. }
    assert (In t order) as Hin' by (apply (Permutation_in _ (Permutation_sym HP) Hin)).
    split; [exact Hin'|]. split; [exact E|]. intros t' Ht' E'. apply (thread_index_inj b); auto. congruence.
  - intros Hm i Hi. specialize (G2 Hm). rewrite HL. destruct (Nat.ltb_spec i (sigm_grid size b * b)); [lia|reflexivity].
  - intros i Hi. rewrite HL. destruct (Nat.ltb_spec i (sigm_grid size b * b)); [lia|reflexivity].
  - intros Hm. rewrite HL. destruct (Nat.ltb_spec size (sigm_grid size b * b)) as [|C]; [reflexivity|].
    exfalso. apply Hm. assert (size = sigm_grid size b * b)%nat as -> by lia. apply Nat.mod_mul. lia.
Qed.
End Any.

Local Open Scope R_scope.
Section Reals.
#[local] Existing Instance NumR.

Lemma rdist_nonneg : forall kd x y, 0 <= @rdist NumR kd x y.
Proof.
  intros kd x y. destruct kd; cbn [rdist].
  - change (0 <= Rsum (map2 (fun a b => Rabs (a - b)) x y)). revert y. induction x as [|a x IH]; intros [|b y]; try (cbn; lra). cbn [map2].
    change (0 <= Rabs (a - b) + Rsum (map2 (fun a b => Rabs (a - b)) x y)). pose proof (Rabs_pos (a - b)). specialize (IH y). lra.
  - revert y. induction x as [|a x IH]; intros [|b y]; try (cbn; lra). specialize (IH y). cbn [map2 fold_right].
    set (m := fold_right _ _ _) in *. clearbody m. cbn [nltb nabs nsub NumR]. unfold Rltb. destruct (Rlt_dec m (Rabs (a - b))); [apply Rabs_pos|exact IH].
  - change (0 <= Rsum (map2 (fun a b => (a - b) * (a - b)) x y)). revert y. induction x as [|a x IH]; intros [|b y]; try (cbn; lra). cbn [map2].
    change (0 <= (a - b) * (a - b) + Rsum (map2 (fun a b => (a - b) * (a - b)) x y)). specialize (IH y). pose proof (Rle_0_sqr (a - b)) as Q. unfold Rsqr in Q. lra.
Qed.
(** different rows have a positive distance *)
Lemma rdist_zero : forall kd x y, length x = length y -> @rdist NumR kd x y = 0 -> x = y.
Proof.
  intros kd x. induction x as [|a x IH]; intros [|b y] HL E; try discriminate; [reflexivity|]. injection HL as HL.
  pose proof (rdist_nonneg kd x y) as HN. specialize (IH y HL). destruct kd; cbn [rdist map2] in *.
  - change (Rabs (a - b) + @nsum NumR (map2 (fun a b => @nabs NumR (@nsub NumR a b)) x y) = 0) in E. change (@n0 NumR) with 0 in *. pose proof (Rabs_pos (a - b)).
    assert (Rabs (a - b) = 0) as Q by lra. rewrite IH by lra. f_equal. destruct (Req_dec (a - b) 0); [lra|]. apply Rabs_no_R0 in H0. contradiction.
  - cbn [fold_right] in E. set (m := fold_right _ _ _) in *. clearbody m. cbn [nltb nabs nsub NumR] in E. unfold Rltb in E. destruct (Rlt_dec m (Rabs (a - b))); pose proof (Rabs_pos (a - b)).
    + cbn [num NumR] in *. lra.
    + cbn [num NumR] in *. rewrite IH by exact E. f_equal. assert (Rabs (a - b) = 0) as Q by lra. destruct (Req_dec (a - b) 0); [lra|]. apply Rabs_no_R0 in H0. contradiction.
  - change ((a - b) * (a - b) + @nsum NumR (map2 (fun a b => @nmul NumR (@nsub NumR a b) (@nsub NumR a b)) x y) = 0) in E.
    set (S := @nsum NumR _) in *. clearbody S. cbn [num NumR] in *. pose proof (Rle_0_sqr (a - b)) as P. unfold Rsqr in P.
    assert ((a - b) * (a - b) = 0) as Q by lra. rewrite IH by lra. f_equal. apply Rmult_integral in Q. lra.
Qed.

Lemma half_R : @half NumR = 1 / 2. Proof. unfold half. cbn [ndiv n1 nadd NumR]. lra. Qed.

Lemma dist_stats_some : forall l : list R, l <> [] -> exists s, 0 <= s /\ @dist_stats NumR l = Some (Rsum l / INR (length l), s).
Proof.
  intros [|a l] H; [congruence|]. unfold dist_stats. rewrite nof_nat_INR. eexists. split; [|reflexivity]. apply sqrt_pos.
Qed.

(** C52, termination: some measured pair differs, and values >= 1/2 keep coming *)
Theorem rbf_total : forall d X k kind ix1 ix2 (u : nat -> R),
  (0 < k)%nat -> Forall (fun x => length x = d) X -> a_choice (length X) (rbf_Nk (length X) k) ix1 -> a_choice (length X) k ix2 ->
  (exists i j, In (i, j) (pairs ix1) /\ nth i X [] <> nth j X []) ->
  infinitely_often (fun n => 1 / 2 <= u n) ->
  exists fuel W B, @rbf_param NumR fuel d X k kind ix1 ix2 u = Some (Ok (W, B)).
Proof.
  intros d X k kind ix1 ix2 u Hk HW H1 H2 (i & j & Hij & Hne) Hu.
  assert (X <> []) as HX by (intros ->; apply Hne; now destruct i, j).
  destruct (pairs_valid _ _ _ H1) as [_ HP]. destruct (HP i j Hij) as (_ & Hi & Hj).
  set (ds := map (@pair_dist NumR (rkind_of kind) X) (pairs ix1)).
  assert (0 < Rsum ds) as HS.
  { assert (forall l : list R, (forall x, In x l -> 0 <= x) -> (exists x, In x l /\ x <> 0) -> 0 < Rsum l) as G.
    { induction l as [|a l IH]; intros HA (x & Hx & Hx0); [destruct Hx|]. change (0 < a + Rsum l). pose proof (HA a (or_introl eq_refl)).
      assert (0 <= Rsum l) as HN. { clear -HA. induction l as [|b l IH]; [cbn; lra|]. change (0 <= b + Rsum l). pose proof (HA b (or_intror (or_introl eq_refl))).
        assert (0 <= Rsum l) by (apply IH; intros x [->|Hx]; apply HA; [now left|right; now right]). lra. }
      destruct Hx as [->|Hx]; [lra|]. assert (0 < Rsum l) by (apply IH; [intros; apply HA; now right|now exists x]). lra. }
    apply G.
    - intros x Hx. apply in_map_iff in Hx as (p & <- & _). apply rdist_nonneg.
    - exists (@pair_dist NumR (rkind_of kind) X (i, j)). split; [now apply in_map|]. intros C. apply Hne. rewrite Forall_forall in HW.
      eapply rdist_zero; [|exact C]. cbn [fst snd]. transitivity d; [|symmetry]; apply HW, nth_In; assumption. }
  assert (ds <> []) as Hds by (intros C; rewrite C in HS; cbn in HS; lra).
  set (m := Rsum ds / INR (length ds)).
  assert (0 < m) as Hm. { apply Rdiv_lt_0_compat; [exact HS|]. apply lt_0_INR. destruct ds; [congruence|cbn; lia]. }
  assert (exists s, 0 <= s /\ @dist_stats NumR ds = Some (m, s)) as (s & Hs & ES).
  { exact (dist_stats_some ds Hds). }
  destruct (@widths_total NumR (m, s) u) with (n := k) (k := k) (i := 0%nat) (B := @nil R) as (fuel & R & ER); auto.
  { intros n. destruct (Hu n) as (k1 & Hn & Hn1). exists k1. split; [exact Hn|]. unfold width. rewrite half_R. cbn [fst snd nltb nadd nmul nsub n0 n1 NumR]. unfold Rltb.
    destruct (Rlt_dec 0 _) as [|C]; [reflexivity|]. exfalso. apply C. assert (0 <= (u k1 - 1 / 2) * (1 + 1) * s) by (apply Rmult_le_pos; [lra|exact Hs]). lra. }
  exists fuel. do 2 eexists. rewrite rbf_steps by auto. fold ds. rewrite ES. etransitivity; [apply f_equal; exact ER|reflexivity].
Qed.

Lemma dist_stats_zero : forall l : list R, l <> [] -> Forall (fun x => x = 0) l -> @dist_stats NumR l = Some (0, 0).
Proof.
  intros l Hl HZ. assert (forall f : R -> R, f 0 = 0 -> Rsum (map f l) = 0) as G.
  { intros f Hf. clear Hl. induction HZ as [|x l Hx _ IH]; [reflexivity|]. cbn [map]. change (f x + Rsum (map f l) = 0). rewrite IH, Hx, Hf. lra. }
  assert (Rsum l = 0) as E1. { rewrite <- (map_id l). now apply G. }
  unfold dist_stats. destruct l as [|a l0] eqn:E; [congruence|]. rewrite <- E in *. rewrite nof_nat_INR.
  change (Some (Rsum l / INR (length l), sqrt (Rsum (map (fun x => (x - Rsum l / INR (length l)) * (x - Rsum l / INR (length l))) l) / INR (length l))) = Some (0, 0)).
  rewrite E1. unfold Rdiv. rewrite Rmult_0_l. rewrite (G (fun x => (x - 0) * (x - 0))) by lra. rewrite Rmult_0_l, sqrt_0. reflexivity.
Qed.

(** all measured distances zero: never returns *)
Theorem rbf_stuck : forall fuel d X k kind ix1 ix2 (u : nat -> R),
  X <> [] -> a_choice (length X) (rbf_Nk (length X) k) ix1 -> a_choice (length X) k ix2 ->
  (forall i j, In (i, j) (pairs ix1) -> @rdist NumR (rkind_of kind) (nth i X []) (nth j X []) = 0) ->
  @rbf_param NumR fuel d X k kind ix1 ix2 u = None.
Proof.
  intros fuel d X k kind ix1 ix2 u HX H1 H2 H0. rewrite rbf_steps by auto.
  set (ds := map (@pair_dist NumR (rkind_of kind) X) (pairs ix1)).
  assert (Forall (fun x => x = 0) ds) as HZ. { apply Forall_forall. intros x Hx. apply in_map_iff in Hx as ([i j] & <- & Hin). now apply H0. }
  clearbody ds. assert (@dist_stats NumR ds = None \/ @dist_stats NumR ds = Some (0, 0)) as [->| ->].
  { destruct ds as [|a ds]; [now left|]. right. apply dist_stats_zero; [discriminate|exact HZ]. }
  - now rewrite widths_nan.
  - etransitivity; [apply f_equal; apply (@widths_never NumR fuel (0, 0) u)|reflexivity]. intros n. unfold width. cbn [fst snd nltb nadd nmul n0 NumR]. unfold Rltb. destruct (Rlt_dec 0 _) as [C|]; [|reflexivity]. exfalso. lra.
Qed.
End Reals.

Section AnyK.
Context {K : Num}.
(** the result by entries: column j of W is the chosen sample *)
Theorem rbf_result : forall fuel d X k kind ix1 ix2 u W B, a_choice (length X) (rbf_Nk (length X) k) ix1 -> a_choice (length X) k ix2 ->
  rbf_param fuel d X k kind ix1 ix2 u = Some (Ok (W, B)) ->
  length W = d /\ Forall (fun r => length r = k) W /\
  (forall j, (j < k)%nat -> exists x, In x X /\ forall r, (r < d)%nat -> nth j (nth r W []) n0 = nth r x n0) /\
  length B = k /\ Forall (fun b => nltb n0 b = true) B.
Proof.
  intros fuel d X k kind ix1 ix2 u W B H1 H2 E. destruct (rbf_sound _ _ _ _ _ _ _ _ _ _ H1 H2 E) as (EW & LB & PB).
  subst W. split; [unfold mk; rewrite map_length; apply seq_length|]. split; [apply Forall_forall; unfold mk, mkv; intros r Hr; apply in_map_iff in Hr; destruct Hr as (? & <- & _); rewrite map_length; apply seq_length|].
  split; [|split; assumption]. intros j Hj. exists (nth (nth j ix2 0%nat) X []). destruct H2 as [L2 F2]. split.
  - apply nth_In. rewrite Forall_forall in F2. apply F2, nth_In. lia.
  - intros r Hr. change (mget (mk d k (fun r j => vget (nth (nth j ix2 0%nat) X []) r)) r j = vget (nth (nth j ix2 0%nat) X []) r).
    rewrite mget_mk by assumption. reflexivity.
Qed.
End AnyK.
