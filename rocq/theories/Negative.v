(** HPELM calls with a negative istart (C108). *)
From Coq Require Import Reals Lra Lia ZArith.
From Verif Require Import Base Num Mat LinAlg Slfn Strs Elm Mrsr Search Mss Hpelm MatFacts SplitProofs Spec ElmFacts RLin
  AccProofs TrainProofs RidgeProofs WfProofs TrainThms IncrThms SolveThms RangeThms RangeTrain.

(** ---- specification: the samples used by add_data with istart = -m, all of [l] having [length l] samples ---- *)
Definition between {A} (l : list A) (i j : nat) : list A := firstn (j - i) (skipn i l).
Definition neg_used {A} (batch m : nat) (l : list A) : list A :=
  let N := length l in
  if N <=? batch then between l (N - m) N
  else if m mod batch =? 0 then between l (N - m) (N - batch) ++ l
  else between l (N - m) (N - m mod batch) ++ between l (batch - m mod batch) N.

(** ---- slices ---- *)
Lemma slice_shift : forall {A} (l : list A) a b, (- Z.of_nat (length l) <= a < 0)%Z -> (- Z.of_nat (length l) <= b < 0)%Z ->
  slice l a b = slice l (a + Z.of_nat (length l)) (b + Z.of_nat (length l)).
Proof.
  intros A l a b Ha Hb. unfold slice, py_bound. destruct (Z.ltb_spec a 0); [|lia]. destruct (Z.ltb_spec b 0); [|lia].
  destruct (Z.ltb_spec (a + Z.of_nat (length l)) 0); [lia|]. destruct (Z.ltb_spec (b + Z.of_nat (length l)) 0); [lia|].
  rewrite !Nat.min_l by lia. reflexivity.
Qed.
Lemma slice_between : forall {A} (l : list A) i j, i <= length l -> j <= length l -> slice l (Z.of_nat i) (Z.of_nat j) = between l i j.
Proof.
  intros A l i j Hi Hj. unfold slice, py_bound, between. destruct (Z.ltb_spec (Z.of_nat i) 0); [lia|]. destruct (Z.ltb_spec (Z.of_nat j) 0); [lia|].
  rewrite !Nat2Z.id, !Nat.min_l by lia. reflexivity.
Qed.
Lemma slice_mixed : forall {A} (l : list A) m j, 1 <= m <= length l -> j <= length l -> slice l (- Z.of_nat m) (Z.of_nat j) = between l (length l - m) j.
Proof.
  intros A l m j Hm Hj. unfold slice, py_bound, between. destruct (Z.ltb_spec (- Z.of_nat m) 0); [|lia]. destruct (Z.ltb_spec (Z.of_nat j) 0); [lia|].
  rewrite Nat2Z.id, Nat.min_l by lia. replace (Z.to_nat (- Z.of_nat m + Z.of_nat (length l))) with (length l - m) by lia. reflexivity.
Qed.
Lemma zrange_add : forall a b, (0 <= a)%Z -> (0 <= b)%Z -> zrange (a + b) = zrange a ++ map (fun i => (a + i)%Z) (zrange b).
Proof.
  intros a b Ha Hb. unfold zrange. rewrite Z2Nat.inj_add by lia. rewrite seq_app, map_app. f_equal. cbn [Nat.add].
  rewrite map_map.
  assert (forall k i0, map Z.of_nat (seq (Z.to_nat a + i0) k) = map (fun i => (a + Z.of_nat i)%Z) (seq i0 k)) as Q.
  { induction k as [|k IH]; intros i0; cbn [seq map]; [reflexivity|]. f_equal; [lia|]. rewrite <- IH. do 2 f_equal. lia. }
  specialize (Q (Z.to_nat b) 0). rewrite Nat.add_0_r in Q. exact Q.
Qed.

Lemma ranges_add : forall batch istart cnt a b, (0 <= a)%Z -> (0 <= b)%Z ->
  ranges batch istart cnt (a + b) = ranges batch istart cnt a ++ ranges batch (istart + a * batch) (cnt - a * batch) b.
Proof.
  intros batch istart cnt a b Ha Hb. unfold ranges. rewrite zrange_add, map_app, map_map by assumption. f_equal. apply map_ext. intros i. unfold bounds. f_equal; lia.
Qed.
Lemma ceil_add : forall k b x, (0 < b)%Z -> ceil_div (k * b + x) b = (k + ceil_div x b)%Z.
Proof. intros k b x Hb. unfold ceil_div. replace (- (k * b + x))%Z with (- x + (- k) * b)%Z by lia. rewrite Z.div_add by lia. lia. Qed.
Lemma in_zrange : forall n i, In i (zrange n) -> (0 <= i < n)%Z.
Proof. intros n i H. unfold zrange in H. apply in_map_iff in H as (j & <- & Hj). apply in_seq in Hj. lia. Qed.

(** the first q batches, if they end before the end of the data *)
Lemma head_used : forall {A} (l : list A) batch m q cnt, (0 < batch)%Z -> (Z.of_nat m <= Z.of_nat (length l))%Z -> (0 <= q)%Z -> (q * batch < Z.of_nat m)%Z -> (q * batch <= cnt)%Z ->
  concat (map (fun ab => slice l (fst ab) (snd ab)) (ranges batch (- Z.of_nat m) cnt q)) = between l (length l - m) (length l - m + Z.to_nat (q * batch)).
Proof.
  intros A l batch m q cnt Hb Hm Hq Hqm Hc.
  assert (map (fun ab => slice l (fst ab) (snd ab)) (ranges batch (- Z.of_nat m) cnt q) = map (fun ab => slice l (fst ab) (snd ab)) (ranges batch (Z.of_nat (length l - m)) (q * batch) (ceil_div (q * batch) batch))) as ->.
  { replace (ceil_div (q * batch) batch) with q. 2:{ pose proof (ceil_add q batch 0 Hb) as E. rewrite Z.add_0_r in E. rewrite E. unfold ceil_div. cbn. lia. }
    unfold ranges. rewrite !map_map. apply map_ext_in. intros i Hi. apply in_zrange in Hi. unfold bounds. cbn [fst snd].
    assert ((i + 1) * batch <= q * batch)%Z by nia. assert (0 <= i * batch)%Z by nia.
    rewrite slice_shift by nia. f_equal; lia. }
  rewrite (tiles_concat l batch _ (Z.of_nat (length l - m)) (Z.of_nat (length l - m) + q * batch)); [|lia|lia|apply ranges_tiles; nia].
  rewrite <- slice_between by nia. f_equal. nia.
Qed.
Lemma tail_used : forall {A} (l : list A) batch i, (0 < batch)%Z -> i <= length l ->
  concat (map (fun ab => slice l (fst ab) (snd ab)) (ranges batch (Z.of_nat i) (Z.of_nat (length l) - Z.of_nat i) (ceil_div (Z.of_nat (length l) - Z.of_nat i) batch))) = between l i (length l).
Proof.
  intros A l batch i Hb Hi. rewrite (tiles_concat l batch _ (Z.of_nat i) (Z.of_nat i + (Z.of_nat (length l) - Z.of_nat i))); [|lia|lia|apply ranges_tiles; lia].
  replace (Z.of_nat i + (Z.of_nat (length l) - Z.of_nat i))%Z with (Z.of_nat (length l)) by lia. apply slice_between; lia.
Qed.
Lemma between_empty : forall {A} (l : list A) i j, j <= i -> between l i j = [].
Proof. intros A l i j H. unfold between. replace (j - i) with 0 by lia. reflexivity. Qed.
Lemma skipn_twice : forall {A} x y (l : list A), skipn x (skipn y l) = skipn (x + y) l.
Proof. intros A x y. induction y as [|y IH]; intros l; [now rewrite Nat.add_0_r|]. rewrite Nat.add_succ_r. destruct l; cbn; [now rewrite skipn_nil|apply IH]. Qed.
Lemma between_app : forall {A} (l : list A) i j k, i <= j <= k -> between l i j ++ between l j k = between l i k.
Proof.
  intros A l i j k H. unfold between. replace (skipn j l) with (skipn (j - i) (skipn i l)) by (rewrite skipn_twice; f_equal; lia).
  generalize (skipn i l). intros x. replace (k - i) with ((j - i) + (k - j)) by lia. generalize (j - i), (k - j). clear. intros a b. revert x. induction a as [|a IH]; intros x; [reflexivity|]. destruct x as [|y x]; cbn; [now rewrite firstn_nil|]. f_equal. apply IH.
Qed.
Lemma between_all : forall {A} (l : list A), between l 0 (length l) = l.
Proof. intros. unfold between. rewrite Nat.sub_0_r. cbn [skipn]. apply firstn_all. Qed.

Theorem negative_rows : forall {A} (l : list A) batch m, 0 < batch -> 1 <= m <= length l ->
  concat (map (fun ab => slice l (fst ab) (snd ab)) (ranges (Z.of_nat batch) (- Z.of_nat m) (Z.of_nat (length l) + Z.of_nat m) (ceil_div (Z.of_nat (length l) + Z.of_nat m) (Z.of_nat batch)))) = neg_used batch m l.
Proof.
  intros A l batch m Hb Hm. set (N := length l) in *.
  assert (forall q r : nat, (m = q * batch + r)%nat -> 1 <= r <= batch -> forall j, j = Nat.min (batch - r) N ->
    concat (map (fun ab => slice l (fst ab) (snd ab)) (ranges (Z.of_nat batch) (- Z.of_nat m) (Z.of_nat N + Z.of_nat m) (ceil_div (Z.of_nat N + Z.of_nat m) (Z.of_nat batch)))) =
    between l (N - m) (N - r) ++ between l (N - r) j ++ between l j N) as HC.
  { intros q r Em Hr j Ej.
    replace (Z.of_nat N + Z.of_nat m)%Z with ((Z.of_nat q + 1) * Z.of_nat batch + (Z.of_nat N - Z.of_nat (batch - r)))%Z at 2 by nia.
    rewrite ceil_add by lia. set (rest := (Z.of_nat N - Z.of_nat (batch - r))%Z) in *.
    assert (- Z.of_nat batch < rest)%Z as HR by lia.
    assert (0 <= ceil_div rest (Z.of_nat batch))%Z as HR2. { pose proof (ceil_div_spec rest (Z.of_nat batch) ltac:(lia)) as Q. nia. }
    rewrite !ranges_add by lia. rewrite !map_app, !concat_app, <- app_assoc. f_equal; [|f_equal].
    - rewrite head_used; [|lia|lia|lia|nia|nia]. f_equal. nia.
    - unfold ranges. change (zrange 1) with [0%Z]. cbn [map concat]. rewrite app_nil_r. unfold bounds. cbn [fst snd].
      replace (0 * Z.of_nat batch + (- Z.of_nat m + Z.of_nat q * Z.of_nat batch))%Z with (- Z.of_nat r)%Z by nia.
      match goal with |- slice l _ ?z = _ => replace z with (Z.of_nat j) by nia end. apply slice_mixed; lia.
    - replace (- Z.of_nat m + (Z.of_nat q + 1) * Z.of_nat batch)%Z with (Z.of_nat (batch - r)) by nia.
      replace (Z.of_nat N + Z.of_nat m - (Z.of_nat q + 1) * Z.of_nat batch)%Z with rest by (unfold rest; nia).
      destruct (Nat.le_gt_cases N (batch - r)) as [G|G].
      + rewrite Nat.min_r in Ej by lia. rewrite between_empty by lia. replace (ceil_div rest (Z.of_nat batch)) with 0%Z; [reflexivity|].
        pose proof (ceil_div_nonpos rest (Z.of_nat batch) ltac:(lia) ltac:(lia)). lia.
      + rewrite Nat.min_l in Ej by lia. subst j. unfold rest. apply tail_used; fold N; lia. }
  unfold neg_used. fold N. destruct (Nat.leb_spec N batch) as [HN|HN].
  - rewrite (HC 0 m eq_refl ltac:(lia) _ eq_refl). rewrite (between_empty l (N - m) (N - m)) by lia. cbn [app].
    apply between_app. lia.
  - pose proof (Nat.div_mod m batch ltac:(lia)) as DM. pose proof (Nat.mod_upper_bound m batch ltac:(lia)) as MU. destruct (Nat.eqb_spec (m mod batch) 0) as [E0|E0].
    + rewrite E0 in DM. assert (1 <= m / batch) by (destruct (m / batch); nia).
      rewrite (HC (m / batch - 1) batch ltac:(nia) ltac:(lia) _ eq_refl). rewrite Nat.sub_diag. cbn [Nat.min]. rewrite (between_empty l (N - batch) 0) by lia. cbn [app]. f_equal. apply between_all.
    + rewrite (HC (m / batch) (m mod batch) ltac:(nia) ltac:(lia) _ eq_refl). rewrite Nat.min_l by lia. rewrite (between_empty l (N - m mod batch) (batch - m mod batch)) by lia. reflexivity.
Qed.
Lemma between_map : forall {A B} (f : A -> B) l i j, between (map f l) i j = map f (between l i j).
Proof. intros. unfold between. now rewrite skipn_map, firstn_map. Qed.
Lemma neg_used_map : forall {A B} (f : A -> B) batch m l, neg_used batch m (map f l) = map f (neg_used batch m l).
Proof. intros. unfold neg_used. rewrite map_length, !between_map. destruct (_ <=? _); [reflexivity|]. destruct (_ =? _); now rewrite map_app. Qed.
(** istart = -m, icount = m: all batches but the last one *)
Theorem negative_count : forall {A} (l : list A) batch m, 0 < batch -> 1 <= m <= length l ->
  concat (map (fun ab => slice l (fst ab) (snd ab)) (ranges (Z.of_nat batch) (- Z.of_nat m) (Z.of_nat m) (ceil_div (Z.of_nat m) (Z.of_nat batch)))) =
  between l (length l - m) (length l - m + (m - 1) / batch * batch).
Proof.
  intros A l batch m Hb Hm. pose proof (Nat.div_mod (m - 1) batch ltac:(lia)) as DM. pose proof (Nat.mod_upper_bound (m - 1) batch ltac:(lia)) as MU.
  set (q := (m - 1) / batch) in *. set (r := (m - 1) mod batch) in *.
  assert (ceil_div (Z.of_nat m) (Z.of_nat batch) = Z.of_nat q + 1)%Z as ->.
  { pose proof (ceil_div_spec (Z.of_nat m) (Z.of_nat batch) ltac:(lia)) as Q. assert (Z.of_nat m = Z.of_nat q * Z.of_nat batch + Z.of_nat r + 1)%Z by nia. nia. }
  rewrite ranges_add, map_app, concat_app by lia. rewrite head_used; [|lia|lia|lia|nia|nia].
  replace (Z.to_nat (Z.of_nat q * Z.of_nat batch)) with (q * batch) by nia.
  match goal with |- ?a ++ ?b = _ => assert (b = []) as ->; [|apply app_nil_r] end.
  unfold ranges. change (zrange 1) with [0%Z]. cbn [map concat]. rewrite app_nil_r. unfold bounds. cbn [fst snd].
  match goal with |- slice l ?y ?z = _ => replace z with (Z.of_nat 0) by nia; replace y with (- Z.of_nat (r + 1))%Z by nia end.
  rewrite slice_mixed by nia. apply between_empty. lia.
Qed.

(** ---- icount < m: the same calls ---- *)
Lemma inside_ranges : forall N m c batch nb, (0 < batch)%Z -> c < m <= N -> nb = ceil_div (Z.of_nat c) batch ->
  ranges batch (Z.of_nat (N - m)) (Z.of_nat c) nb = map (fun ab => (fst ab + Z.of_nat N, snd ab + Z.of_nat N)%Z) (ranges batch (- Z.of_nat m) (Z.of_nat c) nb) /\
  forall ab, In ab (ranges batch (- Z.of_nat m) (Z.of_nat c) nb) -> (- Z.of_nat N <= fst ab < 0)%Z /\ (- Z.of_nat N <= snd ab < 0)%Z.
Proof.
  intros N m c batch nb Hb Hm ->. pose proof (ceil_div_spec (Z.of_nat c) batch Hb) as Q. split.
  - unfold ranges. rewrite map_map. apply map_ext. intros i. unfold bounds. cbn [fst snd]. f_equal; lia.
  - intros ab H. unfold ranges in H. apply in_map_iff in H as (i & <- & Hi). apply in_zrange in Hi. unfold bounds. cbn [fst snd]. nia.
Qed.
Lemma inside_counts : forall N m c, c < m <= N -> clip_count (Some (Z.of_nat c)) N (- Z.of_nat m) = Z.of_nat c /\ clip_count (Some (Z.of_nat c)) N (Z.of_nat (N - m)) = Z.of_nat c.
Proof. intros. cbn [clip_count]. lia. Qed.
Section Any.
Context {K : Num} {SG : Sing}.
Lemma inside_slices : forall {A} (l : list A) rs, (forall ab, In ab rs -> (- Z.of_nat (length l) <= fst ab < 0)%Z /\ (- Z.of_nat (length l) <= snd ab < 0)%Z) ->
  map (fun ab => slice l (fst ab) (snd ab)) (map (fun ab => (fst ab + Z.of_nat (length l), snd ab + Z.of_nat (length l))%Z) rs) = map (fun ab => slice l (fst ab) (snd ab)) rs.
Proof. intros A l rs H. rewrite map_map. apply map_ext_in. intros ab Hin. destruct (H ab Hin). cbn [fst snd]. symmetry. now apply slice_shift. Qed.
Theorem inside_add_data : forall e dX dT cx X ct T m c fs, (0 < e_batch e)%Z -> holds_data dX cx X -> holds_data dT ct T -> c < m <= length X ->
  hp_add_data e dX dT (- Z.of_nat m) (Some (Z.of_nat c)) fs = hp_add_data e dX dT (Z.of_nat (length X - m)) (Some (Z.of_nat c)) fs.
Proof.
  intros e dX dT cx X ct T m c fs Hb HX HT Hm. unfold hp_add_data. destruct (s_neurons (e_net e)); [reflexivity|].
  unfold hp_check. rewrite (check_holds _ _ _ _ HX), (check_holds _ _ _ _ HT).
  destruct (cx =? _); cbn [rbind]; [|reflexivity]. destruct (ct =? _); cbn [rbind]; [|reflexivity]. destruct (Nat.eqb_spec (length X) (length T)) as [EL|]; [|reflexivity].
  set (p := match fs with None => (e, None, Ok tt) | Some f => let '(s, f', r) := prepare_fs (e_net e) f in (with_net e s, Some f', r) end).
  assert (e_batch (fst (fst p)) = e_batch e) as EB. { unfold p. destruct fs as [f|]; [|reflexivity]. destruct (prepare_fs (e_net e) f) as [[s f'] r]. reflexivity. }
  destruct p as [[e0 fs0] r0]. cbn [fst] in EB. destruct r0; [|reflexivity]. destruct (inside_counts (length X) m c Hm) as [-> ->].
  rewrite EB. rewrite nbatches_eq by exact Hb. destruct (inside_ranges (length X) m c (e_batch e) _ Hb Hm eq_refl) as [ER HI]. rewrite ER.
  set (rs := ranges (e_batch e) (- Z.of_nat m) (Z.of_nat c) (ceil_div (Z.of_nat c) (e_batch e))) in *.
  assert (hp_batches X T (map (fun ab => (fst ab + Z.of_nat (length X), snd ab + Z.of_nat (length X))%Z) rs) = hp_batches X T rs) as ->.
  { unfold hp_batches. rewrite map_map. apply map_ext_in. intros ab Hin. destruct (HI ab Hin). cbn [fst snd]. rewrite <- slice_shift by assumption. rewrite EL in *. rewrite <- slice_shift by assumption. reflexivity. }
  assert (hp_fill_wc e0 T (map (fun ab => (fst ab + Z.of_nat (length X), snd ab + Z.of_nat (length X))%Z) rs) = hp_fill_wc e0 T rs) as ->; [|reflexivity].
  unfold hp_fill_wc. destruct (is_wc e0); [|reflexivity]. destruct (e_wc e0); [reflexivity|].
  assert (forall acc, fold_left (fun acc ab => vadd acc (col_sums (s_outputs (e_net e0)) (slice T (fst ab) (snd ab)))) (map (fun ab => (fst ab + Z.of_nat (length X), snd ab + Z.of_nat (length X))%Z) rs) acc = fold_left (fun acc ab => vadd acc (col_sums (s_outputs (e_net e0)) (slice T (fst ab) (snd ab)))) rs acc) as ->; [|reflexivity].
  rewrite EL in *. revert HI. clear. induction rs as [|ab r IH]; intros HI acc; [reflexivity|]. cbn [map fold_left fst snd]. destruct (HI ab (or_introl eq_refl)). rewrite <- slice_shift by assumption. apply IH. intros q Hq. apply HI. now right.
Qed.
Theorem inside_predict : forall e dX cx X fY m c, (0 < e_batch e)%Z -> holds_data dX cx X -> c < m <= length X ->
  hp_predict e dX fY (- Z.of_nat m) (Some (Z.of_nat c)) = hp_predict e dX fY (Z.of_nat (length X - m)) (Some (Z.of_nat c)).
Proof.
  intros e dX cx X fY m c Hb HX Hm. unfold hp_predict. destruct (s_neurons (e_net e)); [reflexivity|]. destruct (s_B (e_net e)); [|reflexivity].
  rewrite (check_holds _ _ _ _ HX). destruct (cx =? _); cbn [rbind]; [|reflexivity]. destruct (inside_counts (length X) m c Hm) as [-> ->]. rewrite nbatches_eq by exact Hb. cbn [rbind].
  destruct (match fY with DArr a => _ | _ => _ end) as [Y|]; cbn [rbind]; [|reflexivity].
  destruct (inside_ranges (length X) m c (e_batch e) _ Hb Hm eq_refl) as [ER HI]. rewrite ER. revert HI. generalize (ranges (e_batch e) (- Z.of_nat m) (Z.of_nat c) (ceil_div (Z.of_nat c) (e_batch e))). intros rs. revert Y.
  induction rs as [|ab r IH]; intros Y HI; [reflexivity|]. cbn [map store_loop fst snd]. destruct (HI ab (or_introl eq_refl)). rewrite <- slice_shift by assumption.
  destruct (predict _ _) as [Yb|]; cbn [rbind]; [|reflexivity].
  replace (fst ab + Z.of_nat (length X) - Z.of_nat (length X - m))%Z with (fst ab - - Z.of_nat m)%Z by lia. replace (snd ab + Z.of_nat (length X) - Z.of_nat (length X - m))%Z with (snd ab - - Z.of_nat m)%Z by lia.
  destruct (slice_assign _ _ _ _); cbn [rbind]; [|reflexivity]. apply IH. intros q Hq. apply HI. now right.
Qed.
Theorem inside_error : forall e dT ct T dY cy Y m c, (0 < e_batch e)%Z -> holds_data dT ct T -> holds_data dY cy Y -> length T = length Y -> c < m <= length T ->
  hp_error e dT dY (- Z.of_nat m) (Some (Z.of_nat c)) = hp_error e dT dY (Z.of_nat (length T - m)) (Some (Z.of_nat c)).
Proof.
  intros e dT ct T dY cy Y m c Hb HT HY EL Hm. unfold hp_error. rewrite (check_holds _ _ _ _ HT), (check_holds _ _ _ _ HY).
  destruct (ct =? _); cbn [rbind]; [|reflexivity]. destruct (cy =? _); cbn [rbind]; [|reflexivity]. unfold hp_error_. destruct (inside_counts (length T) m c Hm) as [-> ->]. rewrite nbatches_eq by exact Hb. cbn [rbind].
  destruct (inside_ranges (length T) m c (e_batch e) _ Hb Hm eq_refl) as [ER HI]. rewrite ER. set (rs := ranges (e_batch e) (- Z.of_nat m) (Z.of_nat c) (ceil_div (Z.of_nat c) (e_batch e))) in *.
  assert (forall f acc, mean_batches f T Y (map (fun ab => (fst ab + Z.of_nat (length T), snd ab + Z.of_nat (length T))%Z) rs) (Z.of_nat c) acc = mean_batches f T Y rs (Z.of_nat c) acc) as EM.
  { intros f. revert HI. generalize rs. clear - EL. induction rs as [|ab r IH]; intros HI acc; [reflexivity|]. cbn [map mean_batches fst snd]. destruct (HI ab (or_introl eq_refl)).
    rewrite <- slice_shift by assumption. rewrite EL. rewrite <- slice_shift by (rewrite EL in *; assumption).
    destruct (f _ _); cbn [rbind]; [|reflexivity]. replace (snd ab + Z.of_nat (length Y) - (fst ab + Z.of_nat (length Y)))%Z with (snd ab - fst ab)%Z by lia. rewrite <- EL. apply IH. intros q Hq. apply HI. now right. }
  assert (forall acc, wc_counts T Y (map (fun ab => (fst ab + Z.of_nat (length T), snd ab + Z.of_nat (length T))%Z) rs) (s_outputs (e_net e)) acc = wc_counts T Y rs (s_outputs (e_net e)) acc) as EW.
  { revert HI. generalize rs. clear - EL. induction rs as [|ab r IH]; intros HI acc; [reflexivity|]. cbn [map wc_counts fst snd]. destruct (HI ab (or_introl eq_refl)).
    rewrite <- slice_shift by assumption. rewrite EL. rewrite <- slice_shift by (rewrite EL in *; assumption).
    destruct (mapM _ _); cbn [rbind]; [|reflexivity]. rewrite <- EL. apply IH. intros q Hq. apply HI. now right. }
  rewrite EW, !EM. reflexivity.
Qed.
Theorem train_negative : forall e dX dT args kw i icount, (i <= 0)%Z -> hp_train e dX dT args kw (Some i) icount = hp_train e dX dT args kw None icount.
Proof. intros e dX dT args kw i icount Hi. unfold hp_train. rewrite Z.max_l by exact Hi. reflexivity. Qed.
End Any.

(** ---- what is accumulated ---- *)
Section Acc.
Context {SG : @Sing NumR}.
#[local] Existing Instance NumR.
Lemma add_slices : forall (e : elm) dX dT X T istart icount cnt (UX UT : list (list R)), no_data (e_net e) -> is_wc e = false -> (0 < e_batch e)%Z -> data_ok e dX dT X T -> usable (e_net e) ->
  cnt = clip_count icount (length X) istart -> (0 < cnt)%Z ->
  concat (map (fun ab => slice X (fst ab) (snd ab)) (ranges (e_batch e) istart cnt (ceil_div cnt (e_batch e)))) = UX ->
  concat (map (fun ab => slice T (fst ab) (snd ab)) (ranges (e_batch e) istart cnt (ceil_div cnt (e_batch e)))) = UT -> length UX = length UT ->
  exists e', hp_add_data e dX dT istart icount None = (e', None, Ok tt) /\
    get_corr (e_net e') = Ok (Some (spec_HH (getL (e_net e)) (s_norm (e_net e)) (plain (map (hrow (s_neurons (e_net e))) UX) UT),
                                    spec_HT (getL (e_net e)) (s_outputs (e_net e)) (plain (map (hrow (s_neurons (e_net e))) UX) UT))).
Proof.
  intros e dX dT X T istart icount cnt UX UT HN HW Hb HD HU -> Hc EX ET EL. pose proof HD as (_ & _ & HL & WX & WT).
  set (rs := ranges (e_batch e) istart _ _) in *.
  assert (map fst (hp_batches X T rs) = map (fun ab => slice X (fst ab) (snd ab)) rs) as M1 by (unfold hp_batches; now rewrite map_map).
  assert (map snd (hp_batches X T rs) = map (fun ab => slice T (fst ab) (snd ab)) rs) as M2 by (unfold hp_batches; now rewrite map_map).
  assert (fill_wc e UT = e) as EF by (unfold fill_wc; now rewrite HW).
  destruct (add_batches_acc e (fun _ => 1%R) (hp_batches X T rs) (e_net e) [] (no_data_acc _ HN) HU) as (s' & E & A & Es & N).
  { rewrite <- EF at 1. apply parts_ok.
    - rewrite M1. apply Forall_concat, Forall_map, Forall_forall. intros ab _. now apply (@Forall_wide_slice NumR).
    - rewrite M2. apply Forall_concat, Forall_map, Forall_forall. intros ab _. now apply (@Forall_wide_slice NumR).
    - apply Forall_forall. intros p Hp. unfold hp_batches in Hp. apply in_map_iff in Hp as (ab & <- & _). cbn [fst snd]. unfold slice. rewrite !firstn_length, !skipn_length. cbn [num NumR] in *. now rewrite HL.
    - now apply weights_plain.
    - intros t Ht. rewrite M2 in Ht. cbn [num NumR] in *. rewrite ET in Ht. exact Ht. }
  eexists. split.
  - unfold hp_add_data. destruct HU as [HU _]. destruct (s_neurons (e_net e)) eqn:En; [congruence|]. rewrite (hp_check_ok _ _ _ _ _ HD). rewrite nbatches_eq by exact Hb. fold rs.
    unfold hp_fill_wc. rewrite HW. rewrite E. reflexivity.
  - cbn [e_net with_net]. rewrite M1, M2 in A. cbn [num NumR app] in *. rewrite EX, ET in A. rewrite samples_plain in A by (rewrite map_length; exact EL). apply corr_of; auto. apply N. left.
    unfold hp_batches. intros C. apply map_eq_nil in C. unfold rs, ranges in C. apply map_eq_nil in C. unfold zrange in C. apply map_eq_nil in C.
    pose proof (ceil_div_spec (clip_count icount (length X) istart) (e_batch e) Hb). assert (0 < ceil_div (clip_count icount (length X) istart) (e_batch e))%Z by nia.
    destruct (Z.to_nat (ceil_div (clip_count icount (length X) istart) (e_batch e))) eqn:EZ; [lia|]. discriminate C.
Qed.
Lemma between_length : forall {A B} (l : list A) (k : list B) i j, length l = length k -> length (between l i j) = length (between k i j).
Proof. intros. unfold between. rewrite !firstn_length, !skipn_length. now rewrite H. Qed.
Theorem negative_all : forall (e : elm) dX dT X T H m batch, no_data (e_net e) -> is_wc e = false -> 0 < batch -> e_batch e = Z.of_nat batch -> data_ok e dX dT X T -> 1 <= m <= length X ->
  elm_project e (Arr2 (s_inputs (e_net e)) X) = Ok H ->
  exists e', hp_add_data e dX dT (- Z.of_nat m) None None = (e', None, Ok tt) /\
    get_corr (e_net e') = Ok (Some (spec_HH (getL (e_net e)) (s_norm (e_net e)) (plain (neg_used batch m H) (neg_used batch m T)),
                                    spec_HT (getL (e_net e)) (s_outputs (e_net e)) (plain (neg_used batch m H) (neg_used batch m T)))).
Proof.
  intros e dX dT X T H m batch HN HW Hb EB HD Hm HP. destruct (elm_project_inv _ _ _ HP) as (HU & WX & ->). pose proof HD as (_ & _ & HL & _ & _). rewrite neg_used_map.
  apply (add_slices e dX dT X T _ None (Z.of_nat (length X) + Z.of_nat m)%Z); auto; try lia.
  - cbn [clip_count]. lia.
  - rewrite EB. apply negative_rows; assumption.
  - rewrite EB. cbn [num NumR] in *. rewrite HL. apply negative_rows; [assumption|]. rewrite <- HL. exact Hm.
  - unfold neg_used. cbn [num NumR] in *. rewrite HL. destruct (_ <=? _); [now apply between_length|]. destruct (_ =? _); rewrite !app_length; rewrite ?HL; f_equal; now apply between_length.
Qed.
Theorem negative_last : forall (e : elm) dX dT X T H m batch, no_data (e_net e) -> is_wc e = false -> 0 < batch -> e_batch e = Z.of_nat batch -> data_ok e dX dT X T -> 1 <= m <= length X ->
  elm_project e (Arr2 (s_inputs (e_net e)) X) = Ok H ->
  let j := length X - m + (m - 1) / batch * batch in j < length X /\
  exists e', hp_add_data e dX dT (- Z.of_nat m) (Some (Z.of_nat m)) None = (e', None, Ok tt) /\
    get_corr (e_net e') = Ok (Some (spec_HH (getL (e_net e)) (s_norm (e_net e)) (plain (between H (length X - m) j) (between T (length X - m) j)),
                                    spec_HT (getL (e_net e)) (s_outputs (e_net e)) (plain (between H (length X - m) j) (between T (length X - m) j)))).
Proof.
  intros e dX dT X T H m batch HN HW Hb EB HD Hm HP j. split.
  { unfold j. pose proof (Nat.div_mod (m - 1) batch ltac:(lia)). nia. }
  destruct (elm_project_inv _ _ _ HP) as (HU & WX & ->). pose proof HD as (_ & _ & HL & _ & _). rewrite between_map.
  apply (add_slices e dX dT X T _ _ (Z.of_nat m)%Z); auto; try lia.
  - cbn [clip_count]. lia.
  - rewrite EB. apply negative_count; assumption.
  - rewrite EB. unfold j. cbn [num NumR] in *. rewrite HL. apply negative_count; [assumption|]. rewrite <- HL. exact Hm.
  - now apply between_length.
Qed.
End Acc.
