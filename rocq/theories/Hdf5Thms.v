(** Data files: make_hdf5 (C54) and normalize_hdf5 (C42, C43). *)
From Coq Require Import Reals Lra.
From Verif Require Import Base Num Mat LinAlg Slfn Strs Elm Hpelm MatFacts SplitProofs RangeThms Spec TrainThms Hdf5.

Section Any.
Context {K : Num}.

(** ** the batches of normalize_hdf5 tile the rows *)
Lemma norm_nb_ceil : forall N b, (0 < b)%Z -> norm_nb N b = ceil_div N b.
Proof.
  intros N b Hb. apply ceil_div_unique; [exact Hb|]. unfold norm_nb.
  pose proof (Z.div_mod N b ltac:(lia)). pose proof (Z.mod_pos_bound N b Hb). set (q := (N / b)%Z) in *. clearbody q.
  destruct (Z.ltb_spec (q * b) N); nia.
Qed.
Definition step_of (ab : Z * Z) : Z * Z := (fst ab, (snd ab - fst ab)%Z).
Lemma norm_steps_ranges : forall N b, (0 < b)%Z -> norm_steps N b = map step_of (ranges b 0 N (ceil_div N b)).
Proof.
  intros N b Hb. unfold norm_steps, ranges, zrange. rewrite norm_nb_ceil by auto. rewrite !map_map. apply map_ext. intros i.
  unfold step_of, bounds. cbn [fst snd]. f_equal; lia.
Qed.

Lemma skipn_skipn' : forall {A} x y (l : list A), skipn x (skipn y l) = skipn (x + y) l.
Proof.
  intros A x y. revert x. induction y as [|y IH]; intros x l; [now rewrite Nat.add_0_r|]. destruct l as [|a l]; [now rewrite !skipn_nil|].
  rewrite Nat.add_succ_r. cbn [skipn]. apply IH.
Qed.

Lemma norm_loop_tiles : forall m s batch rs a b (rows : mat), tiles batch a b rs -> (0 <= a)%Z -> (b <= Z.of_nat (length rows))%Z ->
  norm_loop m s (map step_of rs) (map (scale_row m s) (firstn (Z.to_nat a) rows) ++ skipn (Z.to_nat a) rows) =
  Ok (map (scale_row m s) (firstn (Z.to_nat b) rows) ++ skipn (Z.to_nat b) rows).
Proof.
  intros m s batch. unfold norm_loop. induction rs as [|[x y] rs IH]; intros a b rows Ht Ha Hb; cbn [tiles] in Ht.
  { subst b. reflexivity. }
  destruct Ht as (-> & H1 & H2 & H3). cbn [map fold_left step_of fst snd]. replace (a + (y - a))%Z with y by lia.
  set (f := scale_row m s) in *. set (st := map f (firstn (Z.to_nat a) rows) ++ skipn (Z.to_nat a) rows).
  assert (length (map f (firstn (Z.to_nat a) rows)) = Z.to_nat a) as EL by (rewrite map_length, firstn_length; lia).
  assert (length st = length rows) as Els by (unfold st; rewrite app_length, EL, skipn_length; lia).
  rewrite slice_assign_in; [|lia|lia|rewrite map_length, slice_length_in; lia].
  assert (firstn (Z.to_nat a) st ++ map f (slice st a y) ++ skipn (Z.to_nat y) st =
          map f (firstn (Z.to_nat y) rows) ++ skipn (Z.to_nat y) rows) as ->; [|apply IH; auto; lia].
  assert (slice st a y = slice rows a y) as ->.
  { rewrite !slice_in by lia. f_equal. unfold st. rewrite <- EL at 1. rewrite skipn_app, skipn_all, Nat.sub_diag. reflexivity. }
  assert (firstn (Z.to_nat a) st = map f (firstn (Z.to_nat a) rows)) as ->.
  { unfold st. rewrite <- EL at 1. rewrite firstn_app, firstn_all, Nat.sub_diag. cbn [firstn]. apply app_nil_r. }
  assert (skipn (Z.to_nat y) st = skipn (Z.to_nat y) rows) as ->.
  { unfold st. rewrite skipn_app, EL. rewrite (skipn_all2 (map f _)) by lia. cbn [app]. rewrite skipn_skipn'. f_equal. lia. }
  rewrite app_assoc, <- map_app. do 2 f_equal. rewrite slice_in by lia.
  pose proof (firstn_skipn_app (Z.to_nat a) (Z.to_nat (y - a)) 0 rows) as FE. cbn [skipn Nat.add] in FE. rewrite FE. f_equal. lia.
Qed.

Lemma norm_loop_all : forall m s batch (rows : mat), (0 < batch)%Z ->
  norm_loop m s (norm_steps (Z.of_nat (length rows)) batch) rows = Ok (map (scale_row m s) rows).
Proof.
  intros m s batch rows Hb. rewrite norm_steps_ranges by auto.
  pose proof (norm_loop_tiles m s batch _ 0 (0 + Z.of_nat (length rows)) rows (ranges_tiles batch 0 (Z.of_nat (length rows)) Hb ltac:(lia)) ltac:(lia) ltac:(lia)) as H.
  rewrite Z.add_0_l, Nat2Z.id in H. rewrite firstn_all, skipn_all in H. cbn [Z.to_nat firstn skipn map app] in H.
  rewrite app_nil_r in H. exact H.
Qed.

(** C42, second part: applying given parameters (numpy vectors) *)
Theorem normalize_given : forall ac f m s b,
  (0 < match b with Some b => b | None => h_chunk f end)%Z -> length (pv m) = h_cols f -> length s = h_cols f ->
  let s' := map (fun x => if neqb x n0 then n1 else x) s in
  normalize_hdf5 ac f (Some m) (Some (PArr s)) b =
    (Ok (pv m, s'), mkNode (h_cols f) (map (scale_row (pv m) s') (h_rows f)) (h_chunk f) (AVec (pv m)) (AVec s), Some s').
Proof.
  intros ac f m s b Hb Hm Hs s'. unfold normalize_hdf5. destruct (Z.eqb_spec (match b with Some b => b | None => h_chunk f end) 0); [lia|].
  cbn [pv]. rewrite Hm, Hs, Nat.eqb_refl. cbn [negb fix_std]. fold s'. rewrite norm_loop_all by exact Hb. reflexivity.
Qed.

(** without parameters nothing is applied *)
Theorem normalize_keeps_rows : forall ac f m s b r f' c, (m = None \/ s = None) ->
  normalize_hdf5 ac f m s b = (r, f', c) -> h_rows f' = h_rows f /\ h_cols f' = h_cols f.
Proof.
  intros ac f m s b r f' c H E. unfold normalize_hdf5 in E.
  destruct (Z.eqb _ 0); [injection E as <- <- <-; auto|].
  assert (match m, s with Some _, Some _ => False | _, _ => True end) as HN by (destruct H as [->| ->]; [|destruct m]; exact I).
  destruct m, s; try contradiction;
  (destruct (h_mean f); [injection E as <- <- <-; auto|
     destruct (mean_std _ _ _); injection E as <- <- <-; auto|
     destruct ac; [destruct (h_std f)|]; injection E as <- <- <-; auto]).
Qed.

(** ** C54 *)
Lemma append_rows_ok : forall w rows acc, Forall (fun r => length r = w) rows -> append_rows w acc rows = (acc ++ rows, Ok tt).
Proof.
  intros w. induction rows as [|r rows IH]; intros acc H; [cbn; now rewrite app_nil_r|]. inversion H; subst.
  cbn [append_rows]. rewrite Nat.eqb_refl, IH by auto. now rewrite <- app_assoc.
Qed.
Theorem make_array : forall a m c lev ch, two_dim a = Ok (c, m) -> (lev < 10)%Z ->
  make_hdf5 (InArr a) lev ch = (Ok tt, Some (mkNode c m ch ANone ANone)).
Proof. intros a m c lev ch H Hl. unfold make_hdf5. destruct (Z.leb_spec 10 lev); [lia|]. now rewrite H. Qed.
Theorem make_text : forall r rows lev ch, Forall (fun x => length x = length r) rows -> (lev < 10)%Z ->
  make_hdf5 (InText (r :: rows)) lev ch = (Ok tt, Some (mkNode (length r) (r :: rows) ch ANone ANone)).
Proof.
  intros r rows lev ch H Hl. unfold make_hdf5. destruct (Z.leb_spec 10 lev); [lia|].
  rewrite append_rows_ok by (constructor; auto). reflexivity.
Qed.
Theorem make_shape : forall r c lev ch, (lev < 10)%Z ->
  make_hdf5 (InShape (Z.of_nat r) (Z.of_nat c)) lev ch = (Ok tt, Some (mkNode c (zero_mat r c) ch ANone ANone)).
Proof.
  intros r c lev ch Hl. unfold make_hdf5. destruct (Z.leb_spec 10 lev); [lia|].
  destruct (Z.ltb_spec (Z.of_nat r) 0); [lia|]. destruct (Z.ltb_spec (Z.of_nat c) 0); [lia|]. cbn [orb]. now rewrite !Nat2Z.id.
Qed.
(** .gz / .bz2: more than one row and more than one column *)
Theorem make_gz : forall r r2 rows lev ch, Forall (fun x => length x = length r) (r2 :: rows) -> length r <> 1%nat -> (lev < 10)%Z ->
  make_hdf5 (InGz (r :: r2 :: rows)) lev ch = (Ok tt, Some (mkNode (length r) (r :: r2 :: rows) ch ANone ANone)).
Proof.
  intros r r2 rows lev ch H Hr Hl. unfold make_hdf5. destruct (Z.leb_spec 10 lev); [lia|]. unfold loadtxt.
  assert (forallb (fun x => (length x =? length r)%nat) (r2 :: rows) = true) as ->.
  { apply forallb_forall. intros x Hx. apply Nat.eqb_eq. rewrite Forall_forall in H. now apply H. }
  destruct r as [|a [|a2 r]]; [reflexivity|cbn in Hr; lia|reflexivity].
Qed.
(** one column: the same *)
Theorem make_gz_column : forall r r2 rows lev ch, Forall (fun x => length x = 1%nat) (r :: r2 :: rows) -> (lev < 10)%Z ->
  make_hdf5 (InGz (r :: r2 :: rows)) lev ch = (Ok tt, Some (mkNode 1 (r :: r2 :: rows) ch ANone ANone)).
Proof.
  intros r r2 rows lev ch H Hl. unfold make_hdf5. destruct (Z.leb_spec 10 lev); [lia|]. unfold loadtxt.
  assert (map (fun x => [x]) (concat (r :: r2 :: rows)) = r :: r2 :: rows) as EC.
  { clear -H. induction H as [|x l Hx _ IH]; [reflexivity|]. destruct x as [|a [|]]; try discriminate. cbn [concat map app]. now rewrite IH. }
  inversion H as [|? ? H1 H2]; subst. rewrite H1.
  assert (forallb (fun x => (length x =? 1)%nat) (r2 :: rows) = true) as ->.
  { apply forallb_forall. intros x Hx. apply Nat.eqb_eq. rewrite Forall_forall in H2. now apply H2. }
  destruct r as [|a [|]]; try discriminate. cbn [two_dim]. rewrite EC. reflexivity.
Qed.
(** one row: it becomes a column *)
Theorem make_gz_row : forall a b r lev ch, (lev < 10)%Z ->
  make_hdf5 (InGz [a :: b :: r]) lev ch = (Ok tt, Some (mkNode 1 (map (fun x => [x]) (a :: b :: r)) ch ANone ANone)).
Proof. intros a b r lev ch Hl. unfold make_hdf5. destruct (Z.leb_spec 10 lev); [lia|]. reflexivity. Qed.

(** a failed call for a text file leaves a file with the rows before the bad one *)
Theorem make_text_ragged : forall r good bad rest lev ch, Forall (fun x => length x = length r) good -> length bad <> length r -> (lev < 10)%Z ->
  make_hdf5 (InText (r :: good ++ bad :: rest)) lev ch = (Err ValueError, Some (mkNode (length r) (r :: good) ch NoAttr NoAttr)).
Proof.
  intros r good bad rest lev ch H Hb Hl. unfold make_hdf5. destruct (Z.leb_spec 10 lev); [lia|].
  assert (forall acc, append_rows (length r) acc (good ++ bad :: rest) = (acc ++ good, Err ValueError)) as HA.
  { clear -H Hb. induction H as [|x l Hx _ IH]; intros acc; cbn [app append_rows].
    - destruct (Nat.eqb_spec (length bad) (length r)); [congruence|]. now rewrite app_nil_r.
    - rewrite Hx, Nat.eqb_refl, IH. now rewrite <- app_assoc. }
  cbn [append_rows]. rewrite Nat.eqb_refl. rewrite HA. reflexivity.
Qed.
End Any.

#[local] Existing Instance NumR.
Local Open Scope R_scope.

(** statistics of a list of numbers *)
Definition pop_mean (l : list R) : R := Rsum l / INR (length l).
Definition pop_std (l : list R) : R := sqrt (Rsum (map (fun x => (x - pop_mean l) ^ 2) l) / INR (length l)).
Definition column (rows : list (list R)) (j : nat) : list R := map (fun x => nth j x 0) rows.

Lemma Rsum_cons : forall x l, Rsum (x :: l) = x + Rsum l. Proof. reflexivity. Qed.
Lemma Rsum_nil : Rsum [] = 0. Proof. reflexivity. Qed.
Lemma Rsum_app : forall l m, Rsum (l ++ m) = Rsum l + Rsum m.
Proof. induction l as [|x l IH]; intros m; [cbn [app]; rewrite Rsum_nil; lra|]. cbn [app]. rewrite !Rsum_cons, IH. lra. Qed.
Lemma Rsum_scal : forall {A} (f : A -> R) k l, Rsum (map (fun x => f x * k) l) = Rsum (map f l) * k.
Proof. intros A f k. induction l as [|x l IH]; [cbn [map]; rewrite ?Rsum_nil; lra|]. cbn [map]. rewrite !Rsum_cons, IH. lra. Qed.
Lemma Rsum_plus : forall {A} (f g : A -> R) l, Rsum (map (fun x => f x + g x) l) = Rsum (map f l) + Rsum (map g l).
Proof. intros A f g. induction l as [|x l IH]; [cbn [map]; rewrite ?Rsum_nil; lra|]. cbn [map]. rewrite !Rsum_cons, IH. lra. Qed.
Lemma Rsum_const : forall {A} k (l : list A), Rsum (map (fun _ => k) l) = INR (length l) * k.
Proof. intros A k. induction l as [|x l IH]; [cbn [map length INR]; rewrite ?Rsum_nil; lra|]. cbn [map length]. rewrite Rsum_cons, IH, S_INR. lra. Qed.
Lemma Rsum_nonneg : forall l, (forall x, In x l -> 0 <= x) -> 0 <= Rsum l.
Proof. induction l as [|x l IH]; intros H; [rewrite Rsum_nil; lra|]. rewrite Rsum_cons. pose proof (H x (or_introl eq_refl)). assert (0 <= Rsum l) by (apply IH; intros; apply H; now right). lra. Qed.

Definition sq (x : R) : R := x * x.
Lemma col_mean_get : forall d (M : list (list R)) j, (j < d)%nat -> @vget NumR (@col_mean NumR d M) j = Rsum (column M j) / INR (length M).
Proof. intros d M j Hj. unfold col_mean. rewrite vget_mkv by auto. rewrite nof_nat_INR. reflexivity. Qed.
Lemma column_sq : forall (M : list (list R)) j, column (map (map sq) M) j = map sq (column M j).
Proof.
  intros M j. unfold column. rewrite !map_map. apply map_ext. intros x. rewrite <- (map_nth sq). f_equal. unfold sq. lra.
Qed.
Lemma vget_map : forall (f : R -> R) v j, (j < length v)%nat -> @vget NumR (map f v) j = f (@vget NumR v j).
Proof. intros f v j H. unfold vget. cbn [num n0 NumR]. rewrite nth_indep with (d' := f 0) by (now rewrite map_length). apply map_nth. Qed.

Lemma moments_entry : forall d (v : list R) (M : list (list R)) (w : R) j, length v = d -> (j < d)%nat ->
  @vget NumR (@vadd NumR v (map (fun x => @nmul NumR x w) (@col_mean NumR d M))) j = @vget NumR v j + Rsum (column M j) / INR (length M) * w.
Proof.
  intros d v M w j Hv Hj. assert (@length R (@col_mean NumR d M) = d) as HL by exact (mkv_length _ _).
  etransitivity; [apply vget_vadd; [change (j < @length R v)%nat; rewrite Hv; exact Hj|change (@length R v = @length R (map (fun x => @nmul NumR x w) (@col_mean NumR d M))); rewrite map_length, Hv; symmetry; exact HL]|].
  cbn [nadd NumR]. f_equal. etransitivity; [apply (vget_map (fun x => @nmul NumR x w)); rewrite HL; exact Hj|].
  cbn [nmul NumR]. f_equal. apply col_mean_get. exact Hj.
Qed.

Lemma moments_tiles : forall d (rows : list (list R)) batch rs a b acc, rows <> [] -> tiles batch a b rs -> (0 <= a)%Z -> (b <= Z.of_nat (length rows))%Z ->
  length (fst acc) = d -> length (snd acc) = d ->
  let r := fold_left (fun acc ss =>
      let X1 := slice rows (fst ss) (fst ss + snd ss) in
      let w := @ndiv NumR (@nof_nat NumR (Z.to_nat (snd ss))) (@nof_nat NumR (length rows)) in
      (@vadd NumR (fst acc) (map (fun x => @nmul NumR x w) (@col_mean NumR d X1)),
       @vadd NumR (snd acc) (map (fun x => @nmul NumR x w) (@col_mean NumR d (map (map (fun x => @nmul NumR x x)) X1))))) (map step_of rs) acc in
  length (fst r) = d /\ length (snd r) = d /\
  forall j, (j < d)%nat ->
    @vget NumR (fst r) j = @vget NumR (fst acc) j + Rsum (column (slice rows a b) j) / INR (length rows) /\
    @vget NumR (snd r) j = @vget NumR (snd acc) j + Rsum (map sq (column (slice rows a b) j)) / INR (length rows).
Proof.
  intros d rows batch. induction rs as [|[x y] rs IH]; intros a b acc Hne Ht Ha Hb L1 L2; cbn [tiles] in Ht.
  { subst b. cbn [map fold_left]. split; [exact L1|]. split; [exact L2|]. intros j Hj. rewrite slice_empty. cbn. unfold Rdiv. rewrite !Rmult_0_l. lra. }
  destruct Ht as (-> & H1 & H2 & H3). pose proof (tiles_le _ _ _ _ H3) as Hyb. cbn [map fold_left step_of fst snd].
  replace (a + (y - a))%Z with y by lia.
  set (X1 := slice rows a y). set (w := @ndiv NumR _ _).
  assert (length X1 = Z.to_nat (y - a)) as EL by (unfold X1; rewrite slice_length_in; lia).
  assert (0 < INR (length rows)) as HN by (apply lt_0_INR; destruct rows; [congruence|cbn; lia]).
  assert (0 < INR (Z.to_nat (y - a))) as HS by (apply lt_0_INR; lia).
  assert (w = INR (Z.to_nat (y - a)) / INR (length rows)) as Ew by (unfold w; rewrite !nof_nat_INR; reflexivity).
  set (acc1 := (@vadd NumR (fst acc) (map (fun x => @nmul NumR x w) (@col_mean NumR d X1)), @vadd NumR (snd acc) (map (fun x => @nmul NumR x w) (@col_mean NumR d (map (map (fun x => @nmul NumR x x)) X1))))).
  assert (length (fst acc1) = d /\ length (snd acc1) = d) as [M1 M2].
  { unfold acc1. cbn [fst snd]. unfold vadd. rewrite !map2_length, !map_length, L1, L2. unfold col_mean. rewrite !mkv_length. lia. }
  destruct (IH y b acc1 Hne H3 ltac:(lia) Hb M1 M2) as (R1 & R2 & R3). split; [exact R1|]. split; [exact R2|].
  intros j Hj. destruct (R3 j Hj) as [P1 P2].
  assert (slice rows a b = X1 ++ slice rows y b) as ES by (unfold X1; symmetry; apply slice_app; lia).
  rewrite ES. unfold column at 1 2. rewrite !map_app, !Rsum_app. fold (column X1 j). fold (column (slice rows y b) j).
  split.
  - etransitivity; [exact P1|]. unfold acc1. cbn [fst]. rewrite moments_entry by auto. rewrite Ew, EL. match goal with |- @eq _ ?a ?b => change (@eq R a b) end. field. lra.
  - etransitivity; [exact P2|]. unfold acc1. cbn [snd]. rewrite moments_entry by auto. change (map (fun x => @nmul NumR x x)) with (map sq). rewrite column_sq, map_length.
    rewrite Ew. change (@length (list R) X1 = Z.to_nat (y - a)) in EL. match goal with |- @eq _ ?a ?b => change (@eq R a b) end. change (@length (list (@num NumR)) X1) with (@length (list R) X1). rewrite EL. match goal with |- @eq _ ?a ?b => change (@eq R a b) end. field. lra.
Qed.

Lemma variance : forall l : list R, l <> [] ->
  Rsum (map sq l) / INR (length l) - pop_mean l * pop_mean l = Rsum (map (fun x => (x - pop_mean l) ^ 2) l) / INR (length l).
Proof.
  intros l Hl. assert (0 < INR (length l)) as HN by (apply lt_0_INR; destruct l; [congruence|cbn; lia]).
  set (m := pop_mean l). assert (Rsum (map (fun x => (x - m) ^ 2) l) = Rsum (map sq l) - 2 * m * Rsum l + INR (length l) * (m * m)) as ->.
  { clearbody m. clear. induction l as [|x l IH]; [cbn [map length INR]; rewrite ?Rsum_nil; lra|]. cbn [map length]. rewrite !Rsum_cons, IH, S_INR. unfold sq. lra. }
  assert (Rsum l = m * INR (length l)) as -> by (unfold m, pop_mean; field; lra). field. lra.
Qed.

(** C42, first part *)
Theorem mean_std_spec : forall d (rows : list (list R)) batch, (0 < batch)%Z -> rows <> [] ->
  exists m s, @mean_std NumR d rows (norm_steps (Z.of_nat (length rows)) batch) = (m, s) /\ length m = d /\ length s = d /\
    forall j, (j < d)%nat -> nth j m 0 = pop_mean (column rows j) /\ nth j s 0 = pop_std (column rows j).
Proof.
  intros d rows batch Hb Hne. unfold mean_std, moments. rewrite norm_steps_ranges by auto.
  destruct (moments_tiles d rows batch _ 0 (0 + Z.of_nat (length rows)) (@mkv NumR d (fun _ => 0), @mkv NumR d (fun _ => 0)) Hne
    (ranges_tiles batch 0 (Z.of_nat (length rows)) Hb ltac:(lia)) ltac:(lia) ltac:(lia) (mkv_length _ _) (mkv_length _ _)) as (L1 & L2 & HV).
  cbn [NumR num n0] in *.
  match type of L1 with length (fst ?t) = _ => set (r := t) in * end.
  match goal with |- exists m s, (let '(_, _) := ?t in _) = _ /\ _ => change t with r end.
  clearbody r. destruct r as [ex ex2]. cbn [fst snd] in *. do 2 eexists. split; [reflexivity|]. split; [exact L1|]. split; [exact (@mkv_length NumR _ _)|].
  intros j Hj. destruct (HV j Hj) as [V1 V2]. rewrite !vget_mkv in V1, V2 by exact Hj.
  rewrite Z.add_0_l, slice_all in V1, V2.
  assert (length (column rows j) = length rows) as EL by (unfold column; now rewrite map_length).
  assert (@vget NumR ex j = pop_mean (column rows j)) as E1 by (unfold pop_mean; rewrite EL, V1; lra).
  split; [exact E1|]. change (nth j (@mkv NumR d ?f) 0) with (@vget NumR (@mkv NumR d f) j). rewrite vget_mkv by exact Hj.
  cbn [nsqrt nsub nmul NumR]. unfold pop_std. rewrite <- variance by (intros C; rewrite C in EL; destruct rows; [congruence|discriminate]).
  rewrite E1, V2, EL. f_equal. lra.
Qed.

(** normalize_hdf5 without parameters on a file that was not normalized *)
Theorem normalize_fresh : forall ac (f : @h5node NumR) m0 s0 b, (m0 = None \/ s0 = None) ->
  (0 < match b with Some b => b | None => h_chunk f end)%Z -> h_rows f <> [] -> h_mean f = @ANone NumR ->
  exists m s, normalize_hdf5 ac f m0 s0 b =
      (Ok (m, s), mkNode (h_cols f) (h_rows f) (h_chunk f) (@AVec NumR m) (@AVec NumR s), match s0 with Some s => Some (pv s) | None => None end) /\
    length m = h_cols f /\ length s = h_cols f /\
    forall j, (j < h_cols f)%nat -> nth j m 0 = pop_mean (column (h_rows f) j) /\ nth j s 0 = pop_std (column (h_rows f) j).
Proof.
  intros ac f m0 s0 b H0 Hb Hne Hm.
  destruct (mean_std_spec (h_cols f) (h_rows f) _ Hb Hne) as (m & s & E & L1 & L2 & HV). exists m, s.
  split; [|split; [exact L1|split; [exact L2|exact HV]]]. unfold normalize_hdf5.
  destruct (Z.eqb_spec (match b with Some b => b | None => h_chunk f end) 0); [lia|].
  rewrite Hm. cbn [num NumR] in *. destruct H0 as [-> | ->]; [|destruct m0 as [?|]]; rewrite E; reflexivity.
Qed.

(** entries of a scaled row *)
Lemma scale_row_nth : forall (m s x : list R) j, (j < length x)%nat -> length m = length x -> length s = length x ->
  nth j (@scale_row NumR m s x) 0 = (nth j x 0 - nth j m 0) / nth j s 0.
Proof.
  induction m as [|a m IH]; intros s x j Hj Hm Hs; destruct x as [|c x]; try discriminate; [cbn in Hj; lia|].
  destruct s as [|d s]; [discriminate|]. destruct j as [|j]; [reflexivity|]. cbn [length] in *.
  apply (IH s x j); lia.
Qed.

Lemma pop_std_zero : forall l : list R, l <> [] -> pop_std l = 0 -> forall x, In x l -> x = pop_mean l.
Proof.
  intros l Hl H x Hx. unfold pop_std in H. set (m := pop_mean l) in *. clearbody m.
  assert (0 < INR (length l)) as HN by (apply lt_0_INR; destruct l; [congruence|cbn; lia]).
  assert (forall l, 0 <= Rsum (map (fun x => (x - m) ^ 2) l)) as HP.
  { intros k. apply Rsum_nonneg. intros z Hz. apply in_map_iff in Hz as (w & <- & _). apply pow2_ge_0. }
  assert (Rsum (map (fun x => (x - m) ^ 2) l) = 0) as HZ.
  { apply sqrt_eq_0 in H; [|apply Rmult_le_pos; [apply HP|left; now apply Rinv_0_lt_compat]].
    unfold Rdiv in H. apply Rmult_integral in H as [H|H]; [exact H|]. pose proof (Rinv_0_lt_compat _ HN). lra. }
  clear H HN Hl. induction l as [|y l IH]; [destruct Hx|]. cbn [map] in HZ. rewrite Rsum_cons in HZ.
  pose proof (HP l). pose proof (pow2_ge_0 (y - m)). destruct Hx as [->|Hx]; [|apply IH; auto; lra].
  assert ((x - m) * (x - m) = 0) as Q by (cbn [pow] in *; lra). apply Rmult_integral in Q. lra.
Qed.

Lemma pop_mean_scaled : forall (l : list R) m s, l <> [] -> s <> 0 -> pop_mean (map (fun x => (x - m) / s) l) = (pop_mean l - m) / s.
Proof.
  intros l m s Hl Hs. unfold pop_mean. rewrite map_length.
  assert (0 < INR (length l)) as HN by (apply lt_0_INR; destruct l; [congruence|cbn; lia]).
  assert (Rsum (map (fun x => (x - m) / s) l) = (Rsum l - INR (length l) * m) / s) as ->; [|field; split; [lra|exact Hs]].
  clear HN Hl. induction l as [|x l IH]; [cbn [map length INR]; rewrite !Rsum_nil; field; exact Hs|].
  cbn [map length]. rewrite !Rsum_cons, IH, S_INR. field. exact Hs.
Qed.

Lemma normalized_mean : forall l : list R, l <> [] -> forall s, s <> 0 -> pop_mean (map (fun x => (x - pop_mean l) / s) l) = 0.
Proof. intros l Hl s Hs. rewrite pop_mean_scaled by auto. field. exact Hs. Qed.

Lemma normalized_std : forall l : list R, l <> [] -> pop_std l <> 0 -> pop_std (map (fun x => (x - pop_mean l) / pop_std l) l) = 1.
Proof.
  intros l Hl Hs. unfold pop_std at 1. rewrite normalized_mean by auto. rewrite map_map, map_length.
  assert (0 < INR (length l)) as HN by (apply lt_0_INR; destruct l; [congruence|cbn; lia]).
  set (V := Rsum (map (fun x => (x - pop_mean l) ^ 2) l)).
  assert (0 <= V / INR (length l)) as HV.
  { apply Rmult_le_pos; [|left; now apply Rinv_0_lt_compat]. apply Rsum_nonneg. intros z Hz. apply in_map_iff in Hz as (w & <- & _). apply pow2_ge_0. }
  assert (pop_std l * pop_std l = V / INR (length l)) as HQ by (unfold pop_std; fold V; apply sqrt_sqrt; exact HV).
  assert (Rsum (map (fun x => ((x - pop_mean l) / pop_std l - 0) ^ 2) l) = V / (pop_std l * pop_std l)) as ->.
  { unfold V. set (m := pop_mean l). set (s := pop_std l) in *. clearbody m s. clear -Hs. induction l as [|x l IH]; [cbn [map]; rewrite !Rsum_nil; field; exact Hs|].
    cbn [map]. rewrite !Rsum_cons, IH. field. exact Hs. }
  rewrite HQ. assert (V <> 0) as HV0. { intros C. rewrite C in HQ. unfold Rdiv in HQ. rewrite Rmult_0_l in HQ. apply Rmult_integral in HQ. tauto. }
  replace (V / (V / INR (length l)) / INR (length l)) with 1 by (field; split; lra). apply sqrt_1.
Qed.

(** C43, what holds: computing the parameters and applying them in a second call *)
Theorem normalize_two_calls : forall ac (f : @h5node NumR) b b',
  (0 < match b with Some b => b | None => h_chunk f end)%Z -> (0 < match b' with Some b => b | None => h_chunk f end)%Z ->
  h_rows f <> [] -> h_mean f = @ANone NumR -> Forall (fun x => length x = h_cols f) (h_rows f) ->
  exists m s f1 s' f2, normalize_hdf5 ac f None None b = (Ok (m, s), f1, None) /\
    normalize_hdf5 ac f1 (Some (PArr m)) (Some (PArr s)) b' = (Ok (m, s'), f2, Some s') /\
    length (h_rows f2) = length (h_rows f) /\ h_cols f2 = h_cols f /\ h_mean f2 = @AVec NumR m /\
    forall j, (j < h_cols f)%nat ->
      pop_mean (column (h_rows f2) j) = 0 /\
      (pop_std (column (h_rows f) j) <> 0 -> pop_std (column (h_rows f2) j) = 1) /\
      (pop_std (column (h_rows f) j) = 0 -> forall x, In x (column (h_rows f2) j) -> x = 0).
Proof.
  intros ac f b b' Hb Hb' Hne Hm HW.
  destruct (normalize_fresh ac f None None b ltac:(auto) Hb Hne Hm) as (m & s & E & L1 & L2 & HV).
  set (f1 := mkNode (h_cols f) (h_rows f) (h_chunk f) (@AVec NumR m) (@AVec NumR s)).
  exists m, s, f1. pose proof (normalize_given ac f1 (PArr m) s b' Hb' L1 L2) as E2. cbn zeta in E2. cbn [pv] in E2.
  set (s' := map (fun x => if @neqb NumR x (@n0 NumR) then @n1 NumR else x) s) in *. do 2 eexists.
  split; [exact E|]. split; [exact E2|]. split; [cbn; apply map_length|]. split; [reflexivity|]. split; [reflexivity|].
  intros j Hj. cbn [h_rows f1]. destruct (HV j Hj) as [Vm Vs].
  assert (length s' = h_cols f) as L3 by (unfold s'; rewrite map_length; exact L2).
  assert (nth j s' 0 = if Req_EM_T (nth j s 0) 0 then 1 else nth j s 0) as Es.
  { unfold s'. rewrite (nth_indep _ 0 (if @neqb NumR 0 (@n0 NumR) then @n1 NumR else 0)) by (rewrite map_length; cbn [num NumR] in *; lia).
    etransitivity; [exact (map_nth (fun x => if @neqb NumR x (@n0 NumR) then @n1 NumR else x) s 0 j)|]. cbn [neqb NumR n0 n1]. cbv [Reqb]. destruct (Req_EM_T (nth j s 0) 0); reflexivity. }
  set (col := column (h_rows f) j) in *.
  assert (col <> []) as Hc by (unfold col, column; destruct (h_rows f); [congruence|discriminate]).
  assert (column (map (scale_row m s') (h_rows f)) j = map (fun x => (x - pop_mean col) / nth j s' 0) col) as EC.
  { unfold col at 2. unfold column. rewrite !map_map. apply map_ext_in. intros x Hx. rewrite Forall_forall in HW. specialize (HW _ Hx).
    etransitivity; [apply (scale_row_nth m s' x j); cbn [num NumR] in *; lia|]. rewrite <- Vm. reflexivity. }
  rewrite EC. rewrite Vs in Es. split; [|split].
  - apply normalized_mean; [exact Hc|]. rewrite Es. destruct (Req_EM_T (pop_std col) 0); lra.
  - intros Hs. rewrite Es. destruct (Req_EM_T (pop_std col) 0); [contradiction|]. now apply normalized_std.
  - intros Hs x Hx. apply in_map_iff in Hx as (y & <- & Hy). rewrite (pop_std_zero col Hc Hs y Hy).
    rewrite Es. destruct (Req_EM_T (pop_std col) 0); [|contradiction]. lra.
Qed.

(** the same by entries *)
Theorem normalize_entries : forall ac (f : @h5node NumR) (m s : list R) b,
  (0 < match b with Some b => b | None => h_chunk f end)%Z -> length m = h_cols f -> length s = h_cols f ->
  Forall (fun x => length x = h_cols f) (h_rows f) ->
  exists s' f', normalize_hdf5 ac f (Some (PArr m)) (Some (PArr s)) b = (Ok (m, s'), f', Some s') /\
    h_cols f' = h_cols f /\ length (h_rows f') = length (h_rows f) /\ length s' = h_cols f /\
    (forall j, (j < h_cols f)%nat -> nth j s' 0 = if Req_EM_T (nth j s 0) 0 then 1 else nth j s 0) /\
    forall i j, (i < length (h_rows f))%nat -> (j < h_cols f)%nat ->
      nth j (nth i (h_rows f') []) 0 = (nth j (nth i (h_rows f) []) 0 - nth j m 0) / nth j s' 0.
Proof.
  intros ac f m s b Hb Hm Hs Hw.
  pose proof (@normalize_given NumR ac f (PArr m) s b Hb Hm Hs) as E. cbv zeta in E. cbn [pv] in E.
  set (s' := map (fun x => if @neqb NumR x (@n0 NumR) then @n1 NumR else x) s) in *.
  assert (L' : length s' = h_cols f) by (unfold s'; rewrite map_length; exact Hs).
  eexists s', _. split; [exact E|]. cbn [h_cols h_rows]. split; [reflexivity|]. split; [apply map_length|]. split; [exact L'|]. split.
  - intros j Hj. unfold s'.
    rewrite (nth_indep _ 0 ((fun x : R => if @neqb NumR x (@n0 NumR) then @n1 NumR else x) 0)) by (rewrite map_length; cbn [num NumR] in *; rewrite Hs; exact Hj).
    match goal with |- nth j (map ?g s) ?d = _ => change (nth j (map g s) (g 0) = if Req_EM_T (nth j s 0) 0 then 1 else nth j s 0) end.
    rewrite map_nth. set (y := @nth R j s 0).
    change ((if @neqb NumR y 0 then 1 else y) = (if Req_EM_T y 0 then 1 else y)). clearbody y.
    cbn [neqb NumR]. unfold Reqb. destruct (Req_EM_T y 0); reflexivity.
  - intros i j Hi Hj.
    assert (Lx : length (nth i (h_rows f) []) = h_cols f) by (rewrite Forall_forall in Hw; apply Hw, nth_In; exact Hi).
    rewrite (nth_indep _ [] (@scale_row NumR m s' [])) by (rewrite map_length; exact Hi).
    rewrite map_nth. cbn [num NumR] in *. apply scale_row_nth; [rewrite Lx; exact Hj|rewrite Lx; exact Hm|rewrite Lx; exact L'].
Qed.
