(** HPELM.predict and HPELM.project on ranges (C15, C16; every scalar type). *)
From Verif Require Import Base Num Mat LinAlg Slfn Strs Elm Hpelm MatFacts SplitProofs Spec ElmFacts WfProofs.

(** ** Specification: the samples istart .. min(istart+icount, N)-1 (icount absent: all that remain) *)
Definition range_of {A} (l : list A) (istart : nat) (icount : option nat) : list A :=
  match icount with None => skipn istart l | Some c => firstn c (skipn istart l) end.

Definition zcount (icount : option nat) : option Z := option_map Z.of_nat icount.

Lemma clip_bounds : forall n i c, i <= n ->
  (0 <= clip_count (zcount c) n (Z.of_nat i))%Z /\ (Z.of_nat i + clip_count (zcount c) n (Z.of_nat i) <= Z.of_nat n)%Z.
Proof. intros n i [c|] H; cbn; lia. Qed.

Lemma slice_range : forall {A} (l : list A) i c, i <= length l ->
  slice l (Z.of_nat i) (Z.of_nat i + clip_count (zcount c) (length l) (Z.of_nat i)) = range_of l i c.
Proof.
  intros A l i c H. pose proof (clip_bounds (length l) i c H). rewrite slice_in by lia. rewrite Nat2Z.id.
  destruct c as [c|]; cbn [range_of zcount option_map clip_count].
  - destruct (Nat.le_gt_cases c (length l - i)).
    + f_equal. lia.
    + rewrite !firstn_all2; auto; rewrite skipn_length; lia.
  - apply firstn_all2. rewrite skipn_length. lia.
Qed.

Lemma range_of_map : forall {A B} (f : A -> B) l i c, range_of (map f l) i c = map f (range_of l i c).
Proof. intros. destruct c; cbn; rewrite ?skipn_map, ?firstn_map; auto. Qed.
Lemma range_of_length : forall {A} (l : list A) i c, i <= length l ->
  Z.of_nat (length (range_of l i c)) = clip_count (zcount c) (length l) (Z.of_nat i).
Proof. intros A l i [c|] H; cbn; rewrite ?firstn_length, skipn_length; lia. Qed.

Lemma nbatches_eq : forall n b, (0 < b)%Z -> nbatches n b = Ok (ceil_div n b).
Proof.
  intros. unfold nbatches. destruct (Z.eqb_spec b 0); [lia|].
  rewrite Z.sgn_pos, Z.abs_eq, Z.mul_1_r by lia. reflexivity.
Qed.

Lemma slice_assign_in : forall {A} (l rows : list A) a b, (0 <= a <= b)%Z -> (b <= Z.of_nat (length l))%Z ->
  Z.of_nat (length rows) = (b - a)%Z ->
  slice_assign l a b rows = Ok (firstn (Z.to_nat a) l ++ rows ++ skipn (Z.to_nat b) l).
Proof.
  intros A l rows a b H1 H2 H3. unfold slice_assign. rewrite !py_bound_in by lia.
  destruct (Nat.eqb_spec (length rows) (Z.to_nat b - Z.to_nat a)); [|lia].
  do 4 f_equal. lia.
Qed.

Lemma skipn_twice : forall {A} n m (l : list A), skipn n (skipn m l) = skipn (m + n) l.
Proof. induction m; intros l; cbn; auto. destruct l; auto. now rewrite skipn_nil. Qed.

Section Ranges.
Context {K : Num} {SG : Sing}.

Lemma store_loop_tiles : forall (f : mat -> res mat) (g : vec -> vec) place (X : mat) istart batch b,
  (forall a b, f (slice X a b) = Ok (map g (slice X a b))) ->
  (forall ab, place ab = (fst ab - istart, snd ab - istart)%Z) -> (0 <= istart)%Z -> (b <= Z.of_nat (length X))%Z ->
  forall rs a Y, tiles batch a b rs -> (istart <= a)%Z -> (b - istart <= Z.of_nat (length Y))%Z ->
  store_loop f place X rs Y =
    Ok (firstn (Z.to_nat (a - istart)) Y ++ map g (slice X a b) ++ skipn (Z.to_nat (b - istart)) Y).
Proof.
  intros f g place X istart batch b Hf Hp Hi Hb. induction rs as [|[x y] r IH]; intros a Y Ht Ha HY.
  - cbn [tiles] in Ht. subst b. cbn [store_loop]. rewrite slice_empty. cbn [map app]. now rewrite firstn_skipn.
  - cbn [tiles] in Ht. destruct Ht as (-> & H1 & H2 & H3). cbn [store_loop fst snd]. rewrite Hf. cbn [rbind].
    rewrite Hp. cbn [fst snd].
    rewrite slice_assign_in by (rewrite ?map_length, ?slice_length_in; lia). cbn [rbind].
    pose proof (tiles_le _ _ _ _ H3).
    assert (length (firstn (Z.to_nat (a - istart)) Y) = Z.to_nat (a - istart)) as L1 by (rewrite firstn_length; lia).
    assert (length (map g (slice X a y)) = Z.to_nat (y - a)) as L2 by (rewrite map_length, slice_length_in; lia).
    rewrite (IH y) by (auto; rewrite ?app_length, ?L1, ?L2, ?skipn_length; lia).
    f_equal. set (P := firstn (Z.to_nat (a - istart)) Y) in *. set (M := map g (slice X a y)) in *.
    assert (firstn (Z.to_nat (y - istart)) (P ++ M ++ skipn (Z.to_nat (y - istart)) Y) = P ++ M) as ->.
    { rewrite app_assoc, firstn_app, app_length, L1, L2. rewrite firstn_all2 by (rewrite app_length; lia).
      replace (Z.to_nat (y - istart) - (Z.to_nat (a - istart) + Z.to_nat (y - a))) with 0 by lia. now rewrite app_nil_r. }
    assert (skipn (Z.to_nat (b - istart)) (P ++ M ++ skipn (Z.to_nat (y - istart)) Y) = skipn (Z.to_nat (b - istart)) Y) as ->.
    { rewrite app_assoc, skipn_app, app_length, L1, L2. rewrite skipn_all2 by (rewrite app_length; lia). cbn [app].
      rewrite skipn_twice. f_equal. lia. }
    unfold M. rewrite <- app_assoc. f_equal. rewrite app_assoc, <- map_app. f_equal. f_equal. apply slice_app; lia.
Qed.

(** a data argument holding the matrix X with c columns: an array or a file *)
Definition holds_data (d : src) (c : nat) (X : mat) : Prop := d = SArr (Arr2 c X) \/ d = SFile (Some (c, X)).

Lemma check_holds : forall d c X dim, holds_data d c X ->
  check_src d dim = if c =? dim then Ok X else Err AssertionError.
Proof. intros d c X dim [->| ->]; reflexivity. Qed.

Lemma Forall_wide_slice : forall c X a b, wide c X -> wide c (slice X a b).
Proof. intros. unfold wide. now apply Forall_slice. Qed.

Lemma predict_slices : forall e c X Y, elm_predict e (Arr2 c X) = Ok Y ->
  exists g B, s_B (e_net e) = Some B /\ s_neurons (e_net e) <> [] /\ c = s_inputs (e_net e) /\ Y = map g X /\
  forall a b, predict (e_net e) (slice X a b) = Ok (map g (slice X a b)).
Proof.
  intros e c X Y E. unfold elm_predict, check_arr in E. destruct (Nat.eqb_spec c (s_inputs (e_net e))); [|discriminate].
  cbn [rbind] in E. unfold predict in *. destruct (s_B (e_net e)) as [B|]; [|discriminate].
  destruct (project (e_net e) X) as [H|] eqn:EP; [|discriminate]. cbn [rbind] in E. apply Ok_inj in E.
  apply project_inv in EP. destruct EP as (HU & HX & ->).
  exists (fun x => mkv (s_outputs (e_net e)) (fun j => dotv (hrow (s_neurons (e_net e)) x) (mcol B j))), B.
  split; auto. split; [apply HU|]. split; auto. split; [subst Y; unfold mmul; now rewrite map_map|].
  intros a b. rewrite project_ok by (auto using Forall_wide_slice). cbn [rbind]. unfold mmul. now rewrite map_map.
Qed.

Lemma project_slices : forall e c X Y, elm_project e (Arr2 c X) = Ok Y ->
  exists g, s_neurons (e_net e) <> [] /\ c = s_inputs (e_net e) /\ Y = map g X /\
  forall a b, project (e_net e) (slice X a b) = Ok (map g (slice X a b)).
Proof.
  intros e c X Y E. unfold elm_project, check_arr in E. destruct (Nat.eqb_spec c (s_inputs (e_net e))); [|discriminate].
  cbn [rbind] in E. apply project_inv in E. destruct E as (HU & HX & ->).
  exists (hrow (s_neurons (e_net e))). split; [apply HU|]. split; auto. split; auto.
  intros. apply project_ok; auto using Forall_wide_slice.
Qed.

Theorem hp_predict_range : forall e d c X Y fY istart icount,
  (0 < e_batch e)%Z -> holds_data d c X -> istart <= length X ->
  elm_predict e (Arr2 c X) = Ok Y ->
  fY = DNew \/ fY = DFile ->
  hp_predict e d fY (Z.of_nat istart) (zcount icount) = Ok (range_of Y istart icount).
Proof.
  intros e d c X Y fY istart icount Hb Hd Hi E HY.
  destruct (predict_slices e c X Y E) as (g & B & EB & EN & -> & -> & Hg).
  unfold hp_predict. destruct (s_neurons (e_net e)); [congruence|]. rewrite EB.
  rewrite (check_holds d _ X _ Hd), Nat.eqb_refl. cbn [rbind]. rewrite nbatches_eq by auto. cbn [rbind].
  pose proof (clip_bounds (length X) istart icount Hi) as HC. set (cnt := clip_count _ _ _) in *.
  assert (match fY with DArr a => check_arr a (s_outputs (e_net e)) | _ => new_rows cnt (s_outputs (e_net e)) end
          = Ok (zero_mat (Z.to_nat cnt) (s_outputs (e_net e)))) as ->.
  { unfold new_rows. destruct (Z.ltb_spec cnt 0); [lia|]. destruct HY as [->| ->]; reflexivity. }
  cbn [rbind]. pose proof (ranges_tiles (e_batch e) (Z.of_nat istart) cnt Hb ltac:(lia)) as HT.
  erewrite store_loop_tiles; [| | | | |exact HT| |]; eauto; try lia.
  2:{ unfold zero_mat. rewrite mk_length. lia. }
  rewrite Z.sub_diag. cbn [firstn Z.to_nat app].
  rewrite skipn_all2 by (unfold zero_mat; rewrite mk_length; lia). rewrite app_nil_r.
  rewrite range_of_map. unfold cnt. now rewrite slice_range.
Qed.

(** writing into a given array: the first rows are replaced, the others kept *)
Theorem hp_predict_into : forall e d c X Y M istart icount,
  (0 < e_batch e)%Z -> holds_data d c X -> istart <= length X ->
  elm_predict e (Arr2 c X) = Ok Y -> length (range_of Y istart icount) <= length M ->
  hp_predict e d (DArr (Arr2 (s_outputs (e_net e)) M)) (Z.of_nat istart) (zcount icount) =
    Ok (range_of Y istart icount ++ skipn (length (range_of Y istart icount)) M).
Proof.
  intros e d c X Y M istart icount Hb Hd Hi E HM.
  destruct (predict_slices e c X Y E) as (g & B & EB & EN & -> & -> & Hg).
  unfold hp_predict. destruct (s_neurons (e_net e)); [congruence|]. rewrite EB.
  rewrite (check_holds d _ X _ Hd), Nat.eqb_refl. cbn [rbind]. rewrite nbatches_eq by auto. cbn [rbind check_arr].
  rewrite Nat.eqb_refl. cbn [rbind].
  pose proof (clip_bounds (length X) istart icount Hi) as HC.
  pose proof (range_of_length (map g X) istart icount ltac:(rewrite map_length; auto)) as HL. rewrite map_length in HL.
  set (cnt := clip_count _ _ _) in *.
  pose proof (ranges_tiles (e_batch e) (Z.of_nat istart) cnt Hb ltac:(lia)) as HT.
  erewrite store_loop_tiles; [| | | | |exact HT| |]; eauto; try lia.
  rewrite Z.sub_diag. cbn [firstn Z.to_nat app].
  f_equal. f_equal; [rewrite range_of_map; unfold cnt; now rewrite slice_range|]. f_equal. lia.
Qed.

(** project: only for istart = 0 *)
Theorem hp_project_from0 : forall e d c X H fH icount,
  (0 < e_batch e)%Z -> holds_data d c X ->
  elm_project e (Arr2 c X) = Ok H ->
  fH = DNew \/ fH = DFile ->
  hp_project e d fH 0 (zcount icount) = Ok (range_of H 0 icount).
Proof.
  intros e d c X Y fY icount Hb Hd E HY.
  destruct (project_slices e c X Y E) as (g & EN & -> & -> & Hg).
  unfold hp_project. destruct (s_neurons (e_net e)); [congruence|].
  rewrite (check_holds d _ X _ Hd), Nat.eqb_refl. cbn [rbind]. rewrite nbatches_eq by auto. cbn [rbind].
  pose proof (clip_bounds (length X) 0 icount ltac:(lia)) as HC. cbn [Z.of_nat] in HC.
  pose proof (slice_range X 0 icount ltac:(lia)) as HS. cbn [Z.of_nat] in HS. set (cnt := clip_count _ _ _) in *.
  match goal with |- context [rbind (match fY with DNew => ?a | _ => _ end)] => assert (a = Ok (zero_mat (Z.to_nat cnt) (getL (e_net e)))) as EZ end.
  { unfold new_rows. destruct (Z.ltb_spec cnt 0); [lia|]. reflexivity. }
  pose proof (ranges_tiles (e_batch e) 0 cnt Hb ltac:(lia)) as HT.
  destruct HY as [->| ->]; rewrite EZ; cbn [rbind].
  all: erewrite store_loop_tiles with (istart := 0%Z); [| | | | |exact HT| |]; eauto; try lia;
    [|intros [a b]; cbn [fst snd]; f_equal; lia|unfold zero_mat; rewrite mk_length; lia].
  all: rewrite Z.sub_diag; cbn [firstn Z.to_nat app];
    rewrite skipn_all2 by (unfold zero_mat; rewrite mk_length; lia); rewrite app_nil_r;
    rewrite range_of_map; now rewrite HS.
Qed.
End Ranges.
