(** C16: what HPELM.project does on a range that does not start at 0 (every scalar type).
    It stores each batch at H[start:stop-istart], hp_elm.py:285. *)
From Verif Require Import Base Num Mat LinAlg Slfn Strs Elm Hpelm MatFacts SplitProofs Spec ElmFacts RangeThms.
Local Open Scope nat_scope.

Lemma py_bound_mono : forall n a b, (0 <= a <= b)%Z -> py_bound n a <= py_bound n b.
Proof. intros n a b H. unfold py_bound. destruct (Z.ltb_spec a 0); [lia|]. destruct (Z.ltb_spec b 0); lia. Qed.
Lemma slice_assign_nothing : forall {A} (l : list A) a b r, (0 <= b <= a)%Z -> slice_assign l a b [r] = Ok l.
Proof.
  intros A l a b r H. unfold slice_assign. pose proof (py_bound_mono (length l) b a H).
  replace (py_bound (length l) b - py_bound (length l) a) with 0 by lia. cbn [length Nat.eqb repeat app].
  rewrite Nat.add_0_r, firstn_skipn. reflexivity.
Qed.
Lemma slice_assign_bad : forall {A} (l rows : list A) a b, (0 <= a)%Z -> (0 <= b)%Z -> (b - a < Z.of_nat (length rows))%Z ->
  2 <= length rows -> slice_assign l a b rows = Err ValueError.
Proof.
  intros A l rows a b Ha Hb H H2. unfold slice_assign.
  assert (py_bound (length l) b - py_bound (length l) a < length rows) as Q.
  { unfold py_bound. destruct (Z.ltb_spec a 0); [lia|]. destruct (Z.ltb_spec b 0); lia. }
  destruct (Nat.eqb_spec (length rows) (py_bound (length l) b - py_bound (length l) a)); [lia|].
  destruct rows as [|r [|r' q]]; cbn in H2; try lia. reflexivity.
Qed.

Section RangeProj.
Context {K : Num} {SG : Sing}.

Lemma store_nothing : forall (f : mat -> res mat) (g : vec -> vec) (X : mat) istart batch b,
  (forall a b, f (slice X a b) = Ok (map g (slice X a b))) -> (1 <= istart)%Z -> (b <= Z.of_nat (length X))%Z ->
  forall rs a Y, tiles batch a b rs -> (istart <= a)%Z -> (forall ab, In ab rs -> snd ab - fst ab = 1)%Z ->
  store_loop f (fun ab => (fst ab, snd ab - istart)%Z) X rs Y = Ok Y.
Proof.
  intros f g X istart batch b Hf Hi Hb. induction rs as [|[x y] r IH]; intros a Y Ht Ha H1; [reflexivity|].
  cbn [tiles] in Ht. destruct Ht as (-> & H2 & H3 & H4). cbn [store_loop fst snd]. rewrite Hf. cbn [rbind].
  pose proof (H1 (a, y) (or_introl eq_refl)) as E1. cbn [fst snd] in E1.
  pose proof (slice_length_in X a y) as SL. specialize (SL ltac:(lia) ltac:(pose proof (tiles_le _ _ _ _ H4); lia)).
  destruct (slice X a y) as [|v [|v' q]]; cbn [length] in SL; try lia. cbn [map].
  rewrite slice_assign_nothing by lia. cbn [rbind]. apply (IH y); auto; [lia|]. intros ab Hab. apply H1. now right.
Qed.

Definition project_target (e : elm) (cnt : nat) (fH : dest) (M : mat) : Prop :=
  match fH with
  | DArr a => exists m, a = Arr2 (getL (e_net e)) m /\ cnt <= length m /\ M = m
  | _ => M = zero_mat cnt (getL (e_net e))
  end.

(** istart >= 1: nothing is stored (batches of one sample), or ValueError *)
Theorem hp_project_later : forall e d c X H fH M istart icount,
  (0 < e_batch e)%Z -> holds_data d c X -> 1 <= istart <= length X ->
  elm_project e (Arr2 c X) = Ok H ->
  let n := length (range_of X istart icount) in project_target e n fH M ->
  hp_project e d fH (Z.of_nat istart) (zcount icount) =
    if (Z.min (e_batch e) (Z.of_nat n) <=? 1)%Z then Ok M else Err ValueError.
Proof.
  intros e d c X H fH M istart icount Hb Hd Hi E n HM.
  destruct (project_slices e c X H E) as (g & EN & -> & -> & Hg).
  unfold hp_project. destruct (s_neurons (e_net e)); [congruence|].
  rewrite (check_holds d _ X _ Hd), Nat.eqb_refl. cbn [rbind]. rewrite nbatches_eq by auto. cbn [rbind].
  pose proof (clip_bounds (length X) istart icount ltac:(lia)) as HC.
  pose proof (range_of_length X istart icount ltac:(lia)) as HL. fold n in HL.
  set (cnt := clip_count _ _ _) in *. assert (cnt = Z.of_nat n) as Ecnt by lia. clearbody cnt. subst cnt.
  match goal with |- rbind ?m _ = _ => assert (m = Ok M) as -> end.
  { unfold project_target in HM. destruct fH as [| |a].
    - subst M. unfold new_rows. destruct (Z.ltb_spec (Z.of_nat n) 0); [lia|]. now rewrite Nat2Z.id.
    - subst M. unfold new_rows. destruct (Z.ltb_spec (Z.of_nat n) 0); [lia|]. now rewrite Nat2Z.id.
    - destruct HM as (m & -> & Hm & ->). rewrite Nat.eqb_refl. destruct (Z.leb_spec (Z.of_nat n) (Z.of_nat (length m))); [reflexivity|lia]. }
  cbn [rbind].
  pose proof (ranges_tiles (e_batch e) (Z.of_nat istart) (Z.of_nat n) Hb ltac:(lia)) as HT.
  destruct (Z.leb_spec (Z.min (e_batch e) (Z.of_nat n)) 1) as [H1|H1].
  - eapply store_nothing; eauto; try lia. intros [x y] Hin.
    pose proof (tiles_bounds _ _ _ _ HT) as TB. rewrite Forall_forall in TB. specialize (TB _ Hin). cbn [fst snd] in *. lia.
  - set (q := ceil_div (Z.of_nat n) (e_batch e)).
    pose proof (ceil_div_spec (Z.of_nat n) (e_batch e) Hb) as CS. fold q in CS.
    assert (0 < q)%Z as Hq by nia.
    unfold ranges, zrange. destruct (Z.to_nat q) as [|k] eqn:Ek; [lia|]. cbn [seq map store_loop].
    unfold bounds at 1 2. cbn [fst snd Z.of_nat]. rewrite Hg. cbn [rbind].
    rewrite slice_assign_bad; [reflexivity| | | |]; unfold bounds; cbn [fst snd Z.of_nat]; rewrite ?map_length, ?slice_length_in; try lia.
Qed.
End RangeProj.
