(** Errors and confusion matrices (C18-C22; reals). *)
From Coq Require Import Reals Lra Permutation.
From Verif Require Import Base Num Mat LinAlg Slfn Strs Elm Mrsr Search Mss Hpelm MatFacts SplitProofs Spec ElmFacts RLin
  AccProofs TrainProofs TrainThms RangeThms RangeTrain.
Local Open Scope R_scope.
#[local] Existing Instance NumR.

(** ** Specification *)
Definition mean (l : list R) : R := Rsum l / INR (length l).
(** the first position of the largest entry *)
Definition class_of (v : list R) : nat :=
  match find (fun k => forallb (fun j => if Rle_dec (entry v j) (entry v k) then true else false) (seq 0 (length v)))
             (seq 0 (length v)) with
  | Some k => k | None => 0%nat end.
Definition has_label (a : R) : bool := if Rlt_dec (1 / 2) a then true else false.

(** error of one sample: mean squared error, misclassification, rate of wrong labels *)
Definition sq_err (c : nat) (t y : list R) : R := Rsum (map (fun j => (entry y j - entry t j) ^ 2) (seq 0 c)) / INR c.
Definition cls_err (t y : list R) : R := if (class_of t =? class_of y)%nat then 0 else 1.
Definition label_err (c : nat) (t y : list R) : R :=
  INR (length (filter (fun j => negb (Bool.eqb (has_label (entry y j)) (has_label (entry t j)))) (seq 0 c))) / INR c.
Definition sample_err (cls : option string) (c : nat) (t y : list R) : R :=
  match cls with Some "c"%string => cls_err t y | Some "ml"%string => label_err c t y | _ => sq_err c t y end.

(** weighted classification: the rows of class k are those with a 1 in column k *)
Definition in_class (k : nat) (t : list R) : bool := if Req_EM_T (entry t k) 1 then true else false.
Definition members (T Y : list (list R)) (k : nat) : list (list R * list R) := filter (fun p => in_class k (fst p)) (combine T Y).
Definition class_rate (T Y : list (list R)) (k : nat) : R :=
  match members T Y k with
  | [] => 0
  | l => INR (length (filter (fun p => negb (class_of (snd p) =? k)%nat) l)) / INR (length l)
  end.
Definition weighted_err (ws : list R) (T Y : list (list R)) : R :=
  Rsum (map2 (fun k w => class_rate T Y k * w) (seq 0 (length ws)) ws) / Rsum ws.

(** ** argmax *)
Lemma argmax_from_spec : forall v best bi i, (bi < i)%nat ->
  let k := @argmax_from NumR best bi i v in
  (k = bi \/ (i <= k < i + length v)%nat) /\
  (let val m := if (m <? i)%nat then best else nth (m - i) v 0 in
   (forall j, (j < length v)%nat -> nth j v 0 <= val k) /\ best <= val k /\
   (k = bi -> True) /\ ((i <= k)%nat -> best < val k) /\ (forall j, (i + j < k)%nat -> (j < length v)%nat -> (i <= k)%nat -> nth j v 0 < val k)).
Proof.
  induction v as [|x v IH]; intros best bi i Hb k; cbn [length].
  - subst k. cbn [argmax_from]. cbv zeta. split; [auto|]. assert ((bi <? i)%nat = true) as -> by (apply Nat.ltb_lt; lia).
    split; [intros; lia|]. split; [lra|]. split; auto. split; [intros; lia|]. intros; lia.
  - subst k. cbn [argmax_from]. change (@nltb NumR best x) with (Rltb best x). unfold Rltb.
    destruct (Rlt_dec best x) as [Hlt|Hge].
    + destruct (IH x i (S i) ltac:(lia)) as [Hk (H1 & H2 & _ & H3 & H4)].
      set (k := @argmax_from NumR x i (S i) v) in *. split; [right; lia|].
      cbv zeta in *.
      assert ((k <? i)%nat = false) as E1 by (apply Nat.ltb_ge; lia). rewrite E1.
      assert ((if (k <? S i)%nat then x else nth (k - S i) v 0) = nth (k - i) (x :: v) 0) as EV.
      { destruct (k <? S i)%nat eqn:E.
        - apply Nat.ltb_lt in E. replace (k - i)%nat with 0%nat by lia. reflexivity.
        - apply Nat.ltb_ge in E. replace (k - i)%nat with (S (k - S i)) by lia. reflexivity. }
      rewrite EV in *. split; [|split; [|split; [|split]]]; auto.
      * intros [|j] Hj; cbn [nth]; auto. apply H1; lia.
      * lra.
      * intros _. lra.
      * intros [|j] Hj Hl Hi; cbn [nth].
        -- apply H3. lia.
        -- apply H4; lia.
    + destruct (IH best bi (S i) ltac:(lia)) as [Hk (H1 & H2 & _ & H3 & H4)].
      set (k := @argmax_from NumR best bi (S i) v) in *. split; [lia|]. cbv zeta in *.
      destruct (Nat.lt_ge_cases k (S i)) as [Hlt'|Hge'].
      * assert (k = bi) by lia.
        assert ((k <? S i)%nat = true) as E1 by (apply Nat.ltb_lt; lia).
        assert ((k <? i)%nat = true) as E2 by (apply Nat.ltb_lt; lia). rewrite E1 in *. rewrite E2.
        split; [|split; [|split; [|split]]]; auto.
        -- intros [|j] Hj; cbn [nth]; [lra|]. apply H1; lia.
        -- intros; lia.
        -- intros; lia.
      * assert ((k <? S i)%nat = false) as E1 by (apply Nat.ltb_ge; lia).
        assert ((k <? i)%nat = false) as E2 by (apply Nat.ltb_ge; lia). rewrite E1 in *. rewrite E2.
        replace (k - i)%nat with (S (k - S i)) by lia. cbn [nth].
        split; [|split; [|split; [|split]]]; [| |auto| |].
        -- intros [|j] Hj; cbn [nth]; [lra|]. apply H1; lia.
        -- exact H2.
        -- intros; apply H3; lia.
        -- intros [|j] Hj Hl Hi; cbn [nth]; [|apply H4; lia]. specialize (H3 Hge'). lra.
Qed.

Lemma argmax_first : forall v : list R, v <> [] ->
  let k := @argmax NumR v in (k < length v)%nat /\ (forall j, (j < length v)%nat -> entry v j <= entry v k) /\
  (forall j, (j < k)%nat -> entry v j < entry v k).
Proof.
  intros [|x v] H k; [congruence|]. subst k. cbn [argmax].
  destruct (argmax_from_spec v x 0 1 ltac:(lia)) as [Hk (H1 & H2 & _ & H3 & H4)].
  set (k := @argmax_from NumR x 0 1 v) in *. cbv zeta in *. cbn [length].
  assert ((if (k <? 1)%nat then x else nth (k - 1) v 0) = entry (x :: v) k) as EV.
  { unfold entry. destruct k; [reflexivity|]. cbn. now rewrite Nat.sub_0_r. }
  cbn [num NumR] in *. rewrite EV in H1, H2, H3, H4. split; [lia|]. split.
  - intros [|j] Hj; [exact H2|]. apply (H1 j). lia.
  - intros [|j] Hj; [apply H3; lia|]. apply (H4 j); lia.
Qed.

Lemma find_first : forall (P : nat -> bool) n k, (k < n)%nat -> P k = true -> (forall j, (j < k)%nat -> P j = false) ->
  find P (seq 0 n) = Some k.
Proof.
  intros P n k Hk HP Hj. assert (forall m a, (a <= k)%nat -> (k < a + m)%nat -> find P (seq a m) = Some k) as G.
  { induction m; intros a Ha Hm; [lia|]. cbn [seq find]. destruct (Nat.eq_dec a k) as [->|Hne]; [now rewrite HP|].
    rewrite Hj by lia. apply IHm; lia. }
  apply G; lia.
Qed.

Lemma argmax_class : forall v : list R, @argmax NumR v = class_of v.
Proof.
  intros v. destruct v as [|x v']; [reflexivity|].
  destruct (argmax_first (x :: v') ltac:(discriminate)) as (H1 & H2 & H3). set (v := x :: v') in *.
  set (k := @argmax NumR v) in *. unfold class_of. rewrite (find_first _ _ k); auto.
  - apply forallb_forall. intros j Hj. apply in_seq in Hj. destruct (Rle_dec (entry v j) (entry v k)) as [|n]; auto.
    exfalso. apply n, H2. lia.
  - intros j Hj. apply not_true_is_false. intros C. rewrite forallb_forall in C.
    specialize (C k). cbn beta in C. rewrite in_seq in C. destruct (Rle_dec (entry v k) (entry v j)) as [Hle|]; [|discriminate C; lia].
    specialize (H3 j Hj). lra.
Qed.

(** ** Sums and means *)
Lemma xsum_fin : forall l : list R, @xsum NumR (map (@Fin NumR) l) = @Fin NumR (Rsum l).
Proof. induction l as [|a l IH]; [reflexivity|]. cbn [map xsum fold_right]. change (fold_right xadd (Fin n0) (map (@Fin NumR) l)) with (@xsum NumR (map (@Fin NumR) l)). rewrite IH. reflexivity. Qed.
Lemma np_div_R : forall a b : R, b <> 0 -> @np_div NumR a b = @Fin NumR (a / b).
Proof.
  intros a b H. unfold np_div. change (@neqb NumR b n0) with (Reqb b 0). unfold Reqb.
  destruct (Req_EM_T b 0); [contradiction|]. reflexivity.
Qed.
Lemma xmean_fin : forall l : list R, l <> [] -> @xmean NumR (map (@Fin NumR) l) = @Fin NumR (mean l).
Proof.
  intros l H. unfold xmean. destruct l as [|a l]; [congruence|]. set (m := a :: l) in *.
  change (match map (@Fin NumR) m with [] => XNaN | _ :: _ => xdiv (xsum (map (@Fin NumR) m)) (Fin (nof_nat (length (map (@Fin NumR) m)))) end)
    with (xdiv (xsum (map (@Fin NumR) m)) (@Fin NumR (nof_nat (length (map (@Fin NumR) m))))).
  rewrite xsum_fin, map_length, nof_nat_INR. cbn [xdiv]. apply np_div_R.
  apply not_0_INR. subst m. discriminate.
Qed.
Lemma Rsum_cons : forall a l, Rsum (a :: l) = a + Rsum l.
Proof. reflexivity. Qed.
Lemma Rsum_nil : Rsum [] = 0.
Proof. reflexivity. Qed.
Lemma Rsum_app : forall l m, Rsum (l ++ m) = Rsum l + Rsum m.
Proof. induction l as [|a l IH]; intros; [rewrite Rsum_nil, app_nil_l; lra|]. rewrite <- app_comm_cons, !Rsum_cons, IH. lra. Qed.
Lemma Rsum_concat : forall L, Rsum (concat L) = Rsum (map Rsum L).
Proof. induction L; cbn [concat map]; [reflexivity|]. rewrite Rsum_app, IHL. reflexivity. Qed.
Lemma concat_length_c : forall {A} c (L : list (list A)), Forall (fun l => length l = c) L -> length (concat L) = (length L * c)%nat.
Proof. induction 1; cbn [concat length]; [reflexivity|]. rewrite app_length. lia. Qed.
Lemma Rsum_scale_r : forall l k, Rsum (map (fun a => a / k) l) = Rsum l / k.
Proof. induction l; intros; cbn [map]; [rewrite Rsum_nil; lra|]. rewrite !Rsum_cons, IHl. lra. Qed.
Lemma mean_concat : forall c (L : list (list R)), (0 < c)%nat -> Forall (fun l => length l = c) L -> L <> [] ->
  mean (concat L) = mean (map (fun l => Rsum l / INR c) L).
Proof.
  intros c L Hc HL Hn. unfold mean. rewrite Rsum_concat, (concat_length_c c) by auto. rewrite map_length.
  rewrite <- (map_map Rsum (fun a => a / INR c)), Rsum_scale_r, mult_INR.
  field. split; apply not_0_INR; [lia|destruct L; [congruence|discriminate]].
Qed.

Lemma bcast_eq : forall {A B} (l : list A) (m : list B), length l = length m -> bcast l m = Ok (combine l m).
Proof. intros. unfold bcast. now rewrite H, Nat.eqb_refl. Qed.

Lemma concat_map_Fin : forall (L : list (list R)), concat (map (map (@Fin NumR)) L) = map (@Fin NumR) (concat L).
Proof. intros. now rewrite concat_map. Qed.

Lemma map2_vget : forall {C} (f : R -> R -> C) (x w : list R) n, length x = n -> length w = n ->
  map2 f x w = map (fun j => f (entry x j) (entry w j)) (seq 0 n).
Proof.
  intros C f. induction x as [|a x IH]; intros [|b w] n Hx Hw; cbn in *; subst n; try discriminate; [reflexivity|].
  cbn. f_equal. rewrite <- seq_shift, map_map. apply IH; lia.
Qed.

Lemma combine_swap : forall {A B} (l : list A) (m : list B), combine m l = map (fun p => (snd p, fst p)) (combine l m).
Proof. induction l; intros [|b m]; cbn; auto. now rewrite IHl. Qed.
Lemma combine_pairs : forall c (T Y : list (list R)), wide c T -> wide c Y ->
  Forall (fun p => length (fst p) = c /\ length (snd p) = c) (combine T Y).
Proof.
  intros c T Y HT HY. apply Forall_forall. intros [t y] H. cbn. split.
  - apply in_combine_l in H. eapply Forall_forall in HT; eauto.
  - apply in_combine_r in H. eapply Forall_forall in HY; eauto.
Qed.

Lemma b2n_sum : forall {A} (P : A -> bool) l, Rsum (map (fun a => @b2n NumR (P a)) l) = INR (length (filter P l)).
Proof.
  induction l as [|a l IH]; [reflexivity|]. cbn [map filter num NumR]. rewrite Rsum_cons. cbn [num NumR] in IH |- *. rewrite IH.
  destruct (P a); cbn [length]; rewrite ?S_INR; cbn [b2n]; change (@n1 NumR) with 1; change (@n0 NumR) with 0; lra.
Qed.
Lemma gthalf_label : forall a : R, @gthalf NumR a = has_label a.
Proof.
  intros a. unfold gthalf, has_label. change (@nltb NumR nhalf a) with (Rltb (1 / (1 + 1)) a). unfold Rltb.
  replace (1 + 1) with 2 by lra. reflexivity.
Qed.

Definition plain (cls : option string) : Prop := cls = None \/ cls = Some "c"%string \/ cls = Some "ml"%string.

(** the per-sample errors *)
Definition errs (cls : option string) (c : nat) (T Y : list (list R)) : list R := map2 (sample_err cls c) T Y.

Lemma errs_combine : forall cls c T Y, errs cls c T Y = map (fun p => sample_err cls c (fst p) (snd p)) (combine T Y).
Proof. intros. unfold errs. rewrite map2_combine. reflexivity. Qed.

Lemma raw_error_mean : forall cls wc c (T Y : list (list R)), plain cls -> (0 < c)%nat -> length T = length Y -> T <> [] -> wide c T -> wide c Y ->
  @raw_error NumR cls wc T Y c = Ok (@Fin NumR (mean (errs cls c T Y))).
Proof.
  intros cls wc c T Y Hp Hc Hl Hn HT HY. rewrite errs_combine.
  pose proof (combine_pairs c T Y HT HY) as HP.
  assert (combine T Y <> []) as HC by (destruct T, Y; try discriminate; congruence).
  assert (@bcast (list R) (list R) Y T = Ok (map (fun p => (snd p, fst p)) (combine T Y))) as EB by (rewrite bcast_eq by (symmetry; exact Hl); now rewrite (combine_swap T Y)).
  destruct Hp as [->|[->| ->]]; unfold raw_error, zip_rows; cbn [num NumR]; rewrite EB; cbn [rbind]; rewrite map_map; cbn [fst snd num NumR]; apply f_equal.
  - rewrite (map_ext_in _ (fun p => map (@Fin NumR) (map (fun j => (entry (snd p) j - entry (fst p) j) ^ 2) (seq 0 c)))).
    + rewrite <- (map_map (fun p => map (fun j => (entry (snd p) j - entry (fst p) j) ^ 2) (seq 0 c)) (map (@Fin NumR))).
      rewrite concat_map_Fin, xmean_fin.
      * f_equal. rewrite (mean_concat c); auto.
        -- rewrite map_map. reflexivity.
        -- apply Forall_forall. intros l H. apply in_map_iff in H as [q [<- _]]. now rewrite map_length, seq_length.
        -- destruct (combine T Y); discriminate || congruence.
      * destruct (combine T Y); [congruence|]. cbn. destruct c; [lia|]. discriminate.
    + intros p Hin. eapply Forall_forall in HP; [|exact Hin]. destruct HP as [H1 H2].
      rewrite (map2_vget _ _ _ c) by auto. rewrite map_map. apply map_ext. intros j.
      f_equal. unfold nsq. cbn [nmul nsub NumR]. rring.
  - rewrite <- (map_map (fun p => cls_err (fst p) (snd p)) (@Fin NumR)) at 1 || idtac.
    rewrite (map_ext _ (fun p => @Fin NumR (sample_err (Some "c"%string) c (fst p) (snd p)))).
    + rewrite <- (map_map (fun p => sample_err (Some "c"%string) c (fst p) (snd p)) (@Fin NumR)).
      apply xmean_fin. destruct (combine T Y); discriminate || congruence.
    + intros p. f_equal. unfold neq_arg. rewrite !argmax_class. cbn [sample_err]. unfold cls_err.
      rewrite (Nat.eqb_sym (class_of (fst p))). destruct (class_of (snd p) =? class_of (fst p))%nat; reflexivity.
  - rewrite (map_ext_in _ (fun p => map (@Fin NumR) (map (fun j => @b2n NumR (negb (Bool.eqb (has_label (entry (snd p) j)) (has_label (entry (fst p) j))))) (seq 0 c)))).
    + rewrite <- (map_map (fun p => map (fun j => @b2n NumR (negb (Bool.eqb (has_label (entry (snd p) j)) (has_label (entry (fst p) j))))) (seq 0 c)) (map (@Fin NumR))).
      rewrite concat_map_Fin, xmean_fin.
      * f_equal. rewrite (mean_concat c); auto.
        -- rewrite map_map. f_equal. apply map_ext. intros p. rewrite b2n_sum. reflexivity.
        -- apply Forall_forall. intros l H. apply in_map_iff in H as [q [<- _]]. now rewrite map_length, seq_length.
        -- destruct (combine T Y); discriminate || congruence.
      * destruct (combine T Y); [congruence|]. cbn. destruct c; [lia|]. discriminate.
    + intros p Hin. eapply Forall_forall in HP; [|exact Hin]. destruct HP as [H1 H2].
      rewrite (map2_vget _ _ _ c) by auto. rewrite map_map. apply map_ext. intros j. now rewrite !gthalf_label.
Qed.

(** ** C18: HPELM.error is the mean over the range, whatever the batch size *)
Lemma nofZ_INR : forall n, @nofZ NumR (Z.of_nat n) = INR n.
Proof. intros. unfold nofZ. destruct (Z.ltb_spec (Z.of_nat n) 0); [lia|]. now rewrite Nat2Z.id, nof_nat_INR. Qed.

Lemma errs_app : forall cls c T1 Y1 T2 Y2, length T1 = length Y1 -> errs cls c (T1 ++ T2) (Y1 ++ Y2) = errs cls c T1 Y1 ++ errs cls c T2 Y2.
Proof. intros. unfold errs. now rewrite map2_app. Qed.
Lemma errs_length : forall cls c T Y, length T = length Y -> length (errs cls c T Y) = length T.
Proof. intros. unfold errs. rewrite map2_length. lia. Qed.

Lemma mean_batches_tiles : forall (f : list (list R) -> list (list R) -> res xnum) cls c batch (T Y : list (list R)) cnt,
  (forall t y, length t = length y -> t <> [] -> wide c t -> wide c y -> f t y = Ok (@Fin NumR (mean (errs cls c t y)))) ->
  length T = length Y -> wide c T -> wide c Y -> (0 < cnt)%nat ->
  forall rs a b acc, (0 <= a)%Z -> (b <= Z.of_nat (length T))%Z -> tiles batch a b rs ->
  @mean_batches NumR f T Y rs (Z.of_nat cnt) (@Fin NumR acc) =
    Ok (@Fin NumR (acc + Rsum (errs cls c (slice T a b) (slice Y a b)) / INR cnt)).
Proof.
  intros f cls c batch T Y cnt Hf Hl HT HY Hc. assert (INR cnt <> 0) as Hc0 by (apply not_0_INR; lia).
  induction rs as [|[x y] r IH]; intros a b acc Ha Hb Ht.
  - cbn in Ht. subst b. cbn [mean_batches]. rewrite !slice_empty. do 2 f_equal. cbn. lra.
  - cbn [tiles] in Ht. destruct Ht as (-> & H1 & H2 & H3). pose proof (tiles_le _ _ _ _ H3) as Hyb.
    assert (length (slice T a y) = Z.to_nat (y - a)) as L1 by (apply slice_length_in; lia).
    assert (length (slice Y a y) = Z.to_nat (y - a)) as L2 by (apply slice_length_in; lia).
    cbn [mean_batches fst snd]. cbn [num NumR] in *. rewrite Hf.
    + cbn [rbind xmul xdiv]. replace (y - a)%Z with (Z.of_nat (length (slice T a y))) by lia.
      rewrite !nofZ_INR. rewrite np_div_R by auto. cbn [xadd]. change (@nadd NumR) with Rplus. change (@nmul NumR) with Rmult.
      rewrite (IH y b) by (auto; lia). do 2 f_equal.
      rewrite <- (slice_app T a y b), <- (slice_app Y a y b) by lia.
      rewrite errs_app by lia. rewrite Rsum_app. unfold mean. rewrite errs_length by lia.
      assert (INR (length (slice T a y)) <> 0) by (apply not_0_INR; lia). field. auto.
    + lia.
    + intros C. apply (f_equal (@length _)) in C. cbn [length] in C. lia.
    + now apply (@Forall_wide_slice NumR).
    + now apply (@Forall_wide_slice NumR).
Qed.

Theorem hp_error_mean : forall e dT dY c (T Y : list (list R)) istart icount,
  plain (e_class e) -> s_outputs (e_net e) = c -> (0 < c)%nat -> (0 < e_batch e)%Z ->
  holds_data dT c T -> holds_data dY c Y -> wide c T -> wide c Y -> length T = length Y ->
  (istart <= length T)%nat -> range_of T istart icount <> [] ->
  @hp_error NumR e dT dY (Z.of_nat istart) (zcount icount) =
    Ok (@Fin NumR (mean (errs (e_class e) c (range_of T istart icount) (range_of Y istart icount)))).
Proof.
  intros e dT dY c T Y istart icount Hp Ho Hc Hb HdT HdY HT HY Hl Hi Hne.
  unfold hp_error. rewrite Ho. rewrite (@check_holds NumR dT c T c), (@check_holds NumR dY c Y c) by auto. rewrite Nat.eqb_refl. cbn [rbind].
  pose proof (@range_of_length _ T istart icount Hi) as HL.
  pose proof (clip_bounds (length T) istart icount Hi) as [HB1 HB2].
  assert (range_of T istart icount = slice T (Z.of_nat istart) (Z.of_nat istart + clip_count (zcount icount) (length T) (Z.of_nat istart))) as ET
    by (symmetry; now apply slice_range).
  assert (range_of Y istart icount = slice Y (Z.of_nat istart) (Z.of_nat istart + clip_count (zcount icount) (length T) (Z.of_nat istart))) as EY
    by (symmetry; rewrite Hl; apply slice_range; lia).
  assert (0 < length (range_of T istart icount))%nat as Hpos by (destruct (range_of T istart icount); [congruence|cbn; lia]).
  set (cnt := clip_count (zcount icount) (length T) (Z.of_nat istart)) in *.
  set (n := length (range_of T istart icount)) in *.
  assert (forall g, (forall t y, length t = length y -> t <> [] -> wide c t -> wide c y -> g t y = Ok (@Fin NumR (mean (errs (e_class e) c t y)))) ->
    @mean_batches NumR g T Y (ranges (e_batch e) (Z.of_nat istart) cnt (ceil_div cnt (e_batch e))) cnt (@Fin NumR 0) =
    Ok (@Fin NumR (mean (errs (e_class e) c (range_of T istart icount) (range_of Y istart icount))))) as G.
  { intros g Hg. pose proof (mean_batches_tiles g (e_class e) c (e_batch e) T Y n Hg Hl HT HY Hpos) as M. rewrite HL in M.
    rewrite (M _ (Z.of_nat istart) (Z.of_nat istart + cnt)%Z); try lia.
    - rewrite <- ET, <- EY. do 2 f_equal. unfold mean. rewrite errs_length; [unfold n; lra|].
      rewrite ET, EY, !slice_length_in by lia. reflexivity.
    - apply ranges_tiles; lia. }
  unfold hp_error_. cbn [num NumR] in *. fold cnt. rewrite nbatches_eq by auto. cbn [rbind]. change (@n0 NumR) with 0.
  assert (forall cls w t y, plain cls -> length t = length y -> t <> [] -> wide c t -> wide c y ->
    @raw_error NumR cls w t y c = Ok (@Fin NumR (mean (errs cls c t y)))) as HR
    by (intros; apply raw_error_mean; auto).
  destruct Hp as [E|[E|E]]; rewrite E in G |- *; apply G; intros; apply HR; unfold plain; auto.
Qed.

Lemma check_arr2 : forall c (X : list (list R)), @check_arr NumR (Arr2 c X) c = Ok X.
Proof. intros. unfold check_arr. now rewrite Nat.eqb_refl. Qed.

Theorem elm_error_mean : forall e c (T Y : list (list R)),
  plain (e_class e) -> s_outputs (e_net e) = c -> (0 < c)%nat ->
  wide c T -> wide c Y -> length T = length Y -> T <> [] ->
  @elm_error NumR e (Arr2 c T) (Arr2 c Y) = Ok (@Fin NumR (mean (errs (e_class e) c T Y))).
Proof.
  intros e c T Y Hp Ho Hc HT HY Hl Hn. unfold elm_error. rewrite Ho, !check_arr2. cbn [rbind]. unfold error_. rewrite Ho.
  rewrite raw_error_mean by auto. reflexivity.
Qed.

(** ** C19: weighted classification error *)
Lemma filter_seq : forall {A} (d : A) (P : A -> bool) (l : list A),
  map (fun r => nth r l d) (filter (fun r => P (nth r l d)) (seq 0 (length l))) = filter P l.
Proof.
  induction l as [|a l IH]; [reflexivity|]. cbn [length seq filter nth]. rewrite <- seq_shift.
  assert (forall (Q : nat -> bool) m, filter Q (map S m) = map S (filter (fun r => Q (S r)) m)) as F.
  { induction m as [|x m IHm]; [reflexivity|]. cbn. destruct (Q (S x)); cbn; now rewrite IHm. }
  rewrite F. cbn [nth]. destruct (P a); cbn [map nth]; rewrite map_map; cbn [nth]; now rewrite IH.
Qed.

Lemma members_rows : forall (T Y : list (list R)) k, length T = length Y ->
  members T Y k = map (fun r => (nth r T [], nth r Y [])) (@rows_with NumR T k).
Proof.
  intros T Y k Hl. unfold members. rewrite <- (filter_seq ([], []) _ (combine T Y)). rewrite combine_length.
  replace (Nat.min (length T) (length Y)) with (length T) by lia.
  erewrite map_ext by (intros r; apply combine_nth; exact Hl).
  unfold rows_with. f_equal. apply filter_ext. intros r. rewrite combine_nth by auto. cbn [fst].
  unfold in_class, mget, vget, entry. reflexivity.
Qed.

Lemma rows_lt : forall (T : list (list R)) k r, In r (@rows_with NumR T k) -> (r < length T)%nat.
Proof. intros T k r H. unfold rows_with in H. apply filter_In in H as [H _]. apply in_seq in H. cbn [num NumR] in *. lia. Qed.

Definition misses (T Y : list (list R)) (k : nat) : nat := length (filter (fun p => negb (class_of (snd p) =? k)%nat) (members T Y k)).

Lemma misses_sum : forall (T Y : list (list R)) k, length T = length Y ->
  Rsum (map (fun r => @b2n NumR (@neq_arg NumR (nth r Y []) k)) (@rows_with NumR T k)) = INR (misses T Y k).
Proof.
  intros T Y k Hl. unfold misses. rewrite members_rows by auto.
  rewrite <- (b2n_sum (fun p : list R * list R => negb (class_of (snd p) =? k)%nat)). rewrite map_map. cbn [snd]. f_equal.
  apply map_ext. intros r. unfold neq_arg. now rewrite argmax_class.
Qed.

Lemma class_rate_some : forall T Y k, members T Y k <> [] -> class_rate T Y k = INR (misses T Y k) / INR (length (members T Y k)).
Proof. intros T Y k H. unfold class_rate, misses. destruct (members T Y k); congruence. Qed.
Lemma class_rate_none : forall T Y k, members T Y k = [] -> class_rate T Y k = 0.
Proof. intros T Y k H. unfold class_rate. now rewrite H. Qed.
Lemma class_err_some : forall Y idx f, idx <> [] -> @class_err NumR Y idx f =
  let? l := mapM (fun r => match nth_error Y r with Some y => Ok (f r y) | None => Err IndexError end) idx in Ok (xmean l).
Proof. intros. unfold class_err. destruct idx; [congruence|reflexivity]. Qed.

Lemma class_err_rate : forall (T Y : list (list R)) k, length T = length Y ->
  @class_err NumR Y (@rows_with NumR T k) (fun _ y => @Fin NumR (b2n (neq_arg y k))) = Ok (@Fin NumR (class_rate T Y k)).
Proof.
  intros T Y k Hl. pose proof (members_rows T Y k Hl) as HM. pose proof (misses_sum T Y k Hl) as HS.
  pose proof (rows_lt T k) as HR.
  assert (@rows_with NumR T k = [] \/ @rows_with NumR T k <> []) as [E|E] by (destruct (@rows_with NumR T k); [auto|right; discriminate]).
  - rewrite class_rate_none by (rewrite HM, E; reflexivity). rewrite E. reflexivity.
  - assert (members T Y k <> []) as E' by (intros C; rewrite HM in C; apply map_eq_nil in C; auto).
    rewrite class_err_some by auto. rewrite class_rate_some by auto.
    erewrite (mapM_ok_map _ (fun r => @Fin NumR (@b2n NumR (@neq_arg NumR (nth r Y []) k)))).
    + cbn [rbind]. rewrite <- (map_map (fun r => @b2n NumR (@neq_arg NumR (nth r Y []) k)) (@Fin NumR)).
      rewrite xmean_fin by (intros C; apply map_eq_nil in C; auto). unfold mean. cbn [num NumR] in *. rewrite HS, map_length.
      rewrite HM. now rewrite map_length.
    + intros r Hr. apply HR in Hr. rewrite (nth_error_nth' Y []) by (rewrite <- Hl; auto). reflexivity.
Qed.

Definition fin_all (ws : list R) : list xnum := map (@Fin NumR) ws.

Lemma wsum_fin : forall rates ws : list R,
  @xsum NumR (map (fun q => xmul (fst q) (snd q)) (combine (map (@Fin NumR) rates) (map (@Fin NumR) ws))) = @Fin NumR (Rsum (map2 Rmult rates ws)).
Proof.
  intros rates ws. rewrite <- xsum_fin. f_equal. revert ws. induction rates as [|a rates IH]; intros [|w ws]; cbn [map combine map2]; auto.
  now rewrite IH.
Qed.

Lemma raw_error_wc : forall ws c (T Y : list (list R)), length ws = c -> length T = length Y -> Rsum ws <> 0 ->
  @raw_error NumR (Some "wc"%string) (Some (fin_all ws)) T Y c = Ok (@Fin NumR (weighted_err ws T Y)).
Proof.
  intros ws c T Y Hw Hl Hs. unfold raw_error.
  rewrite (mapM_ok_map _ (fun k => @Fin NumR (class_rate T Y k))) by (intros; now apply class_err_rate).
  cbn [rbind]. rewrite <- (map_map (class_rate T Y) (@Fin NumR)). unfold fin_all.
  rewrite bcast_eq by (rewrite !map_length, seq_length; auto). cbn [rbind]. cbn [num NumR] in *. rewrite wsum_fin, xsum_fin. cbn [xdiv].
  rewrite np_div_R by auto. do 2 f_equal. unfold weighted_err. rewrite map2_map_l, Hw. reflexivity.
Qed.

Theorem elm_error_wc : forall e ws c (T Y : list (list R)),
  e_class e = Some "wc"%string -> e_wc e = Some (fin_all ws) -> s_outputs (e_net e) = c -> length ws = c -> Rsum ws <> 0 ->
  wide c T -> wide c Y -> length T = length Y ->
  @elm_error NumR e (Arr2 c T) (Arr2 c Y) = Ok (@Fin NumR (weighted_err ws T Y)).
Proof.
  intros e ws c T Y He Hw Ho Hlw Hs HT HY Hl. unfold elm_error. rewrite Ho, !check_arr2. cbn [rbind]. unfold error_. rewrite Ho, He, Hw.
  rewrite raw_error_wc by auto. reflexivity.
Qed.

(** *** HPELM: errors and class sizes accumulated over the batches *)
Lemma members_app : forall T1 Y1 T2 Y2 k, length T1 = length Y1 -> members (T1 ++ T2) (Y1 ++ Y2) k = members T1 Y1 k ++ members T2 Y2 k.
Proof.
  intros. unfold members. rewrite <- filter_app. f_equal. revert Y1 H. induction T1 as [|t T1 IH]; intros [|y Y1] H; cbn in *; try discriminate; auto.
  f_equal. apply IH. lia.
Qed.
Lemma misses_app : forall T1 Y1 T2 Y2 k, length T1 = length Y1 -> misses (T1 ++ T2) (Y1 ++ Y2) k = (misses T1 Y1 k + misses T2 Y2 k)%nat.
Proof. intros. unfold misses. rewrite members_app by auto. rewrite filter_app, app_length. reflexivity. Qed.

Lemma wc_batch : forall (T Y : list (list R)) k, length T = length Y ->
  @wc_counts_batch NumR T Y k = Ok (INR (misses T Y k), INR (length (members T Y k))).
Proof.
  intros T Y k Hl. unfold wc_counts_batch. pose proof (members_rows T Y k Hl) as HM. pose proof (misses_sum T Y k Hl) as HS. pose proof (rows_lt T k) as HR.
  rewrite (mapM_ok_map _ (fun r => @b2n NumR (@neq_arg NumR (nth r Y []) k))).
  - cbn [rbind]. rewrite nof_nat_INR. change (@nsum NumR) with Rsum. cbn [num NumR] in *. rewrite HS. rewrite HM at 1. rewrite map_length. reflexivity.
  - intros r Hr. apply HR in Hr. rewrite (nth_error_nth' Y []) by (rewrite <- Hl; auto). reflexivity.
Qed.

Lemma map2_map_seq : forall {A B C D} (f : A -> B -> C) (h : D -> A) (g : D -> B) l, map2 f (map h l) (map g l) = map (fun d => f (h d) (g d)) l.
Proof. induction l; cbn; congruence. Qed.

Lemma wc_counts_tiles : forall batch c (T Y : list (list R)), length T = length Y ->
  forall rs a b h g, (0 <= a)%Z -> (b <= Z.of_nat (length T))%Z -> tiles batch a b rs ->
  @wc_counts NumR T Y rs c (map (fun k => (h k, g k)) (seq 0 c)) =
    Ok (map (fun k => (h k + INR (misses (slice T a b) (slice Y a b) k), g k + INR (length (members (slice T a b) (slice Y a b) k)))) (seq 0 c)).
Proof.
  intros batch c T Y Hl. induction rs as [|[x y] r IH]; intros a b h g Ha Hb Ht.
  - cbn in Ht. subst b. cbn [wc_counts]. f_equal. apply map_ext. intros k. rewrite !slice_empty. cbn. f_equal; lra.
  - cbn [tiles] in Ht. destruct Ht as (-> & H1 & H2 & H3). pose proof (tiles_le _ _ _ _ H3) as Hyb.
    assert (length (slice T a y) = length (slice Y a y)) as L by (rewrite !slice_length_in by lia; reflexivity).
    cbn [wc_counts fst snd].
    rewrite (mapM_ok_map _ (fun k => (INR (misses (slice T a y) (slice Y a y) k), INR (length (members (slice T a y) (slice Y a y) k)))))
      by (intros; now apply wc_batch).
    cbn [rbind]. rewrite map2_map_seq. cbn [fst snd]. change (@nadd NumR) with Rplus. cbn [num NumR] in *.
    rewrite (IH y b (fun k => h k + INR (misses (slice T a y) (slice Y a y) k)) (fun k => g k + INR (length (members (slice T a y) (slice Y a y) k))))
      by (auto; lia).
    f_equal. apply map_ext. intros k. rewrite <- (slice_app T a y b), <- (slice_app Y a y b) by lia.
    rewrite misses_app, members_app, app_length, !plus_INR by exact L. f_equal; lra.
Qed.

Theorem hp_error_wc : forall e ws dT dY c (T Y : list (list R)) istart icount,
  e_class e = Some "wc"%string -> e_wc e = Some (fin_all ws) -> s_outputs (e_net e) = c -> length ws = c -> Rsum ws <> 0 -> (0 < e_batch e)%Z ->
  holds_data dT c T -> holds_data dY c Y -> wide c T -> wide c Y -> length T = length Y -> (istart <= length T)%nat ->
  (forall k, (k < c)%nat -> members (range_of T istart icount) (range_of Y istart icount) k <> []) ->
  @hp_error NumR e dT dY (Z.of_nat istart) (zcount icount) =
    Ok (@Fin NumR (weighted_err ws (range_of T istart icount) (range_of Y istart icount))).
Proof.
  intros e ws dT dY c T Y istart icount He Hw Ho Hlw Hs Hb HdT HdY HT HY Hl Hi Hne.
  unfold hp_error. rewrite Ho. rewrite (@check_holds NumR dT c T c), (@check_holds NumR dY c Y c) by auto. rewrite Nat.eqb_refl. cbn [rbind].
  pose proof (clip_bounds (length T) istart icount Hi) as [HB1 HB2].
  assert (range_of T istart icount = slice T (Z.of_nat istart) (Z.of_nat istart + clip_count (zcount icount) (length T) (Z.of_nat istart))) as ET
    by (symmetry; now apply slice_range).
  assert (range_of Y istart icount = slice Y (Z.of_nat istart) (Z.of_nat istart + clip_count (zcount icount) (length T) (Z.of_nat istart))) as EY
    by (symmetry; rewrite Hl; apply slice_range; lia).
  set (cnt := clip_count (zcount icount) (length T) (Z.of_nat istart)) in *.
  unfold hp_error_. rewrite He, Hw. cbn [num NumR] in *. fold cnt. rewrite nbatches_eq by auto. cbn [rbind].
  pose proof (wc_counts_tiles (e_batch e) c T Y Hl (ranges (e_batch e) (Z.of_nat istart) cnt (ceil_div cnt (e_batch e)))
    (Z.of_nat istart) (Z.of_nat istart + cnt)%Z (fun _ => 0) (fun _ => 0) ltac:(lia) ltac:(lia) ltac:(apply ranges_tiles; lia)) as M.
  assert (map (fun _ : nat => (0, 0)) (seq 0 c) = repeat (0, 0) c) as ER.
  { clear. generalize 0%nat. induction c; intros a; cbn; auto. now rewrite IHc. }
  cbv beta in M. cbn [num NumR] in M. rewrite ER in M. rewrite <- ET, <- EY in M. change (@n0 NumR) with 0. cbn [num NumR] in M |- *. rewrite M. cbn [rbind]. rewrite map_map. cbn [fst snd].
  set (rT := range_of T istart icount) in *. set (rY := range_of Y istart icount) in *.
  rewrite (map_ext_in _ (fun k => @Fin NumR (class_rate rT rY k))).
  - rewrite <- (map_map (class_rate rT rY) (@Fin NumR)). unfold fin_all.
    rewrite bcast_eq by (rewrite !map_length, seq_length; auto). cbn [rbind]. cbn [num NumR] in *. rewrite wsum_fin, xsum_fin. cbn [xdiv].
    rewrite np_div_R by auto. do 2 f_equal. unfold weighted_err. rewrite map2_map_l, Hlw. reflexivity.
  - intros k Hk. apply in_seq in Hk. specialize (Hne k ltac:(lia)). rewrite !Rplus_0_l.
    rewrite np_div_R; [now rewrite class_rate_some|]. apply not_0_INR. destruct (members rT rY k); [congruence|discriminate].
Qed.

(** ** C20: zero samples *)
Theorem elm_error_empty : forall e c (T Y : list (list R)), plain (e_class e) -> s_outputs (e_net e) = c -> T = [] -> Y = [] ->
  @elm_error NumR e (Arr2 c T) (Arr2 c Y) = Err AssertionError.
Proof.
  intros e c T Y Hp Ho -> ->. unfold elm_error. rewrite Ho, !check_arr2. cbn [rbind]. unfold error_.
  destruct Hp as [E|[E|E]]; rewrite E; reflexivity.
Qed.

Theorem hp_error_empty : forall e dT dY c (T Y : list (list R)) istart icount,
  plain (e_class e) -> s_outputs (e_net e) = c -> (0 < e_batch e)%Z ->
  holds_data dT c T -> holds_data dY c Y -> (clip_count icount (length T) istart <= 0)%Z ->
  @hp_error NumR e dT dY istart icount = Ok (@Fin NumR 0).
Proof.
  intros e dT dY c T Y istart icount Hp Ho Hb HdT HdY Hc.
  unfold hp_error. rewrite Ho. rewrite (@check_holds NumR dT c T c), (@check_holds NumR dY c Y c) by auto. rewrite Nat.eqb_refl. cbn [rbind].
  unfold hp_error_. cbn [num NumR] in *. rewrite nbatches_eq by auto. cbn [rbind]. rewrite ranges_nonpos by auto.
  destruct Hp as [E|[E|E]]; rewrite E; reflexivity.
Qed.

(** ** C21, C22: confusion matrices *)
Definition cell (M : list (list R)) (i j : nat) : R := entry (nth i M []) j.
(** number of samples of which [P] holds *)
Definition tally (P : list R -> list R -> bool) (T Y : list (list R)) : nat := length (filter (fun p => P (fst p) (snd p)) (combine T Y)).
Definition both_classes (i j : nat) (t y : list R) : bool := (class_of t =? i)%nat && (class_of y =? j)%nat.
Definition both_labels (i j : nat) (t y : list R) : bool := has_label (entry t i) && has_label (entry y j).
Definition conf_pred (cls : string) (i j : nat) : list R -> list R -> bool :=
  if (cls =? "ml")%string then both_labels i j else both_classes i j.

Lemma tally_app : forall P T1 Y1 T2 Y2, length T1 = length Y1 -> tally P (T1 ++ T2) (Y1 ++ Y2) = (tally P T1 Y1 + tally P T2 Y2)%nat.
Proof.
  intros. unfold tally. rewrite <- app_length, <- filter_app. do 2 f_equal. revert Y1 H. induction T1 as [|t T1 IH]; intros [|y Y1] H; cbn in *; try discriminate; auto.
  f_equal. apply IH. lia.
Qed.

Lemma conf_batch_tally : forall cls C (T Y : list (list R)), length T = length Y ->
  @conf_batch NumR cls C T Y = Ok (@mk NumR C C (fun i j => INR (tally (conf_pred cls i j) T Y))).
Proof.
  intros cls C T Y Hl. unfold conf_batch, conf_pred. rewrite bcast_eq by auto. cbn [rbind].
  destruct (cls =? "ml")%string; f_equal; apply (@mk_ext NumR); intros i j _ _;
    unfold count; change (@nsum NumR) with Rsum; rewrite map_map; unfold tally.
  - rewrite <- (b2n_sum (fun p : list R * list R => both_labels i j (fst p) (snd p))). apply f_equal. apply map_ext. intros [t y]; cbn [fst snd].
    unfold both_labels. rewrite !gthalf_label. reflexivity.
  - rewrite <- (b2n_sum (fun p : list R * list R => both_classes i j (fst p) (snd p))). apply f_equal. apply map_ext. intros [t y]; cbn [fst snd].
    unfold both_classes. rewrite !argmax_class. reflexivity.
Qed.

Lemma madd_mk : forall C f g, @madd NumR (@mk NumR C C f) (@mk NumR C C g) = @mk NumR C C (fun i j => f i j + g i j).
Proof.
  intros. unfold madd, mk. rewrite map2_map_seq. apply map_ext. intros i. unfold vadd, mkv. rewrite map2_map_seq. reflexivity.
Qed.

Fixpoint conf_go (cls : string) (C : nat) (T Y : list (list R)) (rs : list (Z * Z)) (conf : list (list R)) : res (list (list R)) :=
  match rs with
  | [] => Ok conf
  | ab :: r => let? m := @conf_batch NumR cls C (slice T (fst ab) (snd ab)) (slice Y (fst ab) (snd ab)) in
               conf_go cls C T Y r (@madd NumR conf m)
  end.

Lemma conf_loop_ranges : forall cls C (T Y : list (list R)) batch bs conf,
  @conf_loop NumR cls C T Y batch bs conf =
  conf_go cls C T Y (map (bounds batch 0 (Z.of_nat (length T))) bs) conf.
Proof.
  intros cls C T Y batch bs. induction bs as [|b bs IH]; intros conf; [reflexivity|]. cbn [conf_loop map conf_go].
  replace (bounds batch 0 (Z.of_nat (length T)) b) with (b * batch, Z.min ((b + 1) * batch) (Z.of_nat (length T)))%Z by (unfold bounds; now rewrite !Z.add_0_r).
  cbn [fst snd num NumR]. destruct (@conf_batch NumR cls C _ _); cbn [rbind]; [apply IH|reflexivity].
Qed.

Lemma conf_tiles : forall cls C batch (T Y : list (list R)), length T = length Y ->
  forall rs a b f, (0 <= a)%Z -> (b <= Z.of_nat (length T))%Z -> tiles batch a b rs ->
  conf_go cls C T Y rs (@mk NumR C C f) = Ok (@mk NumR C C (fun i j => f i j + INR (tally (conf_pred cls i j) (slice T a b) (slice Y a b)))).
Proof.
  intros cls C batch T Y Hl. induction rs as [|[x y] r IH]; intros a b f Ha Hb Ht.
  - cbn in Ht. subst b. rewrite !slice_empty. cbn [conf_go]. apply f_equal, (@mk_ext NumR). intros i j _ _. change (INR (tally (conf_pred cls i j) [] [])) with 0. rlra.
  - cbn [tiles] in Ht. destruct Ht as (-> & H1 & H2 & H3). pose proof (tiles_le _ _ _ _ H3) as Hyb.
    assert (length (slice T a y) = length (slice Y a y)) as L by (rewrite !slice_length_in by lia; reflexivity).
    cbn [conf_go fst snd]. rewrite conf_batch_tally by auto. cbn [rbind]. rewrite madd_mk.
    rewrite (IH y b) by (auto; lia). apply f_equal, (@mk_ext NumR). intros i j _ _.
    rewrite <- (slice_app T a y b), <- (slice_app Y a y b) by lia. rewrite tally_app, plus_INR by auto. lra.
Qed.

Theorem confusion_counts : forall e cls c (T Y : list (list R)),
  e_class e = Some cls -> In cls ["c"; "wc"; "ml"]%string -> s_outputs (e_net e) = c -> (0 < e_batch e)%Z ->
  length T = length Y ->
  exists M, @confusion NumR e (Arr2 c T) (Arr2 c Y) = Ok M /\ @is_mat NumR c c M /\
    forall i j, (i < c)%nat -> (j < c)%nat -> cell M i j = INR (tally (conf_pred cls i j) T Y).
Proof.
  intros e cls c T Y He Hin Ho Hb Hl.
  exists (@mk NumR c c (fun i j => INR (tally (conf_pred cls i j) T Y))). split; [|split].
  - unfold confusion. rewrite He, Ho, !check_arr2. assert (smem cls ["c"; "wc"; "ml"]%string = true) as ->.
    { destruct Hin as [<-|[<-|[<-|[]]]]; reflexivity. }
    cbn [rbind]. cbn [num NumR] in *. rewrite nbatches_eq by auto. cbn [rbind]. rewrite conf_loop_ranges.
    assert (@zero_mat NumR c c = @mk NumR c c (fun _ _ => 0)) as ->.
    { unfold zero_mat, mk, mkv. reflexivity. }
    pose proof (conf_tiles cls c (e_batch e) T Y Hl (ranges (e_batch e) 0 (Z.of_nat (length T)) (ceil_div (Z.of_nat (length T)) (e_batch e)))
      0%Z (Z.of_nat (length T)) (fun _ _ => 0) ltac:(lia) ltac:(lia) ltac:(apply (ranges_tiles (e_batch e) 0 (Z.of_nat (length T))); lia)) as E.
    unfold ranges in E. etransitivity; [exact E|]. apply f_equal, (@mk_ext NumR). intros i j _ _.
    rewrite slice_all. rewrite Hl, slice_all. lra.
  - apply (@is_mat_mk NumR).
  - intros i j Hi Hj. unfold cell, entry. rewrite <- (@mget_mk NumR c c (fun i j => INR (tally (conf_pred cls i j) T Y)) i j) by auto. reflexivity.
Qed.

Lemma Rsum_plus : forall {A} (f g : A -> R) l, Rsum (map (fun a => f a + g a) l) = Rsum (map f l) + Rsum (map g l).
Proof. induction l; cbn [map]; [rewrite Rsum_nil; lra|]. rewrite !Rsum_cons, IHl. lra. Qed.
Lemma Rsum_ext : forall {A} (f g : A -> R) l, (forall a, In a l -> f a = g a) -> Rsum (map f l) = Rsum (map g l).
Proof. intros. f_equal. now apply map_ext_in. Qed.
Lemma Rsum_const0 : forall {A} (l : list A), Rsum (map (fun _ => 0) l) = 0.
Proof. induction l; cbn [map]; [apply Rsum_nil|]. rewrite Rsum_cons, IHl. lra. Qed.
Definition ind (b : bool) : R := if b then 1 else 0.
Lemma Rsum_pick : forall (v : nat -> R) k c, (k < c)%nat -> Rsum (map (fun i => ind (k =? i)%nat * v i) (seq 0 c)) = v k.
Proof.
  intros v k c Hk. assert (forall n a, (a <= k < a + n)%nat -> Rsum (map (fun i => ind (k =? i)%nat * v i) (seq a n)) = v k) as G.
  { induction n as [|n IH]; intros a H; [lia|]. cbn [seq map]. rewrite Rsum_cons. destruct (Nat.eqb_spec k a) as [->|Hne].
    - rewrite (Rsum_ext _ (fun _ => 0)). + rewrite Rsum_const0. cbn. lra.
      + intros i Hi. apply in_seq in Hi. destruct (Nat.eqb_spec a i); [lia|]. cbn. lra.
    - rewrite IH by lia. cbn. lra. }
  apply G. lia.
Qed.
Lemma filter_cons_len : forall {A} (P : A -> bool) a l, INR (length (filter P (a :: l))) = ind (P a) + INR (length (filter P l)).
Proof. intros. cbn [filter]. destruct (P a); cbn [length ind]; rewrite ?S_INR; lra. Qed.

Lemma class_lt : forall v : list R, v <> [] -> (class_of v < length v)%nat.
Proof. intros v H. rewrite <- argmax_class. apply argmax_first. exact H. Qed.

Lemma tally_total : forall c (l : list (list R * list R)), (0 < c)%nat -> Forall (fun p => length (fst p) = c /\ length (snd p) = c) l ->
  Rsum (map (fun i => Rsum (map (fun j => INR (length (filter (fun p => both_classes i j (fst p) (snd p)) l))) (seq 0 c))) (seq 0 c)) = INR (length l) /\
  Rsum (map (fun i => INR (length (filter (fun p => both_classes i i (fst p) (snd p)) l))) (seq 0 c)) =
    INR (length l) - Rsum (map (fun p => cls_err (fst p) (snd p)) l).
Proof.
  intros c l Hc Hl. induction Hl as [|[t y] l [Ht Hy] Hl [IH1 IH2]].
  - split; cbn [filter length map INR]; rewrite ?Rsum_nil.
    + rewrite (Rsum_ext _ (fun _ => 0)); [apply Rsum_const0|]. intros. apply Rsum_const0.
    + rewrite Rsum_const0. lra.
  - cbn [fst snd] in Ht, Hy.
    assert (class_of t < c)%nat as Ct by (rewrite <- Ht; apply class_lt; intros ->; cbn in Ht; lia).
    assert (class_of y < c)%nat as Cy by (rewrite <- Hy; apply class_lt; intros ->; cbn in Hy; lia).
    cbn [length map fst snd]. rewrite S_INR, Rsum_cons. split.
    + rewrite (Rsum_ext _ (fun i => ind (class_of t =? i)%nat * 1 +
         Rsum (map (fun j => INR (length (filter (fun p => both_classes i j (fst p) (snd p)) l))) (seq 0 c)))).
      * rewrite Rsum_plus, IH1, (Rsum_pick (fun _ => 1)) by auto. lra.
      * intros i _. rewrite (Rsum_ext _ (fun j => ind (class_of y =? j)%nat * ind (class_of t =? i)%nat +
           INR (length (filter (fun p => both_classes i j (fst p) (snd p)) l)))).
        -- rewrite Rsum_plus, (Rsum_pick (fun _ => ind (class_of t =? i)%nat)) by auto. lra.
        -- intros j _. rewrite filter_cons_len. cbn [fst snd]. unfold both_classes at 1.
           destruct (class_of t =? i)%nat, (class_of y =? j)%nat; cbn; lra.
    + rewrite (Rsum_ext _ (fun i => ind (class_of t =? i)%nat * ind (class_of y =? i)%nat +
         INR (length (filter (fun p => both_classes i i (fst p) (snd p)) l)))).
      * rewrite Rsum_plus, IH2, (Rsum_pick (fun i => ind (class_of y =? i)%nat)) by auto.
        unfold cls_err. rewrite (Nat.eqb_sym (class_of y)). destruct (class_of t =? class_of y)%nat; cbn; lra.
      * intros i _. rewrite filter_cons_len. cbn [fst snd]. unfold both_classes at 1.
        destruct (class_of t =? i)%nat, (class_of y =? i)%nat; cbn; lra.
Qed.

Theorem confusion_totals : forall e cls c (T Y : list (list R)) M,
  e_class e = Some cls -> In cls ["c"; "wc"]%string -> s_outputs (e_net e) = c -> (0 < c)%nat -> (0 < e_batch e)%Z ->
  wide c T -> wide c Y -> length T = length Y -> @confusion NumR e (Arr2 c T) (Arr2 c Y) = Ok M ->
  Rsum (map (fun i => Rsum (map (cell M i) (seq 0 c))) (seq 0 c)) = INR (length T) /\
  (T <> [] -> mean (map2 cls_err T Y) = 1 - Rsum (map (fun i => cell M i i) (seq 0 c)) / INR (length T)).
Proof.
  intros e cls c T Y M He Hin Ho Hc Hb HT HY Hl HM.
  destruct (confusion_counts e cls c T Y He) as (M' & E & _ & HC); auto.
  { destruct Hin as [<-|[<-|[]]]; cbn; auto. }
  rewrite HM in E. apply Ok_inj in E. subst M'.
  assert (forall i j, conf_pred cls i j = both_classes i j) as EP by (intros; destruct Hin as [<-|[<-|[]]]; reflexivity).
  destruct (tally_total c (combine T Y) Hc (combine_pairs c T Y HT HY)) as [H1 H2].
  assert (length (combine T Y) = length T) as EL by (rewrite combine_length; lia). rewrite EL in *.
  split.
  - rewrite <- H1. apply Rsum_ext. intros i Hi. apply in_seq in Hi. apply Rsum_ext. intros j Hj. apply in_seq in Hj.
    rewrite HC by lia. rewrite EP. reflexivity.
  - intros Hn. rewrite (Rsum_ext _ (fun i => INR (length (filter (fun p => both_classes i i (fst p) (snd p)) (combine T Y))))).
    + rewrite H2. unfold mean. rewrite map2_combine, map_length, EL.
      assert (INR (length T) <> 0) by (apply not_0_INR; destruct T; [congruence|discriminate]).
      replace (map (fun p => cls_err (fst p) (snd p)) (combine T Y)) with (map (fun p : list R * list R => let (a, b) := p in cls_err a b) (combine T Y)) by (apply map_ext; intros [? ?]; reflexivity).
      match goal with |- Rsum ?a / _ = 1 - (_ - Rsum ?b) / _ => replace b with a; [field; auto|] end.
      apply map_ext. intros [? ?]; reflexivity.
    + intros i Hi. apply in_seq in Hi. rewrite HC by lia. rewrite EP. reflexivity.
Qed.

(** HPELM with a class that has no samples in the range: 0/0 *)
Lemma xsum_nan : forall l, In (@XNaN NumR) l -> @xsum NumR l = XNaN.
Proof.
  induction l as [|x l IH]; intros H; [contradiction|]. cbn [xsum fold_right]. change (fold_right xadd (Fin n0) l) with (@xsum NumR l).
  destruct H as [->|H]; [destruct (xsum l); reflexivity|]. rewrite IH by auto. destruct x; reflexivity.
Qed.

Theorem hp_error_wc_absent : forall e ws dT dY c (T Y : list (list R)) istart icount k,
  e_class e = Some "wc"%string -> e_wc e = Some (fin_all ws) -> s_outputs (e_net e) = c -> length ws = c -> (0 < e_batch e)%Z ->
  holds_data dT c T -> holds_data dY c Y -> wide c T -> wide c Y -> length T = length Y -> (istart <= length T)%nat ->
  (k < c)%nat -> members (range_of T istart icount) (range_of Y istart icount) k = [] ->
  @hp_error NumR e dT dY (Z.of_nat istart) (zcount icount) = Ok (@XNaN NumR).
Proof.
  intros e ws dT dY c T Y istart icount k He Hw Ho Hlw Hb HdT HdY HT HY Hl Hi Hk Hab.
  unfold hp_error. rewrite Ho. rewrite (@check_holds NumR dT c T c), (@check_holds NumR dY c Y c) by auto. rewrite Nat.eqb_refl. cbn [rbind].
  pose proof (clip_bounds (length T) istart icount Hi) as [HB1 HB2].
  assert (range_of T istart icount = slice T (Z.of_nat istart) (Z.of_nat istart + clip_count (zcount icount) (length T) (Z.of_nat istart))) as ET
    by (symmetry; now apply slice_range).
  assert (range_of Y istart icount = slice Y (Z.of_nat istart) (Z.of_nat istart + clip_count (zcount icount) (length T) (Z.of_nat istart))) as EY
    by (symmetry; rewrite Hl; apply slice_range; lia).
  set (cnt := clip_count (zcount icount) (length T) (Z.of_nat istart)) in *.
  unfold hp_error_. rewrite He, Hw. cbn [num NumR] in *. fold cnt. rewrite nbatches_eq by auto. cbn [rbind].
  pose proof (wc_counts_tiles (e_batch e) c T Y Hl (ranges (e_batch e) (Z.of_nat istart) cnt (ceil_div cnt (e_batch e)))
    (Z.of_nat istart) (Z.of_nat istart + cnt)%Z (fun _ => 0) (fun _ => 0) ltac:(lia) ltac:(lia) ltac:(apply ranges_tiles; lia)) as M.
  assert (map (fun _ : nat => (0, 0)) (seq 0 c) = repeat (0, 0) c) as ER.
  { clear. generalize 0%nat. induction c; intros a; cbn; auto. now rewrite IHc. }
  cbv beta in M. cbn [num NumR] in M. rewrite ER in M. rewrite <- ET, <- EY in M. change (@n0 NumR) with 0. cbn [num NumR] in M |- *. rewrite M. cbn [rbind]. rewrite map_map. cbn [fst snd].
  set (rT := range_of T istart icount) in *. set (rY := range_of Y istart icount) in *.
  unfold fin_all. rewrite bcast_eq by (rewrite !map_length, seq_length; auto). cbn [rbind].
  match goal with |- context [xsum (map ?f (combine ?l ?m))] => assert (xsum (map f (combine l m)) = @XNaN NumR) as EN end.
  { apply xsum_nan. apply in_map_iff. exists (@XNaN NumR, @Fin NumR (nth k ws 0)). split; [reflexivity|].
    match goal with |- In _ (combine ?l ?m) => assert (nth k (combine l m) (@XNaN NumR, @XNaN NumR) = (@XNaN NumR, @Fin NumR (nth k ws 0))) as EK end.
    { rewrite combine_nth by (rewrite !map_length, seq_length; auto). f_equal.
      - match goal with |- nth k (map ?f _) _ = _ => rewrite (nth_indep _ _ (f 0%nat)) by (rewrite map_length, seq_length; auto); rewrite (map_nth f) end.
        rewrite seq_nth by auto. rewrite Nat.add_0_l. unfold misses. rewrite Hab. cbn [filter length INR]. rewrite !Rplus_0_l.
        unfold np_div. change (@neqb NumR 0 n0) with (Reqb 0 0). unfold Reqb. destruct (Req_EM_T 0 0); [reflexivity|congruence].
      - rewrite (nth_indep _ _ (@Fin NumR 0)) by (rewrite map_length; cbn [num NumR]; lia). apply map_nth. }
    rewrite <- EK. apply nth_In. rewrite combine_length, !map_length, seq_length. cbn [num NumR]. lia. }
  cbn [num NumR] in EN |- *. rewrite EN. reflexivity.
Qed.

Theorem hp_elm_error : forall e dT dY c (T Y : list (list R)) istart icount,
  plain (e_class e) -> s_outputs (e_net e) = c -> (0 < c)%nat -> (0 < e_batch e)%Z ->
  holds_data dT c T -> holds_data dY c Y -> wide c T -> wide c Y -> length T = length Y ->
  (istart <= length T)%nat -> range_of T istart icount <> [] ->
  @hp_error NumR e dT dY (Z.of_nat istart) (zcount icount) =
    @elm_error NumR e (Arr2 c (range_of T istart icount)) (Arr2 c (range_of Y istart icount)).
Proof.
  intros. rewrite (hp_error_mean e dT dY c T Y) by auto. symmetry.
  assert (forall (X : list (list R)), wide c X -> wide c (range_of X istart icount)) as W.
  { intros X HX. unfold wide, range_of. destruct icount; [apply Forall_firstn|]; apply Forall_skipn; exact HX. }
  apply elm_error_mean; auto.
  pose proof (range_of_length T istart icount ltac:(auto)). pose proof (range_of_length Y istart icount ltac:(lia)).
  assert (length Y = length T) as EL by auto. cbn [num NumR] in *. rewrite EL in *. lia.
Qed.

Theorem confusion_classes : forall e cls c (T Y : list (list R)),
  e_class e = Some cls -> In cls ["c"; "wc"]%string -> s_outputs (e_net e) = c -> (0 < e_batch e)%Z ->
  length T = length Y ->
  exists M, @confusion NumR e (Arr2 c T) (Arr2 c Y) = Ok M /\ @is_mat NumR c c M /\
    forall i j, (i < c)%nat -> (j < c)%nat -> cell M i j = INR (tally (both_classes i j) T Y).
Proof.
  intros e cls c T Y He Hin Ho Hb Hl. destruct (confusion_counts e cls c T Y He) as (M & H1 & H2 & H3); auto.
  { destruct Hin as [<-|[<-|[]]]; cbn; auto. }
  exists M. split; [auto|]. split; [auto|]. intros i j Hi Hj. rewrite H3 by auto. destruct Hin as [<-|[<-|[]]]; reflexivity.
Qed.
Theorem confusion_labels : forall e c (T Y : list (list R)),
  e_class e = Some "ml"%string -> s_outputs (e_net e) = c -> (0 < e_batch e)%Z -> length T = length Y ->
  exists M, @confusion NumR e (Arr2 c T) (Arr2 c Y) = Ok M /\ @is_mat NumR c c M /\
    forall i j, (i < c)%nat -> (j < c)%nat -> cell M i j = INR (tally (both_labels i j) T Y).
Proof. intros e c T Y He Ho Hb Hl. apply (confusion_counts e "ml" c T Y); cbn; auto. Qed.
