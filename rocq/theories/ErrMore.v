(** Range, zero and order of the errors (C78; reals). *)
From Coq Require Import Reals Lra Permutation.
From Verif Require Import Base Num Mat LinAlg Slfn Strs Elm Mrsr Search Mss Hpelm MatFacts SplitProofs Spec ElmFacts RLin
  AccProofs TrainProofs TrainThms RangeThms RangeTrain ErrThms.
Local Open Scope R_scope.
#[local] Existing Instance NumR.

(** the prediction y is right about the sample with target t *)
Definition right (cls : option string) (c : nat) (t y : list R) : Prop :=
  match cls with
  | Some "c"%string => class_of t = class_of y
  | Some "ml"%string => forall j, (j < c)%nat -> has_label (entry t j) = has_label (entry y j)
  | _ => t = y
  end.

Lemma Rsum_ge0 : forall l, (forall x, In x l -> 0 <= x) -> 0 <= Rsum l.
Proof.
  induction l as [|a l IH]; intros H; cbn; [lra|]. pose proof (H a (or_introl eq_refl)).
  assert (0 <= Rsum l) by (apply IH; intros; apply H; now right). unfold Rsum in *. lra.
Qed.
Lemma Rsum_0 : forall l, (forall x, In x l -> 0 <= x) -> Rsum l = 0 <-> (forall x, In x l -> x = 0).
Proof.
  induction l as [|a l IH]; intros H; cbn; [tauto|]. pose proof (H a (or_introl eq_refl)).
  assert (0 <= Rsum l) as P by (apply Rsum_ge0; intros; apply H; now right).
  destruct (IH (fun x Hx => H x (or_intror Hx))) as [I1 I2]. unfold Rsum in *. split.
  - intros E x [<-|Hx]; [lra|]. apply I1; auto. lra.
  - intros E. rewrite I2; [|intros; apply E; now right]. rewrite (E a (or_introl eq_refl)). lra.
Qed.
Lemma Rsum_le_count : forall l, (forall x, In x l -> x <= 1) -> Rsum l <= INR (length l).
Proof.
  induction l as [|a l IH]; intros H; [cbn; lra|]. change (Rsum (a :: l)) with (a + Rsum l). cbn [length]. rewrite S_INR.
  pose proof (H a (or_introl eq_refl)). assert (Rsum l <= INR (length l)) by (apply IH; intros; apply H; now right). lra.
Qed.

Lemma filter_le : forall {A} (P : A -> bool) l, (length (filter P l) <= length l)%nat.
Proof. induction l as [|a l IH]; cbn; [lia|]. destruct (P a); cbn; lia. Qed.
Lemma filter_none : forall {A} (P : A -> bool) l, length (filter P l) = 0%nat <-> (forall x, In x l -> P x = false).
Proof.
  induction l as [|a l IH]; cbn; [tauto|]. destruct (P a) eqn:E; cbn.
  - split; [discriminate|]. intros H. specialize (H a (or_introl eq_refl)). congruence.
  - rewrite IH. split; [intros H x [<-|Hx]; auto|intros H x Hx; auto].
Qed.

Lemma frac_range : forall a n, (0 < n)%nat -> 0 <= a <= INR n -> 0 <= a / INR n <= 1.
Proof.
  intros a n Hn [H1 H2]. assert (0 < INR n) by (now apply lt_0_INR). split.
  - apply Rmult_le_pos; [auto|]. left. now apply Rinv_0_lt_compat.
  - apply (Rmult_le_reg_r (INR n)); [auto|]. unfold Rdiv. rewrite Rmult_assoc, Rinv_l, Rmult_1_r by lra. lra.
Qed.
Lemma frac_0 : forall a b, 0 < b -> a / b = 0 <-> a = 0.
Proof.
  intros a b Hb. split; intros H; [|subst; unfold Rdiv; lra].
  replace a with (a / b * b) by (field; lra). rewrite H. lra.
Qed.

Lemma sample_err_ge0 : forall cls c t y, (0 < c)%nat -> 0 <= sample_err cls c t y.
Proof.
  intros cls c t y Hc. assert (0 < INR c) by (now apply lt_0_INR).
  assert (0 <= sq_err c t y).
  { unfold sq_err. apply Rmult_le_pos; [|left; now apply Rinv_0_lt_compat]. apply Rsum_ge0. intros x Hx. apply in_map_iff in Hx as (j & <- & _). apply pow2_ge_0. }
  assert (0 <= cls_err t y) by (unfold cls_err; destruct (_ =? _)%nat; lra).
  assert (0 <= label_err c t y) by (unfold label_err; apply Rmult_le_pos; [apply pos_INR|left; now apply Rinv_0_lt_compat]).
  unfold sample_err. destruct cls as [s|]; [|auto].
  repeat (match goal with |- context [match ?x with _ => _ end] => destruct x end; auto).
Qed.
Lemma sample_err_le1 : forall cls c t y, (0 < c)%nat -> cls = Some "c"%string \/ cls = Some "ml"%string -> sample_err cls c t y <= 1.
Proof.
  intros cls c t y Hc [->| ->]; cbn.
  - unfold cls_err. destruct (_ =? _)%nat; lra.
  - unfold label_err. apply frac_range; auto. split; [apply pos_INR|]. apply le_INR.
    etransitivity; [apply filter_le|]. now rewrite seq_length.
Qed.
Lemma sample_err_0 : forall cls c t y, plain cls -> (0 < c)%nat -> length t = c -> length y = c ->
  sample_err cls c t y = 0 <-> right cls c t y.
Proof.
  intros cls c t y Hp Hc Lt Ly. assert (0 < INR c) by (now apply lt_0_INR). destruct Hp as [->|[->| ->]]; cbn.
  - unfold sq_err. rewrite frac_0 by auto. rewrite Rsum_0.
    + split.
      * intros H0. apply (nth_ext _ _ 0 0); [congruence|]. intros j Hj.
        specialize (H0 ((entry y j - entry t j) ^ 2) ltac:(apply in_map_iff; exists j; split; [reflexivity|]; apply in_seq; lia)).
        unfold entry in H0. assert (nth j y 0 - nth j t 0 = 0) by (apply Rsqr_eq_0; unfold Rsqr; lra). lra.
      * intros -> x Hx. apply in_map_iff in Hx as (j & <- & _). unfold Rminus. rewrite Rplus_opp_r. lra.
    + intros x Hx. apply in_map_iff in Hx as (j & <- & _). apply pow2_ge_0.
  - unfold cls_err. destruct (class_of t =? class_of y)%nat eqn:E.
    + apply Nat.eqb_eq in E. tauto.
    + apply Nat.eqb_neq in E. split; [lra|]. intros. contradiction.
  - unfold label_err. rewrite frac_0 by auto. split.
    + intros H0 j Hj. apply INR_eq with (m := 0%nat) in H0. rewrite filter_none in H0.
      specialize (H0 j ltac:(apply in_seq; lia)). apply Bool.negb_false_iff, Bool.eqb_prop in H0. auto.
    + intros Hr. change 0 with (INR 0). f_equal. apply filter_none. intros j Hj. apply in_seq in Hj.
      rewrite (Hr j) by lia. apply Bool.negb_false_iff. apply Bool.eqb_reflx.
Qed.

(** every pair of a target and its prediction *)
Lemma errs_in : forall cls c T Y x, In x (errs cls c T Y) <-> exists p, In p (combine T Y) /\ x = sample_err cls c (fst p) (snd p).
Proof.
  intros. rewrite errs_combine, in_map_iff. split; intros (p & H1 & H2); exists p; split; congruence || auto.
Qed.

Lemma mean_errs : forall cls c T Y, plain cls -> (0 < c)%nat -> wide c T -> wide c Y -> length T = length Y -> T <> [] ->
  let r := mean (errs cls c T Y) in
  0 <= r /\ (cls <> None -> r <= 1) /\ (r = 0 <-> Forall2 (right cls c) T Y).
Proof.
  intros cls c T Y Hp Hc HT HY Hl Hn r. subst r.
  assert (0 < length T)%nat as HN by (destruct T; [congruence|cbn; lia]).
  assert (0 < INR (length T)) as HR by (now apply lt_0_INR).
  assert (length (errs cls c T Y) = length T) as EL by (now apply errs_length).
  assert (forall x, In x (errs cls c T Y) -> 0 <= x) as HP.
  { intros x Hx. apply errs_in in Hx as (p & _ & ->). now apply sample_err_ge0. }
  unfold mean. rewrite EL. split; [|split].
  - apply Rmult_le_pos; [now apply Rsum_ge0|]. left. now apply Rinv_0_lt_compat.
  - intros Hcls. apply frac_range; auto. split; [now apply Rsum_ge0|]. rewrite <- EL. apply Rsum_le_count.
    intros x Hx. apply errs_in in Hx as (p & _ & ->). apply sample_err_le1; auto. destruct Hp as [->|[->| ->]]; auto. congruence.
  - rewrite frac_0 by auto. rewrite Rsum_0 by auto. clear HP EL HN HR Hn.
    revert Y HY Hl. induction T as [|t T IH]; intros [|y Y] HY Hl; try discriminate.
    + split; [constructor|]. intros _ x [].
    + apply Forall_cons_iff in HT as [Ht HT]. apply Forall_cons_iff in HY as [Hy HY]. injection Hl as Hl. specialize (IH HT Y HY Hl). unfold errs in *. cbn [map2]. split.
      * intros H. constructor.
        -- apply sample_err_0; auto. apply H. now left.
        -- apply IH. intros x Hx. apply H. now right.
      * intros H x Hx. inversion H; subst. destruct Hx as [<-|Hx].
        -- apply sample_err_0; auto.
        -- apply IH; auto.
Qed.

Lemma Rsum_perm : forall l m, Permutation l m -> Rsum l = Rsum m.
Proof. induction 1; cbn in *; unfold Rsum in *; cbn; lra. Qed.

Lemma mean_errs_perm : forall cls c T Y T' Y', Permutation (combine T Y) (combine T' Y') -> mean (errs cls c T Y) = mean (errs cls c T' Y').
Proof.
  intros cls c T Y T' Y' H. unfold mean. rewrite !errs_combine.
  assert (Permutation (map (fun p => sample_err cls c (fst p) (snd p)) (combine T Y)) (map (fun p => sample_err cls c (fst p) (snd p)) (combine T' Y'))) as P
    by (now apply Permutation_map).
  rewrite (Rsum_perm _ _ P), (Permutation_length P). reflexivity.
Qed.

(** ** Weighted classification *)
Lemma class_rate_range : forall T Y k, 0 <= class_rate T Y k <= 1.
Proof.
  intros T Y k. unfold class_rate. destruct (members T Y k) as [|p l] eqn:E; [lra|]. rewrite <- E.
  apply frac_range; [rewrite E; cbn; lia|]. split; [apply pos_INR|]. apply le_INR. apply filter_le.
Qed.
Lemma map2_seq_in : forall {A} (f : nat -> R -> A) ws a x, In x (map2 f (seq a (length ws)) ws) ->
  exists k w, (a <= k < a + length ws)%nat /\ In w ws /\ x = f k w.
Proof.
  induction ws as [|w ws IH]; intros a x; cbn; [tauto|]. intros [<-|H].
  - exists a, w. split; [lia|]. auto.
  - destruct (IH _ _ H) as (k & v & H1 & H2 & H3). exists k, v. split; [lia|]. auto.
Qed.
Lemma weighted_range : forall ws T Y, (forall w, In w ws -> 0 <= w) -> 0 < Rsum ws -> 0 <= weighted_err ws T Y <= 1.
Proof.
  intros ws T Y Hw Hs. unfold weighted_err.
  assert (0 <= Rsum (map2 (fun k w => class_rate T Y k * w) (seq 0 (length ws)) ws) <= Rsum ws) as [H1 H2].
  { clear Hs. generalize 0%nat as a. induction ws as [|w ws IH]; intros a; cbn; [lra|].
    pose proof (Hw w (or_introl eq_refl)). pose proof (class_rate_range T Y a).
    destruct (IH (fun v Hv => Hw v (or_intror Hv)) (S a)). unfold Rsum in *. nra. }
  split.
  - apply Rmult_le_pos; auto. left. now apply Rinv_0_lt_compat.
  - apply (Rmult_le_reg_r (Rsum ws)); [auto|]. unfold Rdiv. rewrite Rmult_assoc, Rinv_l, Rmult_1_r by lra. lra.
Qed.

(** the prediction is right for every sample, whose class is the column with the 1 *)
Definition all_right (T Y : list (list R)) (ks : list nat) : Prop := Forall2 (fun y k => class_of y = k) Y ks.

Lemma has_class_in : forall c t k j, has_class c t k -> (j < c)%nat -> in_class j t = (j =? k)%nat.
Proof.
  intros c t k j (H1 & H2 & H3) Hj. unfold in_class, entry. rewrite H3 by auto.
  destruct (j =? k)%nat; destruct (Req_EM_T _ _); auto; lra.
Qed.
Lemma class_rate_0 : forall T Y k, class_rate T Y k = 0 <-> (forall p, In p (combine T Y) -> in_class k (fst p) = true -> class_of (snd p) = k).
Proof.
  intros T Y k. unfold class_rate.
  assert (forall p, In p (members T Y k) <-> In p (combine T Y) /\ in_class k (fst p) = true) as HM by (intros; unfold members; apply filter_In).
  destruct (members T Y k) as [|q l] eqn:E.
  - split; auto. intros _ p H1 H2. assert (In p []) by (apply HM; auto). contradiction.
  - rewrite <- E in *. rewrite frac_0 by (apply lt_0_INR; rewrite E; cbn; lia). split.
    + intros H p H1 H2. apply INR_eq with (m := 0%nat) in H. rewrite filter_none in H.
      specialize (H p (proj2 (HM p) (conj H1 H2))). apply Bool.negb_false_iff, Nat.eqb_eq in H. exact H.
    + intros H. change 0 with (INR 0). f_equal. apply filter_none. intros p Hp. apply HM in Hp as [H1 H2].
      apply Bool.negb_false_iff, Nat.eqb_eq. auto.
Qed.
Lemma weighted_0 : forall c ws T Y ks, length ws = c -> (forall w, In w ws -> 0 < w) -> (0 < c)%nat ->
  Forall2 (has_class c) T ks -> length T = length Y ->
  weighted_err ws T Y = 0 <-> all_right T Y ks.
Proof.
  intros c ws T Y ks Hl Hw Hc HT HL.
  assert (0 < Rsum ws) as Hs.
  { destruct ws as [|w ws]; [cbn in Hl; lia|]. change (Rsum (w :: ws)) with (w + Rsum ws). pose proof (Hw w (or_introl eq_refl)).
    assert (0 <= Rsum ws) by (apply Rsum_ge0; intros v Hv; left; apply Hw; now right). lra. }
  unfold weighted_err. rewrite frac_0 by auto.
  assert (Rsum (map2 (fun k w => class_rate T Y k * w) (seq 0 (length ws)) ws) = 0 <-> (forall k, (k < c)%nat -> class_rate T Y k = 0)) as ->.
  { rewrite Rsum_0.
    - split.
      + intros H k Hk. pose proof (Hw (nth k ws 0) ltac:(apply nth_In; lia)) as Hp.
        assert (class_rate T Y k * nth k ws 0 = 0) as HZ.
        { apply H. replace (class_rate T Y k * nth k ws 0) with (nth k (map2 (fun k w => class_rate T Y k * w) (seq 0 (length ws)) ws) 0).
          - apply nth_In. rewrite map2_length, seq_length. lia.
          - rewrite map2_combine. set (g := fun p : nat * R => class_rate T Y (fst p) * snd p).
            rewrite (nth_indep _ 0 (g (0%nat, 0))) by (rewrite map_length, combine_length, seq_length; lia).
            rewrite map_nth. rewrite combine_nth by (now rewrite seq_length). rewrite seq_nth by lia. reflexivity. }
        apply Rmult_integral in HZ. lra.
      + intros H x Hx. apply map2_seq_in in Hx as (k & w & H1 & H2 & ->). rewrite H by lia. lra.
    - intros x Hx. apply map2_seq_in in Hx as (k & w & H1 & H2 & ->). pose proof (Hw w H2). pose proof (class_rate_range T Y k). nra. }
  split.
  - intros H. assert (forall p, In p (combine T Y) -> forall k, (k < c)%nat -> in_class k (fst p) = true -> class_of (snd p) = k) as HA
      by (intros p Hp k Hk Hi; exact (proj1 (class_rate_0 T Y k) (H k Hk) p Hp Hi)).
    clear H. unfold all_right. revert Y HL HA. induction HT as [|t k T ks Ht HT IH]; intros [|y Y] HL HA; try discriminate; constructor.
    + apply (HA (t, y)); [now left|apply Ht|]. cbn [fst]. rewrite (has_class_in c t k k Ht) by apply Ht. apply Nat.eqb_refl.
    + apply IH; [cbn in HL; lia|]. intros p Hp. apply HA. now right.
  - intros H k Hk. apply class_rate_0. intros [t y] Hp Hi. cbn [fst snd] in *. unfold all_right in H.
    revert Y HL H Hp. induction HT as [|t' k' T ks Ht HT IH]; intros [|y' Y] HL H Hp; try discriminate; [contradiction|].
    inversion H; subst. destruct Hp as [Hp|Hp].
    + injection Hp as -> ->. rewrite (has_class_in _ _ _ k Ht Hk) in Hi. apply Nat.eqb_eq in Hi. congruence.
    + apply (IH Y); auto.
Qed.
Lemma class_rate_perm : forall T Y T' Y' k, Permutation (combine T Y) (combine T' Y') -> class_rate T Y k = class_rate T' Y' k.
Proof.
  intros T Y T' Y' k H. unfold class_rate.
  assert (forall (P : list R * list R -> bool) l m, Permutation l m -> Permutation (filter P l) (filter P m)) as FP.
  { intros P l m Q. induction Q; cbn; auto.
    - destruct (P x); auto.
    - destruct (P x), (P y); auto; constructor.
    - etransitivity; eauto. }
  assert (Permutation (members T Y k) (members T' Y' k)) as P by (apply FP; exact H).
  assert (length (filter (fun p => negb (class_of (snd p) =? k)%nat) (members T Y k)) = length (filter (fun p => negb (class_of (snd p) =? k)%nat) (members T' Y' k))) as E
    by (apply Permutation_length, FP, P).
  pose proof (Permutation_length P) as EL.
  destruct (members T Y k), (members T' Y' k); try discriminate; [reflexivity|]. rewrite E, EL. reflexivity.
Qed.
Lemma weighted_perm : forall ws T Y T' Y', Permutation (combine T Y) (combine T' Y') -> weighted_err ws T Y = weighted_err ws T' Y'.
Proof.
  intros ws T Y T' Y' H. unfold weighted_err. f_equal. f_equal. rewrite !map2_combine. apply map_ext. intros [k w]. now rewrite (class_rate_perm T Y T' Y').
Qed.

(** ** error() of ELM and HPELM *)
Theorem error_range : forall e c (T Y : list (list R)),
  plain (e_class e) -> s_outputs (e_net e) = c -> (0 < c)%nat -> wide c T -> wide c Y -> length T = length Y -> T <> [] ->
  exists r, @elm_error NumR e (Arr2 c T) (Arr2 c Y) = Ok (@Fin NumR r) /\
    0 <= r /\ (e_class e <> None -> r <= 1) /\ (r = 0 <-> Forall2 (right (e_class e) c) T Y).
Proof.
  intros e c T Y Hp Ho Hc HT HY Hl Hn. exists (mean (errs (e_class e) c T Y)). split; [now apply elm_error_mean|].
  now apply mean_errs.
Qed.
Theorem hp_error_range : forall e dT dY c (T Y : list (list R)) istart icount,
  plain (e_class e) -> s_outputs (e_net e) = c -> (0 < c)%nat -> (0 < e_batch e)%Z ->
  holds_data dT c T -> holds_data dY c Y -> wide c T -> wide c Y -> length T = length Y ->
  (istart <= length T)%nat -> range_of T istart icount <> [] ->
  exists r, @hp_error NumR e dT dY (Z.of_nat istart) (zcount icount) = Ok (@Fin NumR r) /\
    0 <= r /\ (e_class e <> None -> r <= 1) /\
    (r = 0 <-> Forall2 (right (e_class e) c) (range_of T istart icount) (range_of Y istart icount)).
Proof.
  intros e dT dY c T Y i n Hp Ho Hc Hb HdT HdY HT HY Hl Hi Hne. eexists. split; [now apply (hp_error_mean e dT dY c T Y)|].
  assert (forall (X : list (list R)), wide c X -> wide c (range_of X i n)) as W.
  { intros X HX. unfold wide, range_of. destruct n; [apply Forall_firstn|]; apply Forall_skipn; exact HX. }
  apply mean_errs; auto.
  pose proof (range_of_length T i n Hi). pose proof (range_of_length Y i n ltac:(lia)).
  assert (length Y = length T) as EL by auto. cbn [num NumR] in *. rewrite EL in *. lia.
Qed.
Theorem error_order : forall e c (T Y T' Y' : list (list R)),
  plain (e_class e) -> s_outputs (e_net e) = c -> (0 < c)%nat -> wide c T -> wide c Y -> length T = length Y ->
  length T' = length Y' -> Permutation (combine T Y) (combine T' Y') ->
  @elm_error NumR e (Arr2 c T) (Arr2 c Y) = @elm_error NumR e (Arr2 c T') (Arr2 c Y').
Proof.
  intros e c T Y T' Y' Hp Ho Hc HT HY Hl Hl' P.
  pose proof (Permutation_length P) as EL. rewrite !combine_length in EL.
  destruct T as [|t T].
  { destruct Y; [|discriminate]. destruct T' as [|t' T']; [|destruct Y'; cbn in *; discriminate]. destruct Y'; [reflexivity|discriminate]. }
  assert (T' <> []) as Hn' by (intros ->; cbn in *; destruct Y; cbn in *; discriminate).
  assert (wide c T' /\ wide c Y') as [HT' HY'].
  { assert (Forall (fun p => length (fst p) = c /\ length (snd p) = c) (combine T' Y')) as F.
    { apply (Permutation_Forall P). now apply combine_pairs. }
    clear - F Hl'. revert Y' Hl' F. unfold wide. induction T' as [|a T' IH]; intros [|b Y'] Hl F; try discriminate; [auto|].
    cbn in F. inversion F; subst. cbn in *. destruct (IH Y' ltac:(lia) H2). split; constructor; tauto. }
  rewrite !elm_error_mean by (auto; discriminate). now rewrite (mean_errs_perm _ _ _ _ _ _ P).
Qed.
Theorem error_weighted_range : forall e ws c (T Y : list (list R)) ks,
  e_class e = Some "wc"%string -> e_wc e = Some (fin_all ws) -> s_outputs (e_net e) = c -> length ws = c -> (0 < c)%nat ->
  (forall w, In w ws -> 0 < w) -> Forall2 (has_class c) T ks -> wide c Y -> length T = length Y ->
  exists r, @elm_error NumR e (Arr2 c T) (Arr2 c Y) = Ok (@Fin NumR r) /\ 0 <= r <= 1 /\ (r = 0 <-> Forall2 (fun y k => class_of y = k) Y ks).
Proof.
  intros e ws c T Y ks He Hw Ho Hlw Hc Hpos HT HY Hl.
  assert (0 < Rsum ws) as Hs.
  { destruct ws as [|w ws]; [cbn in Hlw; lia|]. change (Rsum (w :: ws)) with (w + Rsum ws). pose proof (Hpos w (or_introl eq_refl)).
    assert (0 <= Rsum ws) by (apply Rsum_ge0; intros v Hv; left; apply Hpos; now right). lra. }
  exists (weighted_err ws T Y). split; [|split].
  - apply elm_error_wc; auto; [lra|]. clear - HT. induction HT as [|t k T ks Ht HT IH]; constructor; auto. apply Ht.
  - apply weighted_range; auto. intros w Hin. left. auto.
  - now apply (weighted_0 c ws T Y ks).
Qed.
