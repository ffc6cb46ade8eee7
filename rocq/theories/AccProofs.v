(** What the solvers accumulate (reals). *)
From Coq Require Import Reals Lra Permutation.
From Verif Require Import Base Num Mat LinAlg Slfn MatFacts RLin Spec.
Local Open Scope R_scope.
#[local] Existing Instance NumR.

Lemma Rsum_N : forall l, Rsum l = N_ l.
Proof. reflexivity. Qed.
Lemma entry_vget : forall v i, entry v i = vget v i.
Proof. reflexivity. Qed.

Lemma spec_HH_mk : forall L norm ss, spec_HH L norm ss =
  mk L L (fun i j => (if (i =? j)%nat then norm else 0) +
                     N_ (map (fun s => sm_w s * vget (sm_h s) i * vget (sm_h s) j) ss)).
Proof. reflexivity. Qed.
Lemma spec_HT_mk : forall L c ss, spec_HT L c ss =
  mk L c (fun i k => N_ (map (fun s => sm_w s * vget (sm_h s) i * vget (sm_t s) k) ss)).
Proof. reflexivity. Qed.

Lemma vget_scale : forall (w : R) r i, vget (map (fun a => a * w) r) i = vget r i * w.
Proof.
  intros w r i. unfold vget. destruct (Nat.lt_ge_cases i (length r)).
  - rewrite nth_map_lt with (da := 0) by auto. reflexivity.
  - rewrite !nth_overflow; try rlra; try rewrite map_length; auto.
Qed.

Lemma tdot_scaled : forall ws H T (p q i j : nat), (i < p)%nat -> (j < q)%nat ->
  length ws = length H -> length ws = length T -> (forall w, In w ws -> 0 <= w) ->
  N_ (map2 (fun ra rb => vget ra i * vget rb j)
        (map2 (fun w r => map (fun a => a * w) r) (map sqrt ws) H)
        (map2 (fun w r => map (fun a => a * w) r) (map sqrt ws) T))
  = N_ (map (fun s => sm_w s * vget (sm_h s) i * vget (sm_t s) j) (samples ws H T)).
Proof.
  induction ws as [|w ws IH]; intros [|h H] [|t T] p q i j Hi Hj H1 H2 Hw; cbn [length] in *; try discriminate.
  - reflexivity.
  - cbn [map map2 samples]. rewrite !nsum_cons. rewrite IH with (p := p) (q := q); auto; try (intros; apply Hw; simpl; auto).
    rewrite !vget_scale. unfold sm_w, sm_h, sm_t; cbn [fst snd].
    assert (sqrt w * sqrt w = w) as E by (apply sqrt_sqrt; apply Hw; simpl; auto).
    rn. rewrite <- E at 3. ring.
Qed.

Lemma tdot_scaled_h : forall ws H T (i j : nat),
  length ws = length H -> length ws = length T -> (forall w, In w ws -> 0 <= w) ->
  N_ (map2 (fun ra rb => vget ra i * vget rb j)
        (map2 (fun w r => map (fun a => a * w) r) (map sqrt ws) H)
        (map2 (fun w r => map (fun a => a * w) r) (map sqrt ws) H))
  = N_ (map (fun s => sm_w s * vget (sm_h s) i * vget (sm_h s) j) (samples ws H T)).
Proof.
  induction ws as [|w ws IH]; intros [|h H] [|t T] i j H1 H2 Hw; cbn [length] in *; try discriminate.
  - reflexivity.
  - cbn [map map2 samples]. rewrite !nsum_cons. rewrite (IH H T); auto; try (intros; apply Hw; simpl; auto).
    rewrite !vget_scale. unfold sm_w, sm_h, sm_t; cbn [fst snd].
    assert (sqrt w * sqrt w = w) as E by (apply sqrt_sqrt; apply Hw; simpl; auto).
    rn. rewrite <- E at 3. ring.
Qed.

Lemma tdot_plain_h : forall H T (i j : nat), length H = length T ->
  N_ (map2 (fun ra rb => vget ra i * vget rb j) H H)
  = N_ (map (fun s => sm_w s * vget (sm_h s) i * vget (sm_h s) j) (plain H T)).
Proof.
  unfold plain. induction H as [|h H IH]; intros [|t T] i j E; cbn [length] in *; try discriminate.
  - reflexivity.
  - cbn [map map2]. rewrite !nsum_cons. rewrite (IH T) by auto. unfold sm_w, sm_h, sm_t; cbn [fst snd]. rlra.
Qed.

Lemma tdot_plain : forall H T (i j : nat), length H = length T ->
  N_ (map2 (fun ra rb => vget ra i * vget rb j) H T)
  = N_ (map (fun s => sm_w s * vget (sm_h s) i * vget (sm_t s) j) (plain H T)).
Proof.
  unfold plain. induction H as [|h H IH]; intros [|t T] i j E; cbn [length] in *; try discriminate.
  - reflexivity.
  - cbn [map map2]. rewrite !nsum_cons. rewrite IH by auto. unfold sm_w, sm_h, sm_t; cbn [fst snd]. rlra.
Qed.

Lemma samples_h : forall (ss : list sample) (f : R -> list R -> R),
  N_ (map (fun s => f (sm_w s) (sm_h s)) ss) = N_ (map (fun p => f (fst p) (snd p)) (map fst ss)).
Proof. intros. rewrite map_map. reflexivity. Qed.

Lemma samples_fst : forall ws H T T', length T = length T' -> length H = length T ->
  map fst (samples ws H T) = map fst (samples ws H T').
Proof.
  induction ws; intros [|h H] [|t T] [|t' T'] E1 E2; cbn in *; try discriminate; auto. f_equal; auto.
Qed.

(** ** The accumulator invariant *)
Definition full_kind (k : skind) : bool := match k with Basic | Gpu64 => true | _ => false end.

(** HH holds [M] on its upper triangle, and below it the same (full update) or
    zero (triangular update). *)
Definition holds (k : skind) (L : nat) (HH M : mat) : Prop :=
  is_mat L L HH /\
  forall i j, (i < L)%nat -> (j < L)%nat ->
    mget HH i j = if (i <=? j)%nat || full_kind k then mget M i j else 0.

Definition Acc (s : slfn) (ss : list sample) : Prop :=
  match s_HH s, s_HT s with
  | None, None => ss = []
  | Some HH, Some HT =>
    holds (s_kind s) (getL s) HH (spec_HH (getL s) (s_norm s) ss) /\
    HT = spec_HT (getL s) (s_outputs s) ss
  | _, _ => False
  end.

Lemma holds_init : forall k L norm, holds k L (scaled_eye L norm) (spec_HH L norm []).
Proof.
  intros. split; [apply is_mat_scaled_eye|]. intros i j Hi Hj.
  rewrite spec_HH_mk, mget_mk by auto. unfold scaled_eye. rewrite mget_mk by auto. cbn.
  destruct (i <=? j)%nat eqn:E; cbn; [destruct (i =? j)%nat; lra|].
  apply Nat.leb_gt in E. assert ((i =? j)%nat = false) as -> by (apply Nat.eqb_neq; lia).
  destruct (full_kind k); lra.
Qed.

Lemma zero_HT : forall L c, zero_mat L c = spec_HT L c [].
Proof. intros. rewrite spec_HT_mk. unfold zero_mat. apply mk_ext. reflexivity. Qed.

(** matrices accumulated from a product of rows *)
Definition prod_rows (H T : mat) (ss : list sample) : Prop :=
  (forall i j, N_ (map2 (fun ra rb => vget ra i * vget rb j) H H)
               = N_ (map (fun s => sm_w s * vget (sm_h s) i * vget (sm_h s) j) ss)) /\
  (forall i j, N_ (map2 (fun ra rb => vget ra i * vget rb j) H T)
               = N_ (map (fun s => sm_w s * vget (sm_h s) i * vget (sm_t s) j) ss)).

Lemma holds_add : forall k L norm HH H T ss ss',
  holds k L HH (spec_HH L norm ss) -> prod_rows H T ss' ->
  holds k L (add_HH k L HH H) (spec_HH L norm (ss ++ ss')).
Proof.
  intros k L norm HH H T ss ss' [Hm Hh] [P1 _].
  assert (forall i j, (i < L)%nat -> (j < L)%nat ->
    mget (spec_HH L norm (ss ++ ss')) i j = mget (spec_HH L norm ss) i j + mget (tdot L L H H) i j) as E.
  { intros i j Hi Hj. rewrite !spec_HH_mk, !mget_mk by auto. unfold tdot. rewrite mget_mk by auto. rn.
    rewrite P1, map_app, nsum_app. rlra. }
  split.
  - unfold add_HH. destruct k; try apply is_mat_mk; apply is_mat_madd; auto; apply is_mat_tdot.
  - intros i j Hi Hj. rewrite E by auto. unfold add_HH.
    destruct k; cbn [full_kind] in *; rewrite ?orb_true_r, ?orb_false_r in *.
    + rewrite mget_madd with (r := L) (c := L); auto using is_mat_tdot. rewrite Hh by auto.
      rewrite orb_true_r. reflexivity.
    + rewrite mget_mk by auto. specialize (Hh i j Hi Hj). rewrite orb_false_r in Hh.
      rn. rewrite Hh. destruct (i <=? j)%nat; auto.
    + rewrite mget_madd with (r := L) (c := L); auto using is_mat_tdot. rewrite Hh by auto.
      rewrite orb_true_r. reflexivity.
    + rewrite mget_mk by auto. specialize (Hh i j Hi Hj). rewrite orb_false_r in Hh.
      rn. rewrite Hh. destruct (i <=? j)%nat; auto.
Qed.

Lemma HT_add : forall L c H T ss ss', prod_rows H T ss' ->
  madd (spec_HT L c ss) (tdot L c H T) = spec_HT L c (ss ++ ss').
Proof.
  intros L c H T ss ss' [_ P2]. rewrite !spec_HT_mk.
  apply mat_ext with (r := L) (c := c).
  - apply is_mat_madd; [apply is_mat_mk|apply is_mat_tdot].
  - apply is_mat_mk.
  - intros i j Hi Hj. rewrite mget_madd with (r := L) (c := c); auto; try apply is_mat_mk.
    unfold tdot. rewrite !mget_mk by auto. rn. rewrite P2, map_app, nsum_app. rlra.
Qed.

Lemma fit_cols_id : forall c r, length r = c -> fit_cols c r = Ok r.
Proof. intros; unfold fit_cols. now rewrite H, Nat.eqb_refl. Qed.
Lemma fit_all : forall c T, Forall (fun r => length r = c) T -> mapM (fit_cols c) T = Ok T.
Proof.
  intros. rewrite (mapM_ok_map _ (fun r => r)); [now rewrite map_id|].
  intros. apply fit_cols_id. rewrite Forall_forall in H; auto.
Qed.

(** Effective sample weights of a batch of N rows. *)
Definition finite_w (w : xnum) : R := match w with Fin a => a | _ => 0 end.
Definition eff_weights (N : nat) (wv : option (list xnum)) : list R :=
  match wv with
  | None => repeat 1 N
  | Some ws => if (length ws =? N)%nat then map finite_w ws
               else match ws with [w] => repeat (finite_w w) N | _ => [] end
  end.

Lemma sqrt_weight_ok : forall ws rs, mapM sqrt_weight ws = Ok rs ->
  rs = map sqrt (map finite_w ws) /\ (forall w, In w (map finite_w ws) -> 0 <= w).
Proof.
  induction ws as [|w ws IH]; intros rs H.
  - apply Ok_inj in H; subst. split; [reflexivity|intros w []].
  - cbn [mapM] in H. destruct (sqrt_weight w) as [r|] eqn:E; cbn [rbind] in H; [|discriminate].
    destruct (mapM sqrt_weight ws) as [rs'|] eqn:E'; cbn [rbind] in H; [|discriminate].
    apply Ok_inj in H; subst. destruct (IH _ eq_refl) as [-> Hp].
    destruct w; cbn [sqrt_weight] in E; try discriminate. rn.
    destruct (Rltb a 0) eqn:Ea; [discriminate|]. apply Ok_inj in E; subst.
    apply Rltb_false in Ea. split; [reflexivity|].
    cbn [map finite_w]. intros w [<-|Hw]; auto.
Qed.

Lemma samples_repeat1 : forall H T, length H = length T -> samples (repeat 1 (length H)) H T = plain H T.
Proof.
  unfold plain. induction H; intros [|t T] E; cbn in *; try discriminate; auto. f_equal; auto.
Qed.

Lemma scale_broadcast : forall (w : R) (H : mat),
  map (map (fun a => a * w)) H = map2 (fun w r => map (fun a => a * w) r) (repeat w (length H)) H.
Proof. induction H; cbn in *; auto. f_equal; auto. Qed.

Lemma scale_rows_ok : forall rs (H H' : mat) , scale_rows rs H = Ok H' ->
  exists rs', length rs' = length H /\ H' = map2 (fun w r => map (fun a => a * w) r) rs' H /\
    rs' = if (length rs =? length H)%nat then rs else repeat (nth 0 rs 0) (length H).
Proof.
  intros rs H H' E. unfold scale_rows in E. destruct (length rs =? length H)%nat eqn:El.
  - apply Nat.eqb_eq in El. apply Ok_inj in E; subst. exists rs; auto.
  - destruct rs as [|w [|? ?]]; try discriminate. apply Ok_inj in E; subst.
    exists (repeat w (length H)). rewrite repeat_length. split; auto. split; [apply scale_broadcast|reflexivity].
Qed.

Lemma repeat_map : forall {A B} (f : A -> B) x n, map f (repeat x n) = repeat (f x) n.
Proof. induction n; cbn; f_equal; auto. Qed.

Lemma Forall_scale : forall (c : nat) rs (T : mat), Forall (fun r => length r = c) T ->
  Forall (fun r => length r = c) (map2 (fun (w : R) r => map (fun a => a * w) r) rs T).
Proof.
  intros c rs; induction rs; intros [|t T] H; cbn; auto. inversion H; subst. constructor; auto.
  now rewrite map_length.
Qed.

(** add_batch adds exactly the weighted samples of the batch. *)
Theorem add_batch_acc : forall {SG : Sing} (s s' : slfn) X T wv ss,
  Acc s ss -> Forall (fun r => length r = s_outputs s) T ->
  add_batch s X T wv = (s', Ok tt) ->
  exists H, project s X = Ok H /\ length H = length T /\
    length (eff_weights (length H) wv) = length H /\
    (forall w, In w (eff_weights (length H) wv) -> 0 <= w) /\
    Acc s' (ss ++ samples (eff_weights (length H) wv) H T) /\
    s' = with_corr s (s_HH s') (s_HT s') /\ s_HH s' <> None.
Proof.
  intros SG s s' X T wv ss HA HT HB. unfold add_batch in HB.
  destruct (project s X) as [H|] eqn:EP; cbn [rbind] in HB; [|congruence].
  set (prep := match wv with
    | None => Ok (H, T)
    | Some ws => let? rs := if (length ws =? length H)%nat || (length ws =? 1)%nat
                            then mapM sqrt_weight ws else Err ValueError in
                 let? H' := scale_rows rs H in let? T' := scale_rows rs T in Ok (H', T')
    end) in HB.
  destruct prep as [[H' T']|] eqn:Ep; [|congruence].
  assert (length H' = length H /\ length T' = length T /\ Forall (fun r => length r = s_outputs s) T' /\
          (length T' = length H' ->
            length (eff_weights (length H) wv) = length H /\
            (forall w, In w (eff_weights (length H) wv) -> 0 <= w) /\
            prod_rows H' T' (samples (eff_weights (length H) wv) H T))) as (L1 & L2 & F2 & Hrest).
  { subst prep. destruct wv as [ws|].
    - destruct ((length ws =? length H)%nat || (length ws =? 1)%nat) eqn:Eg; cbn [rbind] in Ep; [|discriminate].
      destruct (mapM sqrt_weight ws) as [rs|] eqn:Ers; cbn [rbind] in Ep; [|discriminate].
      destruct (scale_rows rs H) as [H0|] eqn:EH; cbn [rbind] in Ep; [|discriminate].
      destruct (scale_rows rs T) as [T0|] eqn:ET; cbn [rbind] in Ep; [|discriminate].
      apply Ok_inj in Ep. injection Ep as <- <-.
      pose proof (mapM_length _ _ _ Ers) as Lr.
      destruct (sqrt_weight_ok _ _ Ers) as [Ers' Hpos].
      destruct (scale_rows_ok _ _ _ EH) as (r1 & Lr1 & -> & Er1).
      destruct (scale_rows_ok _ _ _ ET) as (r2 & Lr2 & -> & Er2).
      rewrite !map2_length, Lr1, Lr2, !Nat.min_id.
      split; auto. split; auto. split; [now apply Forall_scale|]. intros El.
      assert (r1 = r2) as E12.
      { rewrite Er1, Er2. cbn [num NumR] in *. rewrite El. reflexivity. }
      clear Er2. subst r2.
      assert (exists ew, eff_weights (length H) (Some ws) = ew /\ r1 = map sqrt ew /\
                (forall w, In w ew -> 0 <= w)) as (ew & Ew & Er & Hw).
      { exists (eff_weights (length H) (Some ws)). split; auto. unfold eff_weights.
        rewrite Lr in Er1. destruct (length ws =? length H)%nat eqn:E1.
        - subst r1 rs. auto.
        - cbn [orb] in Eg. apply Nat.eqb_eq in Eg.
          destruct ws as [|w [|? ?]]; cbn in Eg; try discriminate. subst rs.
          cbn [map nth] in Er1. subst r1. rewrite repeat_map. split; auto.
          intros x Hx. apply repeat_spec in Hx. subst. apply Hpos. cbn; auto. }
      rewrite Ew. assert (length ew = length H) as Le by (rewrite <- Lr1, Er, map_length; auto).
      split; auto. split; auto. clear Er1. subst r1. split; intros i j.
      + apply (tdot_scaled_h ew H T i j); auto. cbn [num NumR] in *; congruence.
      + apply (tdot_scaled ew H T (S i) (S j) i j); auto. cbn [num NumR] in *; congruence.
    - apply Ok_inj in Ep. injection Ep as <- <-. split; auto. split; auto. split; auto. intros El.
      cbn [eff_weights]. rewrite repeat_length. split; auto. split.
      { intros w Hw. apply repeat_spec in Hw. subst; lra. }
      rewrite samples_repeat1 by auto. split; intros i j.
      + apply tdot_plain_h; auto.
      + apply tdot_plain; auto. }
  destruct (length T' =? length H')%nat eqn:El.
  2:{ congruence. }
  apply Nat.eqb_eq in El. rewrite (fit_all _ _ F2) in HB. cbv beta iota in HB.
  destruct (Hrest El) as (W1 & W2 & P). exists H. split; auto. split; [congruence|]. split; auto. split; auto.
  apply (f_equal fst) in HB. cbn [fst] in HB. subst s'.
  split.
  - unfold Acc in *. cbn [s_HH s_HT with_corr].
    assert (forall a b, getL (with_corr s a b) = getL s) as EL by reflexivity. rewrite EL.
    cbn [s_kind s_norm s_outputs with_corr].
    destruct (s_HH s) as [HH|] eqn:EHH; destruct (s_HT s) as [HT0|] eqn:EHT; try contradiction.
    + destruct HA as [HA1 HA2]. split; [eapply holds_add; eauto|]. rewrite HA2. apply HT_add; auto.
    + subst ss. split; [eapply holds_add; eauto; apply holds_init|]. rewrite zero_HT. apply HT_add; auto.
  - split; [reflexivity|cbn; congruence].
Qed.

(** what get_corr returns *)
Lemma spec_HH_sym : forall L norm ss i j, (i < L)%nat -> (j < L)%nat ->
  mget (spec_HH L norm ss) i j = mget (spec_HH L norm ss) j i.
Proof.
  intros. rewrite spec_HH_mk, !mget_mk by auto. rewrite (Nat.eqb_sym j i). f_equal.
  apply nsum_map_ext. intros; rring.
Qed.

Theorem get_corr_acc : forall (s : slfn) ss, Acc s ss -> s_HH s <> None ->
  get_corr s = Ok (Some (spec_HH (getL s) (s_norm s) ss, spec_HT (getL s) (s_outputs s) ss)).
Proof.
  intros s ss HA Hne. unfold Acc in HA. unfold get_corr.
  destruct (s_HH s) as [HH|]; [|congruence]. destruct (s_HT s) as [HT|]; [|contradiction].
  destruct HA as [[Hm Hh] ->]. do 3 f_equal.
  set (L := getL s) in *. set (M := spec_HH L (s_norm s) ss) in *.
  assert (is_mat L L M) by (unfold M; rewrite spec_HH_mk; apply is_mat_mk).
  destruct (s_kind s) eqn:Ek; cbn [full_kind] in Hh.
  - apply mat_ext with L L; auto. intros. rewrite Hh by auto. now rewrite orb_true_r.
  - apply mat_ext with L L; auto; [apply is_mat_mk|]. intros i j Hi Hj. unfold add_triu1_T.
    rewrite mget_mk by auto. rewrite !Hh by auto. rewrite !orb_false_r.
    destruct (i <=? j)%nat eqn:E1.
    + assert ((j <? i)%nat = false) as -> by (apply Nat.ltb_ge; apply Nat.leb_le in E1; lia). rlra.
    + apply Nat.leb_gt in E1. assert ((j <? i)%nat = true) as -> by (apply Nat.ltb_lt; lia).
      assert ((j <=? i)%nat = true) as -> by (apply Nat.leb_le; lia).
      unfold M. rewrite (spec_HH_sym L _ _ i j) by auto. rlra.
  - apply mat_ext with L L; auto; [apply is_mat_mk|]. intros i j Hi Hj. unfold triu_sym.
    rewrite mget_mk by auto. rewrite !Hh by auto. rewrite !orb_true_r.
    destruct (i <=? j)%nat eqn:E1.
    + assert ((j <? i)%nat = false) as -> by (apply Nat.ltb_ge; apply Nat.leb_le in E1; lia). rlra.
    + apply Nat.leb_gt in E1. assert ((j <? i)%nat = true) as -> by (apply Nat.ltb_lt; lia).
      unfold M. rewrite (spec_HH_sym L _ _ i j) by auto. rlra.
  - apply mat_ext with L L; auto; [apply is_mat_mk|]. intros i j Hi Hj. unfold triu_sym.
    rewrite mget_mk by auto. rewrite !Hh by auto. rewrite !orb_false_r.
    destruct (i <=? j)%nat eqn:E1.
    + assert ((j <? i)%nat = false) as -> by (apply Nat.ltb_ge; apply Nat.leb_le in E1; lia). rlra.
    + apply Nat.leb_gt in E1. assert ((j <? i)%nat = true) as -> by (apply Nat.ltb_lt; lia).
      assert ((j <=? i)%nat = true) as -> by (apply Nat.leb_le; lia).
      unfold M. rewrite (spec_HH_sym L _ _ i j) by auto. rlra.
Qed.
