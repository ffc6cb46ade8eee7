(** Given arrays of HPELM.project (C16); the model installed by validation_corr when errors are not numbers (C47). *)
From Coq Require Import Reals Lra Lia.
From Verif Require Import Base Num Mat LinAlg Slfn Strs Elm Hpelm MatFacts SplitProofs ElmFacts RangeThms RangeProj Spec.
Local Open Scope list_scope.
Local Open Scope nat_scope.

Section Any.
Context {K : Num} {SG : Sing}.

Theorem hp_project_into : forall e d c X H M icount,
  (0 < e_batch e)%Z -> holds_data d c X -> elm_project e (Arr2 c X) = Ok H -> length (range_of H 0 icount) <= length M ->
  hp_project e d (DArr (Arr2 (getL (e_net e)) M)) 0 (zcount icount) = Ok (range_of H 0 icount ++ skipn (length (range_of H 0 icount)) M).
Proof.
  intros e d c X Y M icount Hb Hd E HM.
  destruct (project_slices e c X Y E) as (g & EN & -> & -> & Hg).
  unfold hp_project. destruct (s_neurons (e_net e)); [congruence|].
  rewrite (check_holds d _ X _ Hd), Nat.eqb_refl. cbn [rbind]. rewrite nbatches_eq by auto. cbn [rbind].
  pose proof (clip_bounds (length X) 0 icount ltac:(lia)) as HC. cbn [Z.of_nat] in HC.
  pose proof (slice_range X 0 icount ltac:(lia)) as HS. cbn [Z.of_nat] in HS.
  pose proof (range_of_length (map g X) 0 icount ltac:(lia)) as HL. rewrite map_length in HL. cbn [Z.of_nat] in HL.
  set (cnt := clip_count _ _ _) in *. rewrite Nat.eqb_refl.
  destruct (Z.leb_spec cnt (Z.of_nat (length M))); [|lia]. cbn [andb rbind].
  pose proof (ranges_tiles (e_batch e) 0 cnt Hb ltac:(lia)) as HT.
  erewrite store_loop_tiles with (istart := 0%Z); [| | | | |exact HT| |]; eauto; try lia; [|intros [a b]; cbn [fst snd]; f_equal; lia].
  rewrite Z.sub_diag. cbn [firstn Z.to_nat app]. f_equal. f_equal; [rewrite range_of_map; now rewrite HS|]. f_equal. lia.
Qed.

Theorem hp_project_small : forall e d c X H w M istart icount,
  (0 < e_batch e)%Z -> holds_data d c X -> elm_project e (Arr2 c X) = Ok H -> istart <= length X ->
  w <> getL (e_net e) \/ length M < length (range_of H istart icount) ->
  hp_project e d (DArr (Arr2 w M)) (Z.of_nat istart) (zcount icount) = Err AssertionError.
Proof.
  intros e d c X Y w M istart icount Hb Hd E Hi HM.
  destruct (project_slices e c X Y E) as (g & EN & -> & -> & Hg).
  unfold hp_project. destruct (s_neurons (e_net e)); [congruence|].
  rewrite (check_holds d _ X _ Hd), Nat.eqb_refl. cbn [rbind]. rewrite nbatches_eq by auto. cbn [rbind].
  pose proof (clip_bounds (length X) istart icount Hi) as HC.
  pose proof (range_of_length (map g X) istart icount ltac:(rewrite map_length; auto)) as HL. rewrite map_length in HL.
  set (cnt := clip_count _ _ _) in *.
  destruct (Z.leb_spec cnt (Z.of_nat (length M))); [|reflexivity]. destruct (Nat.eqb_spec w (getL (e_net e))); [|reflexivity].
  exfalso. destruct HM; [contradiction|lia].
Qed.

(** ** np.argmin with NaN *)
Lemma xargmin_from_nan : forall l b bi i, exists k, xargmin_from b bi i l = k /\
  ((k = bi /\ (b = XNaN \/ ~ In XNaN l)) \/
   (i <= k /\ b <> XNaN /\ ((In XNaN l /\ nth_error l (k - i) = Some XNaN /\ forall j, j < k - i -> nth_error l j <> Some XNaN) \/ ~ In XNaN l) /\ k - i < length l)).
Proof.
  induction l as [|x l IH]; intros b bi i; cbn [xargmin_from]; [eexists; split; [reflexivity|]; left; auto|].
  destruct (xlt x b) eqn:Ex.
  - destruct (IH x i (S i)) as (k & Ek & Hk). exists k. split; [exact Ek|]. right.
    assert (b <> XNaN) as Hb by (intros ->; destruct x; discriminate).
    destruct Hk as [(-> & Hk)|(Hi & Hx & Hk & Hl)].
    + rewrite Nat.sub_diag. split; [lia|]. split; [exact Hb|]. split; [|cbn; lia].
      destruct Hk as [->|Hk]; [left; split; [left; reflexivity|split; [reflexivity|intros; lia]]|].
      destruct x; [right; intros [C|C]; [discriminate|auto]..| left; split; [left; reflexivity|split; [reflexivity|intros; lia]]].
    + split; [lia|]. split; [exact Hb|]. replace (k - i) with (S (k - S i)) by lia. cbn [nth_error length].
      split; [|lia]. destruct Hk as [(H1 & H2 & H3)|H1]; [left; split; [right; exact H1|split; [exact H2|]]|right; intros [C|C]; auto].
      intros [|j] Hj; cbn [nth_error]; [congruence|apply H3; lia].
  - destruct (IH b bi (S i)) as (k & Ek & Hk). exists k. split; [exact Ek|].
    destruct Hk as [(-> & Hk)|(Hi & Hb & Hk & Hl)].
    + left. split; [reflexivity|]. destruct Hk as [Hk|Hk]; [left; exact Hk|].
      destruct b; [right; intros [C|C]; [subst x; discriminate|auto]..|left; reflexivity].
    + right. split; [lia|]. split; [exact Hb|]. replace (k - i) with (S (k - S i)) by lia. cbn [nth_error length]. split; [|lia].
      assert (x <> XNaN) as Hx by (intros ->; destruct b; [discriminate..|congruence]).
      destruct Hk as [(H1 & H2 & H3)|H1]; [left; split; [right; exact H1|split; [exact H2|]]|right; intros [C|C]; auto].
      intros [|j] Hj; cbn [nth_error]; [congruence|apply H3; lia].
Qed.
Lemma xargmin_nan : forall l, In XNaN l -> nth_error l (xargmin l) = Some XNaN /\ forall j, j < xargmin l -> nth_error l j <> Some XNaN.
Proof.
  intros [|x l] Hin; [contradiction|]. cbn [xargmin].
  destruct (xargmin_from_nan l x 0 1) as (k & -> & [(-> & Hk)|(Hi & Hx & Hk & Hl)]).
  - split; [|intros; lia]. destruct Hk as [->|Hk]; [reflexivity|]. destruct Hin as [->|Hin]; [reflexivity|contradiction].
  - destruct Hin as [C|Hin]; [contradiction|]. destruct Hk as [(_ & H2 & H3)|C]; [|contradiction].
    destruct k as [|k]; [lia|]. cbn [nth_error]. replace (S k - 1) with k in * by lia. split; [exact H2|].
    intros [|j] Hj; cbn [nth_error]; [congruence|apply H3; lia].
Qed.
Lemma xargmin_from_lt : forall l b bi i, bi < i -> xargmin_from b bi i l < i + length l.
Proof. induction l as [|x l IH]; intros b bi i Hb; cbn [xargmin_from length]; [lia|]. destruct (xlt x b); (eapply Nat.lt_le_trans; [apply IH; lia|lia]). Qed.
Lemma xargmin_lt : forall l, l <> [] -> xargmin l < length l.
Proof. intros [|x l] H; [congruence|]. cbn [xargmin length]. apply xargmin_from_lt. lia. Qed.

(** ** candidates are evaluated independently *)
Lemma mapM_nth : forall {A B} (f : A -> res B) l l', mapM f l = Ok l' -> length l' = length l /\
  forall k a, nth_error l k = Some a -> exists b, f a = Ok b /\ nth_error l' k = Some b.
Proof.
  induction l as [|x l IH]; intros l' E; cbn [mapM] in E; [injection E as <-; split; [reflexivity|intros [|k] a C; discriminate]|].
  destruct (f x) as [y|] eqn:Ef; cbn [rbind] in E; [|discriminate]. destruct (mapM f l) as [l0|]; cbn [rbind] in E; [|discriminate]. injection E as <-.
  destruct (IH l0 eq_refl) as (HL & HN). split; [cbn; now rewrite HL|]. intros [|k] a Ha; cbn [nth_error] in *; [injection Ha as <-; eauto|auto].
Qed.
Lemma vc_loop_nth : forall e X T rs cds cds', vc_loop e X T rs cds = Ok cds' -> length cds' = length cds /\
  forall k a, nth_error cds k = Some a -> exists b, vc_loop e X T rs [a] = Ok [b] /\ nth_error cds' k = Some b.
Proof.
  intros e X T. induction rs as [|ab rs IH]; intros cds cds' E; cbn [vc_loop] in *; [injection E as <-; split; [reflexivity|eauto]|].
  destruct (project (e_net e) _) as [Hb|]; cbn [rbind] in *; [|discriminate].
  destruct (mapM _ cds) as [c1|] eqn:Em; cbn [rbind] in E; [|discriminate].
  destruct (mapM_nth _ _ _ Em) as (HL & HN). destruct (IH _ _ E) as (HL' & HN'). split; [congruence|].
  intros k a Ha. destruct (HN k a Ha) as (b & Eb & Hb1). cbn [mapM]. rewrite Eb. cbn [rbind]. apply (HN' k b Hb1).
Qed.
Lemma vc_loop_l : forall e X T rs a b, vc_loop e X T rs [a] = Ok [b] -> cd_l b = cd_l a.
Proof.
  intros e X T. induction rs as [|ab rs IH]; intros a b E; cbn [vc_loop] in E; [injection E as <-; reflexivity|].
  destruct (project (e_net e) _) as [Hb|]; cbn [rbind] in E; [|discriminate]. cbn [mapM] in E.
  destruct (vc_update _ _ _ _ _ a) as [a1|] eqn:Eu; cbn [rbind] in E; [|discriminate]. rewrite (IH _ _ E).
  unfold vc_update in Eu. destruct (hp_error_ _ _ _ _ _ _ _ _) as [er|]; cbn [rbind] in Eu; [|discriminate].
  destruct (match e_class e with None => _ | Some _ => _ end) as [cf|]; cbn [rbind] in Eu; [|discriminate]. injection Eu as <-. reflexivity.
Qed.

(** the installed model is that of the candidate chosen by np.argmin *)
Theorem validation_installed : forall e fs fX fT Ls e' Ls' errs confs,
  validation_corr e fs fX fT Ls = (e', Ok (Ls', errs, confs)) ->
  Ls' = Ls /\ length errs = length Ls /\
  exists l x confs', nth_error Ls (xargmin errs) = Some l /\ nth_error errs (xargmin errs) = Some x /\
    validation_corr e fs fX fT [l] = (e', Ok ([l], [x], confs')).
Proof.
  intros e fs fX fT Ls e' Ls' errs confs E. unfold validation_corr in *.
  destruct (hp_check e fX fT) as [[X T]|]; [|discriminate]. destruct (checkcorr e fs) as [[HH HT]|]; [|discriminate].
  destruct (nbatches _ _) as [nb|]; cbn [rbind] in *; [|discriminate].
  destruct (vc_loop e X T _ (map (vc_cand e HH HT) Ls)) as [cds|] eqn:Ec; [|discriminate].
  destruct cds as [|c0 cs]; [discriminate|]. set (cds := c0 :: cs) in *.
  destruct (set_B _ _ _ _) as [s2 r] eqn:Es. destruct r; [|discriminate]. injection E as <- <- <- <-.
  destruct (vc_loop_nth _ _ _ _ _ _ Ec) as (HL & HN). rewrite map_length in HL.
  assert (map cd_l cds = Ls) as EL.
  { apply (nth_ext _ _ 0 0); [now rewrite map_length|]. intros n Hn. rewrite map_length in Hn.
    destruct (nth_error Ls n) as [l|] eqn:El; [|apply nth_error_None in El; lia].
    destruct (HN n (vc_cand e HH HT l) ltac:(rewrite nth_error_map, El; reflexivity)) as (b & E1 & E2).
    rewrite (nth_error_nth _ _ _ El). rewrite (nth_error_nth (map cd_l cds) n 0 (x := cd_l b)) by (rewrite nth_error_map, E2; reflexivity).
    apply vc_loop_l in E1. exact E1. }
  split; [exact EL|]. split; [transitivity (length cds); [exact (map_length cd_err cds)|exact HL]|].
  set (k := xargmin (map cd_err cds)) in *.
  assert (k < length cds) as Hk. { unfold k. rewrite <- (map_length cd_err cds). apply xargmin_lt. discriminate. }
  destruct (nth_error Ls k) as [l|] eqn:El; [|apply nth_error_None in El; lia].
  destruct (HN k (vc_cand e HH HT l) ltac:(rewrite nth_error_map, El; reflexivity)) as (b & E1 & E2).
  rewrite (nth_error_nth _ _ c0 E2) in Es.
  exists l, (cd_err b). eexists. split; [change (nth_error Ls k = Some l); exact El|]. split; [change (nth_error (map cd_err cds) k = Some (cd_err b)); rewrite nth_error_map, E2; reflexivity|].
  cbn [map]. rewrite E1. cbn [map xargmin xargmin_from nth]. rewrite Es.
  apply vc_loop_l in E1. cbn [cd_l vc_cand] in E1. rewrite E1. reflexivity.
Qed.

Theorem validation_nan : forall e fs fX fT Ls e' Ls' errs confs,
  validation_corr e fs fX fT Ls = (e', Ok (Ls', errs, confs)) -> In XNaN errs ->
  exists k l confs', nth_error Ls k = Some l /\ nth_error errs k = Some XNaN /\ (forall j, j < k -> nth_error errs j <> Some XNaN) /\
    validation_corr e fs fX fT [l] = (e', Ok ([l], [XNaN], confs')).
Proof.
  intros e fs fX fT Ls e' Ls' errs confs E Hin. destruct (validation_installed _ _ _ _ _ _ _ _ _ E) as (_ & _ & l & x & cf & E1 & E2 & E3).
  destruct (xargmin_nan errs Hin) as (H1 & H2). rewrite H1 in E2. injection E2 as <-. exists (xargmin errs), l, cf. auto.
Qed.
End Any.
