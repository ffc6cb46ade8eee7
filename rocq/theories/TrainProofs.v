(** Accumulation through add_data: whole data sets, weights, parts (reals). *)
From Coq Require Import Reals Lra Permutation.
From Verif Require Import Base Num Mat LinAlg Slfn Elm Hpelm MatFacts SplitProofs ElmFacts RLin Spec AccProofs.
Local Open Scope R_scope.
#[local] Existing Instance NumR.

Lemma samples_app : forall w1 h1 t1 w2 h2 t2, length w1 = length h1 -> length w1 = length t1 ->
  samples (w1 ++ w2) (h1 ++ h2) (t1 ++ t2) = samples w1 h1 t1 ++ samples w2 h2 t2.
Proof.
  induction w1; intros [|h h1] [|t t1] w2 h2 t2 E1 E2; cbn [length] in *; try discriminate.
  - reflexivity.
  - cbn [app samples]. apply (f_equal (cons (a, h, t))). apply IHw1; congruence.
Qed.

(** success of a batch *)
Lemma sqrt_weights_ok : forall ws : list R, (forall w, In w ws -> 0 <= w) ->
  mapM sqrt_weight (map Fin ws) = Ok (map sqrt ws).
Proof.
  intros. rewrite mapM_map. apply mapM_ok_map. intros w Hw. cbn [sqrt_weight]. rn.
  assert (Rltb w 0 = false) as -> by (apply Rltb_false; auto). reflexivity.
Qed.

Lemma finite_map : forall ws : list R, map finite_w (map Fin ws) = ws.
Proof. intros. rewrite map_map. apply map_id. Qed.

Section Batches.
Context {SG : Sing}.

Lemma add_batch_total : forall s X T (wv : option (list xnum)) ws ss,
  Acc s ss -> usable s -> wide (s_inputs s) X -> wide (s_outputs s) T -> length X = length T ->
  length ws = length T -> (forall w, In w ws -> 0 <= w) ->
  wv = Some (map Fin ws) \/ (wv = None /\ ws = repeat 1 (length T)) ->
  exists s', add_batch s X T wv = (s', Ok tt) /\
    Acc s' (ss ++ samples ws (map (hrow (s_neurons s)) X) T) /\
    s' = with_corr s (s_HH s') (s_HT s') /\ s_HH s' <> None.
Proof.
  intros s X T wv ws ss HA HU HX HT HL HW Hpos Hwv.
  assert (exists s', add_batch s X T wv = (s', Ok tt)) as [s' E].
  { unfold add_batch. rewrite project_ok by auto. cbn [rbind].
    set (H := map (hrow (s_neurons s)) X). cbn [num NumR] in *.
    assert (length H = length T) as LH by (unfold H; rewrite map_length; auto).
    destruct Hwv as [->|[-> _]].
    - rewrite map_length. assert ((length ws =? length H)%nat = true) as -> by (apply Nat.eqb_eq; congruence).
      cbn [orb]. rewrite sqrt_weights_ok by auto. cbn [rbind]. unfold scale_rows. cbn [num NumR] in *.
      rewrite !map_length. assert ((length ws =? length H)%nat = true) as -> by (apply Nat.eqb_eq; congruence).
      assert ((length ws =? length T)%nat = true) as -> by (apply Nat.eqb_eq; auto). cbn [rbind].
      rewrite !map2_length, map_length.
      assert ((Nat.min (length ws) (length T) =? Nat.min (length ws) (length H))%nat = true) as ->
        by (apply Nat.eqb_eq; rewrite LH; auto).
      rewrite fit_all by (apply Forall_scale; exact HT). eexists; reflexivity.
    - assert ((length T =? length H)%nat = true) as -> by (apply Nat.eqb_eq; auto).
      rewrite fit_all by exact HT. eexists; reflexivity. }
  exists s'. split; auto.
  destruct (add_batch_acc s s' X T wv ss HA HT E) as (H & EP & EL & _ & _ & HAcc & Es & Hn).
  rewrite project_ok in EP by auto. apply Ok_inj in EP. subst H.
  replace (eff_weights _ wv) with ws in HAcc; auto.
  unfold eff_weights. destruct Hwv as [->|[-> Ew]].
  - cbn [num NumR] in *. rewrite EL, map_length, HW, Nat.eqb_refl. now rewrite finite_map.
  - rewrite EL. auto.
Qed.

(** sample weights given by a function of the target row *)
Definition part_ok (e : elm) (s : slfn) (g : list R -> R) (p : mat * mat) : Prop :=
  wide (s_inputs s) (fst p) /\ wide (s_outputs s) (snd p) /\ length (fst p) = length (snd p) /\
  (forall t, In t (snd p) -> 0 <= g t) /\
  if is_wc e
  then exists wc, e_wc e = Some wc /\ wc_index wc (where1 (snd p)) = Ok (map Fin (map g (snd p)))
  else forall t, In t (snd p) -> g t = 1.

Lemma map_const1 : forall (g : list R -> R) T, (forall t, In t T -> g t = 1) -> map g T = repeat 1 (length T).
Proof. induction T; intros; cbn; auto. rewrite H by (left; auto). f_equal. apply IHT. intros; apply H; right; auto. Qed.

Lemma with_corr_usable : forall s a b, usable (with_corr s a b) = usable s.
Proof. reflexivity. Qed.

Lemma add_batches_acc : forall e g parts s ss,
  Acc s ss -> usable s -> Forall (part_ok e s g) parts ->
  exists s', add_batches e s parts = (s', Ok tt) /\
    Acc s' (ss ++ samples (map g (concat (map snd parts)))
                          (map (hrow (s_neurons s)) (concat (map fst parts))) (concat (map snd parts))) /\
    s' = with_corr s (s_HH s') (s_HT s') /\ (parts <> [] \/ s_HH s <> None -> s_HH s' <> None).
Proof.
  intros e g. induction parts as [|[X T] r IH]; intros s ss HA HU HP.
  - exists s. split; [reflexivity|]. cbn. rewrite app_nil_r. split; auto.
    split; [destruct s; reflexivity|]. intros [?|?]; congruence.
  - inversion HP as [|? ? [Hx [Ht [Hl [Hg Hw]]]] Hr]; subst. cbn [fst snd] in *.
    cbn [add_batches].
    set (wv := if is_wc e then Some (map (@Fin NumR) (map g T)) else None).
    assert ((if is_wc e then match e_wc e with
              | Some wc => let? v := wc_index wc (where1 T) in Ok (Some v)
              | None => Err TypeError end else Ok None) = Ok wv) as ->.
    { unfold wv. destruct (is_wc e); auto. destruct Hw as (wc & -> & ->). reflexivity. }
    destruct (add_batch_total s X T wv (map g T) ss) as (s1 & E1 & A1 & Es1 & N1); auto.
    { apply map_length. }
    { intros w Hin. apply in_map_iff in Hin. destruct Hin as [t [<- Hin]]. auto. }
    { unfold wv. destruct (is_wc e); auto. right. split; auto. apply map_const1; auto. }
    rewrite E1. destruct (IH s1 _ A1) as (s2 & E2 & A2 & Es2 & N2).
    { rewrite Es1. exact HU. }
    { rewrite Es1. exact Hr. }
    exists s2. split; [exact E2|]. split.
    + assert (s_neurons s1 = s_neurons s) as En by (rewrite Es1; reflexivity). rewrite En in A2. cbn [map concat fst snd].
      rewrite <- app_assoc in A2. rewrite !map_app.
      rewrite (samples_app (map g T)); [exact A2|rewrite !map_length; auto|rewrite map_length; auto].
    + split; [|intros _; apply N2; right; exact N1].
      rewrite Es2, Es1. reflexivity.
Qed.

(** class weights: what the row weight function has to satisfy on T *)
Definition weights_ok (e : elm) (g : list R -> R) (T : mat) : Prop :=
  (forall t, In t T -> 0 <= g t) /\
  if is_wc e
  then exists wc, e_wc (fill_wc e T) = Some wc /\
         (forall t, In t T -> wc_index wc (where1_row 0 t) = Ok [Fin (g t)])
  else forall t, In t T -> g t = 1.

Lemma wc_index_rows : forall wc (g : list R -> R) T,
  (forall t, In t T -> wc_index wc (where1_row 0 t) = Ok [Fin (g t)]) ->
  wc_index wc (where1 T) = Ok (map Fin (map g T)).
Proof.
  intros wc g T H. unfold where1. induction T as [|t T IH]; [reflexivity|].
  cbn [map concat]. unfold wc_index. rewrite mapM_app.
  pose proof (H t (or_introl eq_refl)) as Ht. unfold wc_index in Ht. rewrite Ht. cbn [rbind].
  unfold wc_index in IH. rewrite IH by (intros; apply H; right; auto). reflexivity.
Qed.

Lemma in_chunk : forall (X T : mat) k p t, (0 < k)%nat -> length X = length T -> In p (chunks X T k) -> In t (snd p) -> In t T.
Proof.
  intros X T k p t Hk HL Hp Ht. destruct (chunks_spec X T k Hk HL) as (_ & E & _).
  rewrite <- E. apply in_concat. exists (snd p). split; auto. now apply in_map.
Qed.

Lemma parts_ok : forall e s g T parts,
  wide (s_inputs s) (concat (map fst parts)) -> wide (s_outputs s) (concat (map snd parts)) ->
  Forall (fun p => length (fst p) = length (snd p)) parts ->
  weights_ok e g T -> (forall t, In t (concat (map snd parts)) -> In t T) ->
  Forall (part_ok (fill_wc e T) s g) parts.
Proof.
  intros e s g T parts HX HT HL [Hg Hw] Hin.
  apply Forall_forall. intros p Hp. rewrite Forall_forall in HL.
  rewrite wide_concat, Forall_map, Forall_forall in HX, HT.
  assert (forall t, In t (snd p) -> In t T) as Hin'.
  { intros t Ht. apply Hin, in_concat. exists (snd p). split; auto. now apply in_map. }
  repeat split; auto. rewrite fill_wc_is_wc. destruct (is_wc e); auto.
  destruct Hw as (wc & E & Hw). exists wc. split; auto. apply wc_index_rows. auto.
Qed.

Theorem add_data_acc : forall e g X T ss,
  Acc (e_net e) ss -> usable (e_net e) -> (0 < e_batch e)%Z -> X <> [] -> length X = length T ->
  wide (s_inputs (e_net e)) X -> wide (s_outputs (e_net e)) T -> weights_ok e g T ->
  exists s', add_data e X T = (with_net (fill_wc e T) s', Ok tt) /\
    Acc s' (ss ++ samples (map g T) (map (hrow (s_neurons (e_net e))) X) T) /\
    s' = with_corr (e_net e) (s_HH s') (s_HT s') /\ s_HH s' <> None.
Proof.
  intros e g X T ss HA HU Hb HX HL WX WT HW. rewrite add_data_eq by auto. cbv zeta.
  set (k := Z.to_nat (ceil_div (Z.of_nat (length X)) (e_batch e))).
  assert (0 < k)%nat as Hk.
  { unfold k. assert (0 < length X)%nat by (destruct X; [congruence|cbn; lia]).
    pose proof (ceil_div_pos (Z.of_nat (length X)) (e_batch e) Hb ltac:(lia)). lia. }
  destruct (chunks_spec X T k Hk HL) as (E1 & E2 & E3 & E4 & _).
  rewrite fill_wc_net.
  destruct (add_batches_acc (fill_wc e T) g (chunks X T k) (e_net e) ss) as (s' & E & A & Es & N); auto.
  { apply parts_ok; auto; rewrite ?E1, ?E2; auto. }
  rewrite E1, E2 in A. exists s'. rewrite E. split; auto. split; auto. split; auto.
  apply N. left. intros C. rewrite C in E3. cbn in E3. lia.
Qed.

(** no class weights *)
Lemma weights_plain : forall e T, is_wc e = false -> weights_ok e (fun _ => 1) T.
Proof. intros e T H. split; [intros; lra|]. rewrite H. auto. Qed.
Lemma samples_plain : forall H T, length H = length T -> samples (map (fun _ => 1) T) H T = plain H T.
Proof.
  unfold plain. induction H; intros [|t T] E; cbn in *; try discriminate; auto. f_equal; auto.
Qed.

(** ** HPELM.add_data *)
Lemma hp_batches_tiles : forall batch (X T : mat) rs a b, tiles batch a b rs -> (0 <= a)%Z ->
  (b <= Z.of_nat (length X))%Z -> length X = length T ->
  concat (map fst (hp_batches X T rs)) = slice X a b /\ concat (map snd (hp_batches X T rs)) = slice T a b /\
  Forall (fun p => length (fst p) = length (snd p)) (hp_batches X T rs).
Proof.
  intros batch X T rs a b Ht Ha Hb HL. unfold hp_batches. cbn [num NumR] in *. rewrite !map_map. cbn [fst snd].
  split; [eapply tiles_concat; eauto|]. split; [eapply tiles_concat; eauto; lia|].
  apply tiles_bounds in Ht. rewrite Forall_map. eapply Forall_impl; [|exact Ht].
  intros [x y]; cbn. intros. rewrite !slice_length_in by lia. reflexivity.
Qed.
End Batches.
