(** Exact forms of C03 (automatic class weights), C07 (default solver) and C20. *)
From Coq Require Import Reals Lra Permutation.
From Verif Require Import Base Num Mat LinAlg Slfn Strs Elm MatFacts SplitProofs Spec ElmFacts RLin
  AccProofs TrainProofs RidgeProofs TrainThms IncrThms WeightFacts Hpelm RangeThms.
Local Open Scope R_scope.
#[local] Existing Instance NumR.

Section Exact3.
Context {SG : Sing}.

(** ** C07, default solver: what comes back, and when it is what was set *)
Theorem corr_default_exact : forall s L HH HT, s_L s = Some L -> s_kind s = Fast ->
  is_mat L L HH -> is_mat L (s_outputs s) HT ->
  exists s' HH', set_corr s L L HH L (s_outputs s) HT = (s', Ok tt) /\ get_corr s' = Ok (Some (HH', HT)) /\ is_mat L L HH' /\
    (forall i j, (i < L)%nat -> (j < L)%nat ->
       entry (nth i HH' []) j = if (j <? i)%nat then entry (nth i HH []) j + entry (nth j HH []) i else entry (nth i HH []) j) /\
    (HH' = HH <-> forall i j, (i < j)%nat -> (j < L)%nat -> entry (nth i HH []) j = 0).
Proof.
  intros s L HH HT EL Hk H1 H2. unfold set_corr. rewrite EL, !Nat.eqb_refl. cbn [negb].
  assert (forall i j, (i < L)%nat -> (j < L)%nat -> entry (nth i (add_triu1_T L HH) []) j =
     if (j <? i)%nat then entry (nth i HH []) j + entry (nth j HH []) i else entry (nth i HH []) j) as HE.
  { intros i j Hi Hj. change (entry (nth i (add_triu1_T L HH) []) j) with (@mget NumR (add_triu1_T L HH) i j).
    unfold add_triu1_T. rewrite mget_mk by auto.
    change (entry (nth i HH []) j) with (@mget NumR HH i j). change (entry (nth j HH []) i) with (@mget NumR HH j i).
    destruct (Nat.ltb_spec j i); rlra. }
  eexists _, (add_triu1_T L HH). split; [reflexivity|]. unfold get_corr. cbn [s_HH s_HT with_corr s_kind].
  unfold getL. cbn [s_L with_corr]. rewrite EL, Hk. split; [reflexivity|]. split; [apply is_mat_mk|]. split; [exact HE|].
  split.
  - intros E i j Hij Hj. pose proof (HE j i Hj ltac:(lia)) as HE'. rewrite E in HE'.
    destruct (Nat.ltb_spec i j); [|lia]. lra.
  - intros HZ. apply mat_ext with L L; auto; [apply is_mat_mk|]. intros i j Hi Hj.
    change (entry (nth i (add_triu1_T L HH) []) j = entry (nth i HH []) j). rewrite HE by auto.
    destruct (Nat.ltb_spec j i) as [Hlt|]; [|reflexivity]. rewrite (HZ j i Hlt Hi). lra.
Qed.

(** ** C03, automatic class weights *)
Lemma wc_finite : forall e (X T : mat) e', is_wc e = true -> (0 < e_batch e)%Z -> X <> [] -> length X = length T ->
  add_data e X T = (e', Ok tt) ->
  exists wc, e_wc e' = Some wc /\ (forall w, e_wc e = Some w -> wc = w) /\
    forall t k, In t T -> In k (where1_row 0 t) -> exists w, nth_error wc k = Some (Fin w).
Proof.
  intros e X T e' Hw Hb HX HL E.
  destruct (add_data_chunks_wc e X T Hw Hb HX HL) as (parts & wc & W1 & W2 & A & B & C & _ & D).
  rewrite E in W1, D. cbn [fst snd] in *. exists wc. split; [exact W1|]. split; [exact W2|].
  intros t k Ht Hk. rewrite <- B in Ht. apply in_concat in Ht as (T1 & HT1 & Ht). apply in_map_iff in HT1 as ([X1 T1'] & <- & Hp).
  cbn [snd] in Ht. symmetry in D. destruct (run_all_all _ _ _ _ D _ Hp) as (s0 & s1 & F). cbn [fst snd] in F.
  destruct (wc_index wc (where1 T1')) as [v|] eqn:Ev; [|discriminate].
  assert (In k (where1 T1')) as Hin.
  { unfold where1. apply in_concat. exists (where1_row 0 t). split; [|exact Hk]. now apply in_map. }
  assert (forall w, In w v -> exists y, w = Fin y) as HF.
  { unfold add_batch in F. destruct (project s0 X1) as [H|]; cbn [rbind] in F; [|discriminate].
    destruct (((length v =? length H)%nat || (length v =? 1)%nat)%bool); cbn [rbind] in F; [|discriminate].
    destruct (mapM sqrt_weight v) as [rs|] eqn:Es; cbn [rbind] in F; [|discriminate]. clear -Es.
    revert rs Es. induction v as [|a v IH]; intros rs Es w Hw; [contradiction|]. cbn [mapM] in Es.
    destruct (sqrt_weight a) as [r|] eqn:Ea; cbn [rbind] in Es; [|discriminate].
    destruct (mapM sqrt_weight v) as [r2|] eqn:Em; cbn [rbind] in Es; [|discriminate].
    destruct Hw as [<-|Hw]; [|eapply IH; eauto]. destruct a; try discriminate. eauto. }
  clear -Ev Hin HF. unfold wc_index in Ev. revert v Ev HF. induction (where1 T1') as [|j l IH]; intros v Ev HF; [contradiction|].
  cbn [mapM] in Ev. destruct (nth_error wc j) as [w|] eqn:En; cbn [rbind] in Ev; [|discriminate].
  destruct (mapM _ l) as [v'|] eqn:Em; cbn [rbind] in Ev; [|discriminate]. injection Ev as <-.
  destruct Hin as [<-|Hin].
  - destruct (HF w (or_introl eq_refl)) as [y ->]. eauto.
  - apply (IH Hin v' eq_refl). intros w' Hw'. apply HF. now right.
Qed.

Lemma auto_wc_absent : forall c T ks k, Forall2 (has_class c) T ks -> (k < c)%nat -> ~ In k ks ->
  forall w, nth_error (@auto_wc NumR c T) k <> Some (Fin w).
Proof.
  intros c T ks k HF Hk Hin w. unfold auto_wc. cbv zeta.
  assert (nth_error (@col_sums NumR c T) k = Some 0) as EN.
  { unfold col_sums, mkv. rewrite (map_nth_error _ k (seq 0 c) (d := k)).
    - f_equal. etransitivity; [eapply col_count; eauto|]. apply count_occ_not_In with (eq_dec := Nat.eq_dec) in Hin. rewrite Hin. reflexivity.
    - rewrite (nth_error_nth' _ 0%nat) by (rewrite seq_length; auto). now rewrite seq_nth by auto. }
  rewrite (map_nth_error _ _ _ EN). unfold np_div.
  change (@neqb NumR 0 n0) with (Reqb 0 0). rewrite Reqb_refl.
  destruct (neqb _ _); [discriminate|]. unfold xinf. destruct (nltb _ _); discriminate.
Qed.

Lemma parts_wc : forall ps e e', is_wc e = true -> e_wc e <> None ->
  (forall p, In p ps -> (0 < fst p)%Z /\ fst (snd p) <> [] /\ length (fst (snd p)) = length (snd (snd p))) ->
  run_all part_call e ps = (e', Ok tt) ->
  forall wc, e_wc e = Some wc -> forall t k, In t (parts_T ps) -> In k (where1_row 0 t) -> exists w, nth_error wc k = Some (Fin w).
Proof.
  induction ps as [|[b [X T]] ps IH]; intros e e' Hw Hn HO E wc Ewc t k Ht Hk; [contradiction|].
  cbn [run_all] in E. unfold part_call in E at 1. cbn [fst snd] in E.
  destruct (add_data (with_batch e b) X T) as [e1 [[]|]] eqn:Ea; [|discriminate].
  destruct (HO _ (or_introl eq_refl)) as (O1 & O2 & O3). cbn [fst snd] in *.
  destruct (wc_finite (with_batch e b) X T e1 Hw O1 O2 O3 Ea) as (wc1 & W1 & W2 & W3).
  pose proof (W2 wc Ewc) as ->.
  unfold parts_T in Ht. cbn [map concat fst snd] in Ht. apply in_app_or in Ht as [Ht|Ht]; [eauto|].
  assert (is_wc e1 = true) as Hw1.
  { rewrite <- Hw. unfold add_data in Ea. destruct (nbatches _ _) as [nb|]; [|discriminate].
    destruct (nb <=? 0)%Z; [discriminate|]. destruct (array_split X _); [|discriminate]. destruct (array_split T _); [|discriminate].
    destruct (add_batches _ _ _) as [s' r]. injection Ea as <- _. change (is_wc (fill_wc (with_batch e b) T) = is_wc e). now rewrite fill_wc_is_wc. }
  apply (IH e1 e' Hw1) with (t := t); auto; try congruence. intros p Hp. apply HO. now right.
Qed.

(** The weights of the first part are used for all parts; the calls succeed
    exactly when every class occurs in the first part. *)
Theorem incremental_auto : forall e b X0 T0 ks0 ps ks,
  no_data (e_net e) -> usable (e_net e) -> is_wc e = true -> e_wc e = None ->
  Forall (call_ok (s_inputs (e_net e)) (s_outputs (e_net e))) ((b, (X0, T0)) :: ps) ->
  Forall2 (has_class (s_outputs (e_net e))) T0 ks0 -> Forall2 (has_class (s_outputs (e_net e))) (parts_T ps) ks ->
  ((forall k, In k ks -> In k ks0) ->
   exists e' H, run_all part_call e ((b, (X0, T0)) :: ps) = (e', Ok tt) /\
     elm_project e (Arr2 (s_inputs (e_net e)) (X0 ++ parts_X ps)) = Ok H /\
     let ss := samples (map (auto_weight ks0) (ks0 ++ ks)) H (T0 ++ parts_T ps) in
     get_corr (e_net e') = Ok (Some (spec_HH (getL (e_net e)) (s_norm (e_net e)) ss,
                                     spec_HT (getL (e_net e)) (s_outputs (e_net e)) ss))) /\
  (forall e', run_all part_call e ((b, (X0, T0)) :: ps) = (e', Ok tt) -> forall k, In k ks -> In k ks0).
Proof.
  intros e b X0 T0 ks0 ps ks Hf HU Hw Ew HO HT0 HTs.
  inversion HO as [|? ? (O1 & O2 & O3 & O4 & O5) HO']; subst. cbn [fst snd] in *.
  assert (length T0 = length ks0) as LF.
  { clear -HT0. induction HT0; cbn; auto. }
  set (g := fun t : list R => match @where1_row NumR 0 t with [k] => auto_weight ks0 k | _ => 0 end).
  assert (forall t k, has_class (s_outputs (e_net e)) t k -> g t = auto_weight ks0 k) as Hg.
  { intros t k Hk. unfold g. now rewrite (where1_row_class _ _ _ Hk). }
  assert (forall k, In k ks0 -> 0 <= auto_weight ks0 k) as Hpos.
  { intros k Hk. unfold auto_weight. apply Rmult_le_pos; [apply pos_INR|]. left. apply Rinv_0_lt_compat, lt_0_INR. now apply count_occ_In. }
  assert (weights_ok (with_batch e b) g T0) as HW.
  { split.
    - intros t Hin. destruct (classes_in _ _ _ _ HT0 Hin) as (k & Hk & Hc). rewrite (Hg t k Hc). auto.
    - change (is_wc (with_batch e b)) with (is_wc e). rewrite Hw. unfold fill_wc. change (is_wc (with_batch e b)) with (is_wc e).
      rewrite Hw. cbn [e_wc with_batch]. rewrite Ew. eexists. split; [reflexivity|].
      intros t Hin. destruct (classes_in _ _ _ _ HT0 Hin) as (k & Hk & Hc).
      rewrite (Hg t k Hc), (where1_row_class _ _ _ Hc). unfold wc_index. cbn [mapM].
      cbn [e_net with_batch]. rewrite (auto_wc_class _ _ _ _ HT0 Hk). reflexivity. }
  destruct (add_data_acc (with_batch e b) g X0 T0 [] (no_data_acc _ Hf) HU O1 O2 O3 O4 O5 HW) as (s' & E & A & Es & N).
  set (e1 := with_net (fill_wc (with_batch e b) T0) s') in *.
  assert (is_wc e1 = true) as Hw1.
  { change (is_wc (fill_wc (with_batch e b) T0) = true). rewrite fill_wc_is_wc. exact Hw. }
  assert (e_wc e1 = Some (auto_wc (s_outputs (e_net e)) T0)) as Ew1.
  { unfold e1, fill_wc. change (is_wc (with_batch e b)) with (is_wc e). rewrite Hw. cbn [e_wc with_batch]. rewrite Ew. reflexivity. }
  assert (e_net e1 = s') as En1 by reflexivity.
  assert (s_outputs s' = s_outputs (e_net e) /\ s_inputs s' = s_inputs (e_net e) /\ s_neurons s' = s_neurons (e_net e)) as (So & Si & Sn).
  { rewrite Es. repeat split. }
  split.
  - intros HC.
    assert (forall p, In p ps -> weights_ok e1 g (snd (snd p))) as HW1.
    { intros p Hp.
      assert (forall t, In t (snd (snd p)) -> exists k, In k ks0 /\ has_class (s_outputs (e_net e)) t k) as HK.
      { intros t Ht. destruct (classes_in _ _ _ _ HTs (parts_T_in _ _ _ Hp Ht)) as (k & Hk & Hc). eauto. }
      split.
      - intros t Ht. destruct (HK t Ht) as (k & Hk & Hc). rewrite (Hg t k Hc). auto.
      - rewrite Hw1. unfold fill_wc. rewrite Hw1, Ew1. eexists. split; [exact Ew1|].
        intros t Ht. destruct (HK t Ht) as (k & Hk & Hc). rewrite (Hg t k Hc), (where1_row_class _ _ _ Hc). unfold wc_index. cbn [mapM].
        rewrite (auto_wc_class _ _ _ _ HT0 Hk). reflexivity. }
    destruct (parts_acc g ps e1 _ A) as (e' & E2 & A2 & Es2 & N2); auto.
    { rewrite En1, Es. exact HU. }
    { intros _. rewrite Ew1. discriminate. }
    { rewrite En1, So, Si. exact HO'. }
    exists e', (map (hrow (s_neurons (e_net e))) (X0 ++ parts_X ps)).
    split; [cbn [run_all]; unfold part_call at 1; cbn [fst snd]; rewrite E; exact E2|].
    assert (wide (s_inputs (e_net e)) (parts_X ps)) as WP.
    { unfold parts_X. rewrite wide_concat, Forall_map. eapply Forall_impl; [|exact HO']. intros p (_ & _ & _ & D & _). exact D. }
    split.
    { unfold elm_project, check_arr. rewrite Nat.eqb_refl. cbn [rbind]. apply project_ok; auto. unfold wide in *. apply Forall_app; auto. }
    rewrite En1, Sn in A2. cbn [app e_net with_batch] in A2.
    rewrite !map_app. rewrite (samples_app (map (auto_weight ks0) ks0)).
    + assert (forall T' ks', Forall2 (has_class (s_outputs (e_net e))) T' ks' -> map g T' = map (auto_weight ks0) ks') as Em.
      { clear -Hg. clearbody g. revert Hg. generalize (auto_weight ks0) as aw. intros aw Hg T' ks' HT.
        induction HT as [|t k T'' ks'' Hc HF IH]; [reflexivity|]. cbn [map]. rewrite IH, (Hg t k Hc). reflexivity. }
      rewrite (Em _ _ HT0), (Em _ _ HTs) in A2.
      apply (corr_of e (e_net e') _ A2).
      * rewrite Es2, En1. rewrite Es. reflexivity.
      * apply N2. right. exact N.
    + rewrite !map_length. rewrite <- LF. cbn [num NumR] in *. lia.
    + rewrite map_length. rewrite <- LF. reflexivity.
  - intros e' ER k Hk. cbn [run_all] in ER. unfold part_call in ER at 1. cbn [fst snd] in ER. rewrite E in ER.
    destruct (in_dec Nat.eq_dec k ks0) as [|Hn]; [assumption|exfalso].
    assert (exists t, In t (parts_T ps) /\ has_class (s_outputs (e_net e)) t k) as (t & Ht & Hc).
    { clear -HTs Hk. induction HTs as [|t k' T' ks' Hc HF IH]; [contradiction|].
      destruct Hk as [<-|Hk]; [exists t; split; [now left|auto]|]. destruct (IH Hk) as (t' & A & B). exists t'. split; [now right|auto]. }
    destruct (parts_wc ps e1 e' Hw1) with (wc := auto_wc (s_outputs (e_net e)) T0) (t := t) (k := k) as [w Hwn]; auto.
    { rewrite Ew1. discriminate. }
    { intros p Hp. rewrite Forall_forall in HO'. destruct (HO' p Hp) as (A1 & A2 & A3 & _). auto. }
    { rewrite (where1_row_class _ _ _ Hc). now left. }
    destruct Hc as (_ & Hk' & _). exact (auto_wc_absent _ _ _ _ HT0 Hk' Hn w Hwn).
Qed.
End Exact3.

(** ** C30: the solver in memory after a call that stored to files, every solver,
    every arithmetic *)
Section Files.
Context {K : Num} {SG : Sing}.
Lemma batch_frame : forall s X T wv, let s' := fst (add_batch s X T wv) in s' = with_corr s (s_HH s') (s_HT s').
Proof.
  intros s X T wv. unfold add_batch.
  match goal with |- context [match ?p with Ok _ => _ | Err _ => _ end] => destruct p as [[H T']|x] end; [|destruct s; reflexivity].
  match goal with |- context [match ?p with Ok _ => _ | Err _ => _ end] => destruct p as [T''|x] end; reflexivity.
Qed.
Lemma batches_frame : forall e parts s, let s' := fst (add_batches e s parts) in s' = with_corr s (s_HH s') (s_HT s').
Proof.
  intros e. induction parts as [|[X T] r IH]; intros s; cbn [add_batches]; [destruct s; reflexivity|].
  match goal with |- context [match ?p with Ok _ => _ | Err _ => _ end] => destruct p as [wv|x] end; [|destruct s; reflexivity].
  pose proof (batch_frame s X T wv) as HB. destruct (add_batch s X T wv) as [s1 [[]|x]]; cbn [fst] in *; [|exact HB].
  cbv zeta in *. rewrite (IH s1) at 1. rewrite HB. reflexivity.
Qed.

Theorem files_memory_exact : forall (e : elm) fX fT istart icount fs e1 o e2 fs',
  no_data (e_net e) -> s_L (e_net e) = Some (nneurons (s_neurons (e_net e))) ->
  hp_add_data e fX fT istart icount None = (e1, o, Ok tt) ->
  hp_add_data e fX fT istart icount (Some fs) = (e2, fs', Ok tt) ->
  (s_kind (e_net e) <> Basic -> e2 = e1) /\
  (s_kind (e_net e) = Basic -> exists HH HT HH', get_corr (e_net e1) = Ok (Some (HH, HT)) /\
     get_corr (e_net e2) = Ok (Some (HH', HT)) /\ e2 = with_net e1 (with_corr (e_net e1) (Some HH') (Some HT)) /\
     HH' = mk (getL (e_net e)) (getL (e_net e)) (fun i j => if (i =? j)%nat then nsub (mget HH i j) (s_norm (e_net e)) else mget HH i j)).
Proof.
  intros e fX fT istart icount fs e1 o e2 fs' Hf HL E1 E2.
  assert (reset (e_net e) = e_net e) as Er.
  { destruct Hf as [F1 F2]. destruct e as [s ? ? ? ? ? ? ?]. cbn in *. destruct s. cbn in *. unfold reset. cbn. now subst. }
  unfold hp_add_data in E1, E2. destruct (s_neurons (e_net e)) as [|g gs] eqn:Eg; [discriminate|].
  destruct (hp_check e fX fT) as [[X T]|]; [|discriminate].
  unfold prepare_fs in E2. rewrite Er in E2.
  assert (with_net e (e_net e) = e) as Ew by (destruct e; reflexivity).
  match type of E2 with context [match ?m with Ok _ => _ | Err _ => _ end] => destruct m as [fs1|x] end; [|discriminate].
  destruct (match f_HT fs1 with Some (w, m) => _ | None => _ end) as [[s0 f0] r0] eqn:E0.
  assert (s0 = e_net e) as ->.
  { destruct (f_HT fs1) as [[w m]|]; [destruct (_ && _)%bool|]; injection E0; congruence. }
  rewrite Ew in E2. destruct r0 as [[]|x]; [|discriminate].
  destruct (nbatches _ _) as [nb|x]; [|discriminate].
  set (rs := ranges _ _ _ nb) in *. set (e0 := hp_fill_wc e T rs) in *.
  assert (e_net e0 = e_net e) as En0. { unfold e0, hp_fill_wc. destruct (is_wc e); [|reflexivity]. destruct (e_wc e); reflexivity. }
  pose proof (batches_frame e0 (hp_batches X T rs) (e_net e0)) as HB. cbv zeta in HB.
  destruct (add_batches e0 (e_net e0) (hp_batches X T rs)) as [s1 [[]|x]]; [|discriminate]. cbn [fst] in HB. rewrite En0 in HB.
  injection E1 as <- _. destruct (write_fs s1 f0) as [[s2 f'] r] eqn:EW. injection E2 as <- _ ->.
  cbn [e_net with_net].
  assert (s_kind s1 = s_kind (e_net e)) as K1 by now rewrite HB.
  assert (s_norm s1 = s_norm (e_net e)) as K2 by now rewrite HB.
  assert (getL s1 = getL (e_net e)) as K3 by now rewrite HB.
  unfold write_fs in EW. destruct (get_corr s1) as [[[HH HT]|]|] eqn:EC; try discriminate.
  assert (s2 = match s_kind s1 with Basic => with_corr s1 (Some (sub_norm (getL s1) (s_norm s1) HH)) (s_HT s1) | _ => s1 end) as ->.
  { destruct (f_HH f0) as [[w m]|]; [destruct (f_HT f0) as [[w' m']|]|]; injection EW; congruence. }
  rewrite K1, K2, K3. split.
  - intros Hk. destruct (s_kind (e_net e)); try congruence; reflexivity.
  - intros Hk. rewrite Hk. exists HH, HT, (sub_norm (getL (e_net e)) (s_norm (e_net e)) HH).
    unfold get_corr in EC. rewrite K1, Hk in EC. destruct (s_HH s1) as [h|] eqn:EH; [|discriminate]. destruct (s_HT s1) as [t|] eqn:ET; [|discriminate].
    injection EC as <- <-. split; [reflexivity|]. split; [unfold get_corr; cbn [s_HH s_HT with_corr s_kind]; rewrite K1, Hk; reflexivity|].
    split; [reflexivity|reflexivity].
Qed.
End Files.
