(** C05: exactly which data weighted training accepts and which weight every sample
    gets (reals).  C52: exactly when rbf_param returns. *)
From Coq Require Import Reals Lra.
From Verif Require Import Base Num Mat LinAlg Slfn Strs Elm MatFacts SplitProofs ElmFacts RLin AccProofs TrainProofs TrainThms
  WeightFacts Rbf RbfThms Spec.
Local Open Scope R_scope.
#[local] Existing Instance NumR.

(** the columns of the entries equal to one, row after row *)
Definition ones_at (T : list (list R)) : list nat :=
  flat_map (fun row => filter (fun j => Reqb (nth j row 0) 1) (seq 0 (length row))) T.

(** as many ones as samples, or a single one *)
Definition acceptable (T : list (list R)) : Prop := length (ones_at T) = length T \/ length (ones_at T) = 1%nat.

(** what the samples of a batch are weighted with: the i-th sample with the class of the
    i-th one; when there is one 1 in all, every sample with its class *)
Definition weights_in (ws : list R) (T : list (list R)) : list R :=
  if (length (ones_at T) =? length T)%nat then map (fun k => nth k ws 0) (ones_at T)
  else repeat (nth (hd 0%nat (ones_at T)) ws 0) (length T).

Lemma where1_row_filter : forall (row : list R) (j : nat),
  @where1_row NumR j row = map (fun i => (j + i)%nat) (filter (fun i => Reqb (nth i row 0) 1) (seq 0 (length row))).
Proof.
  induction row as [|x r IH]; intros j; [reflexivity|].
  cbn [where1_row length seq filter nth]. rewrite <- seq_shift.
  assert (forall l : list nat, filter (fun i => Reqb (nth i (x :: r) 0) 1) (map S l) = map S (filter (fun i => Reqb (nth i r 0) 1) l)) as FS.
  { induction l as [|a l IHl]; [reflexivity|]. cbn [map filter nth]. destruct (Reqb (nth a r 0) 1); cbn [map]; now rewrite <- IHl. }
  rewrite FS, (IH (S j)). change (@neqb NumR x n1) with (Reqb x 1).
  assert (map (fun i => (S j + i)%nat) (filter (fun i => Reqb (nth i r 0) 1) (seq 0 (length r))) =
          map (fun i => (j + i)%nat) (map S (filter (fun i => Reqb (nth i r 0) 1) (seq 0 (length r))))) as E.
  { rewrite map_map. apply map_ext. intros; lia. }
  destruct (Reqb x 1); cbn [map]; rewrite E; [f_equal; lia|reflexivity].
Qed.
Lemma where1_ones_at : forall T : list (list R), @where1 NumR T = ones_at T.
Proof.
  unfold where1, ones_at. induction T as [|t T IH]; [reflexivity|]. cbn [map concat flat_map]. rewrite IH. f_equal.
  rewrite where1_row_filter. cbn [Nat.add]. apply map_id.
Qed.
Lemma ones_at_lt : forall c T k, wide c T -> In k (ones_at T) -> (k < c)%nat.
Proof.
  intros c T k HT Hin. unfold ones_at in Hin. apply in_flat_map in Hin as (row & Hr & Hk).
  apply filter_In in Hk as [Hk _]. apply in_seq in Hk. unfold wide in HT. rewrite Forall_forall in HT.
  specialize (HT row Hr). cbn [num NumR] in *. lia.
Qed.
Lemma wc_index_given : forall (ws : list R) (ks : list nat), (forall k, In k ks -> (k < length ws)%nat) ->
  wc_index (map (@Fin NumR) ws) ks = Ok (map (@Fin NumR) (map (fun k => nth k ws 0) ks)).
Proof.
  intros ws ks H. unfold wc_index. induction ks as [|k ks IH]; [reflexivity|]. cbn [mapM map].
  rewrite (map_nth_error (@Fin NumR) k ws (nth_error_nth' ws 0 (H k (or_introl eq_refl)))). cbn [rbind].
  rewrite IH by (intros; apply H; now right). reflexivity.
Qed.

Section Exact.
Context {SG : Sing}.

Lemma batch_one : forall s X T ws v ss, Acc s ss -> usable s -> wide (s_inputs s) X -> wide (s_outputs s) T ->
  length X = length T -> length ws = s_outputs s -> (forall w, In w ws -> 0 <= w) -> T <> [] ->
  v = map (@Fin NumR) (map (fun k => nth k ws 0) (ones_at T)) ->
  (acceptable T -> exists s', add_batch s X T (Some v) = (s', Ok tt) /\
     Acc s' (ss ++ samples (weights_in ws T) (map (hrow (s_neurons s)) X) T) /\
     s' = with_corr s (s_HH s') (s_HT s') /\ s_HH s' <> None /\ length (weights_in ws T) = length T) /\
  (~ acceptable T -> exists s' x, add_batch s X T (Some v) = (s', Err x)).
Proof.
  intros s X T ws v ss HA HU HX HT HL HW Hp HN Ev.
  assert (length v = length (ones_at T)) as Lv by (rewrite Ev, !map_length; reflexivity).
  assert (forall k, In k (ones_at T) -> 0 <= nth k ws 0) as Pk.
  { intros k Hk. apply Hp, nth_In. rewrite HW. eapply ones_at_lt; eauto. }
  assert (forall w, In w (map (fun k => nth k ws 0) (ones_at T)) -> 0 <= w) as Pm.
  { intros w Hw. apply in_map_iff in Hw as (k & <- & Hk). auto. }
  split.
  - intros HAc.
    assert (exists s', add_batch s X T (Some v) = (s', Ok tt)) as [s' E].
    { unfold add_batch. rewrite project_ok by auto. cbn [rbind].
      set (H := map (hrow (s_neurons s)) X). cbn [num NumR] in *.
      assert (length H = length T) as LH by (unfold H; rewrite map_length; auto).
      rewrite Lv, LH.
      assert ((length (ones_at T) =? length T)%nat || (length (ones_at T) =? 1)%nat = true) as ->.
      { destruct HAc as [A|A]; rewrite A, Nat.eqb_refl; auto. apply Bool.orb_true_r. }
      rewrite Ev. rewrite sqrt_weights_ok by auto. cbn [rbind].
      set (rs := map sqrt _).
      assert (length rs = length (ones_at T)) as Lr by (unfold rs; rewrite !map_length; auto).
      assert (forall M : list (list R), length M = length T -> exists M', scale_rows rs M = Ok M' /\ length M' = length M /\
                (forall c, Forall (fun r => length r = c) M -> Forall (fun r => length r = c) M')) as SR.
      { intros M LM. unfold scale_rows. cbn [num NumR] in *. rewrite Lr, LM. destruct (Nat.eqb_spec (length (ones_at T)) (length T)) as [A|A].
        - eexists. split; [reflexivity|]. split; [rewrite map2_length; lia|]. intros c Hc. apply (Forall_scale c rs M Hc).
        - destruct HAc as [B|B]; [congruence|]. rewrite B in Lr. destruct rs as [|w [|? ?]]; try discriminate.
          eexists. split; [reflexivity|]. split; [rewrite map_length; lia|]. intros c Hc. apply Forall_map.
          eapply Forall_impl; [|exact Hc]. intros a Ha. cbn beta. rewrite map_length. exact Ha. }
      destruct (SR H LH) as (H' & EH & LH' & _). destruct (SR T eq_refl) as (T' & ET & LT' & WT').
      cbn [num NumR] in *. rewrite EH, ET. cbn [rbind].
      assert ((length T' =? length H')%nat = true) as -> by (apply Nat.eqb_eq; lia).
      rewrite fit_all by (apply WT'; exact HT). eexists; reflexivity. }
    exists s'. split; auto.
    destruct (add_batch_acc s s' X T (Some v) ss HA HT E) as (H & EP & EL & LE & _ & HAcc & Es & Hn).
    rewrite project_ok in EP by auto. apply Ok_inj in EP. subst H.
    assert (eff_weights (length (map (hrow (s_neurons s)) X)) (Some v) = weights_in ws T) as EW.
    { unfold eff_weights, weights_in. cbn [num NumR] in *. rewrite Lv, EL. destruct (Nat.eqb_spec (length (ones_at T)) (length T)) as [A|A].
      - rewrite Ev. now rewrite finite_map.
      - f_equal. destruct HAc as [B|B]; [congruence|]. rewrite Ev.
        destruct (ones_at T) as [|k [|? ?]]; try discriminate. reflexivity. }
    rewrite EW in HAcc, LE. repeat split; auto. rewrite LE. exact EL.
  - intros HNA. destruct (add_batch s X T (Some v)) as [s' [[]|x]] eqn:E; [|eauto].
    exfalso. destruct (add_batch_weights_len _ _ _ _ _ E) as [C|C]; apply HNA; [left|right]; cbn [num NumR] in *; congruence.
Qed.

Lemma batches_exact : forall (ws : list R) parts s ss,
  Acc s ss -> usable s -> length ws = s_outputs s -> (forall w, In w ws -> 0 <= w) ->
  (forall x t, In (x, t) parts -> length x = length t /\ t <> [] /\ wide (s_inputs s) x /\ wide (s_outputs s) t) ->
  let f := fun s p => match wc_index (map (@Fin NumR) ws) (where1 (snd p)) with
                      | Ok v => add_batch s (fst p) (snd p) (Some v) | Err x => (s, Err x) end in
  ((forall x t, In (x, t) parts -> acceptable t) -> exists s', run_all f s parts = (s', Ok tt) /\
     Acc s' (ss ++ samples (concat (map (fun p => weights_in ws (snd p)) parts))
                           (map (hrow (s_neurons s)) (concat (map fst parts))) (concat (map snd parts))) /\
     s' = with_corr s (s_HH s') (s_HT s') /\ (parts <> [] \/ s_HH s <> None -> s_HH s' <> None)) /\
  ((exists x t, In (x, t) parts /\ ~ acceptable t) -> exists s' x, run_all f s parts = (s', Err x)).
Proof.
  intros ws. induction parts as [|[X T] r IH]; intros s ss HA HU HW Hp HP f.
  - split.
    + intros _. exists s. split; [reflexivity|]. cbn. rewrite app_nil_r. split; auto.
      split; [destruct s; reflexivity|]. intros [?|?]; congruence.
    + intros (x & t & [] & _).
  - destruct (HP X T (or_introl eq_refl)) as (HL & HN & WX & WT).
    assert (wc_index (map (@Fin NumR) ws) (@where1 NumR T) = Ok (map (@Fin NumR) (map (fun k => nth k ws 0) (ones_at T)))) as EV.
    { rewrite where1_ones_at. apply wc_index_given. intros k Hk. rewrite HW. eapply ones_at_lt; eauto. }
    destruct (batch_one s X T ws _ ss HA HU WX WT HL HW Hp HN eq_refl) as [Bok Bno].
    assert (f s (X, T) = add_batch s X T (Some (map (@Fin NumR) (map (fun k => nth k ws 0) (ones_at T))))) as Ef.
    { unfold f. cbn [fst snd]. cbn [num NumR] in *. rewrite EV. reflexivity. }
    assert (acceptable T \/ ~ acceptable T) as [HAc|HNA].
    { unfold acceptable. destruct (Nat.eq_dec (length (ones_at T)) (length T)); [auto|]. destruct (Nat.eq_dec (length (ones_at T)) 1); [auto|right; tauto]. }
    + destruct (Bok HAc) as (s1 & E1 & A1 & Es1 & N1 & LW).
      assert (s_inputs s1 = s_inputs s /\ s_outputs s1 = s_outputs s /\ s_neurons s1 = s_neurons s) as (EI & EO & EN) by (rewrite Es1; auto).
      destruct (IH s1 _ A1) as [IHok IHno].
      { rewrite Es1. exact HU. } { congruence. } { exact Hp. }
      { intros x t Hin. rewrite EI, EO. apply HP. now right. }
      cbn [run_all]. rewrite Ef, E1. fold f. split.
      * intros Hall. destruct IHok as (s2 & E2 & A2 & Es2 & N2). { intros x t Hin. apply (Hall x t). now right. }
        exists s2. split; [exact E2|]. split.
        -- cbn [map concat fst snd]. rewrite EN in A2. rewrite <- app_assoc in A2. rewrite map_app.
           rewrite samples_app; [exact A2|rewrite map_length; congruence|exact LW].
        -- split; [rewrite Es2, Es1; reflexivity|]. intros _. apply N2. now right.
      * intros (x & t & [Heq|Hin] & Hb).
        -- injection Heq as <- <-. contradiction.
        -- apply IHno. eauto.
    + split.
      * intros Hall. exfalso. apply HNA. apply (Hall X T). now left.
      * intros _. destruct (Bno HNA) as (s1 & x & E1). cbn [run_all]. rewrite Ef, E1. eauto.
Qed.

Theorem wc_exact : forall e X T H ws,
  no_data (e_net e) -> is_wc e = true -> e_wc e = Some (map Fin ws) ->
  length ws = s_outputs (e_net e) -> (forall w, In w ws -> 0 <= w) ->
  (0 < e_batch e)%Z -> X <> [] -> length X = length T -> wide (s_outputs (e_net e)) T ->
  elm_project e (Arr2 (s_inputs (e_net e)) X) = Ok H ->
  exists parts : list (list (list R)),
    concat parts = T /\ (forall t, In t parts -> t <> [] /\ (Z.of_nat (length t) <= e_batch e)%Z) /\
    ((Z.of_nat (length parts) - 1) * e_batch e < Z.of_nat (length X) <= Z.of_nat (length parts) * e_batch e)%Z /\
    ((forall t, In t parts -> acceptable t) ->
       let ss := samples (concat (map (weights_in ws) parts)) H T in
       exists e', add_data e X T = (e', Ok tt) /\
         get_corr (e_net e') = Ok (Some (spec_HH (getL (e_net e)) (s_norm (e_net e)) ss,
                                         spec_HT (getL (e_net e)) (s_outputs (e_net e)) ss))) /\
    ((exists t, In t parts /\ ~ acceptable t) -> exists e' x, add_data e X T = (e', Err x)).
Proof.
  intros e X T H ws Hf Hw Ew Lw Pw Hb HX HL HT HP. destruct (elm_project_inv _ _ _ HP) as (HU & WX & ->).
  destruct (add_data_chunks_wc e X T Hw Hb HX HL) as (parts & wc & _ & W & A & B & C & D & E).
  assert (wc = map Fin ws) as -> by auto.
  destruct (batches_exact ws parts (e_net e) [] (no_data_acc _ Hf) HU Lw Pw) as [Hok Hno].
  { intros x t Hin. destruct (C x t Hin) as (C1 & C2 & _). split; auto. split; [intros ->; cbn in *; lia|].
    split; apply Forall_forall; intros y Hy.
    - unfold wide in WX. rewrite Forall_forall in WX. apply WX. rewrite <- A. apply in_concat. exists x. split; auto. apply in_map_iff. now exists (x, t).
    - unfold wide in HT. rewrite Forall_forall in HT. apply HT. rewrite <- B. apply in_concat. exists t. split; auto. apply in_map_iff. now exists (x, t). }
  exists (map snd parts). split; auto. split.
  { intros t Hin. apply in_map_iff in Hin as ([x t'] & <- & Hin). cbn [snd]. destruct (C x t' Hin) as (C1 & C2 & C3).
    split; [intros ->; cbn in *; lia|]. cbn [num NumR] in *. lia. }
  split. { now rewrite map_length. }
  destruct (add_data e X T) as [e' r] eqn:EA. cbn [fst snd] in E. split.
  - intros Hall. destruct Hok as (s' & E' & Acc' & Es & N).
    { intros x t Hin. apply Hall. apply in_map_iff. now exists (x, t). }
    cbn [num NumR] in *. rewrite E' in E. injection E as E1 E2. exists e'. subst r. split; auto. rewrite E1.
    rewrite map_map. cbn [app] in Acc'. rewrite A, B in Acc'. apply corr_of; auto. apply N. left.
    intros ->. cbn in A. congruence.
  - intros (t & Hin & HNA). apply in_map_iff in Hin as ([x t'] & <- & Hin). cbn [snd] in HNA.
    destruct Hno as (s' & y & E'); [eauto|]. cbn [num NumR] in *. rewrite E' in E. injection E as E1 E2. subst r. eauto.
Qed.
End Exact.

(** ** rbf_param *)
Lemma rdist_same : forall kind (x : list R), @rdist NumR kind x x = 0.
Proof.
  intros kind x. destruct kind; cbn [rdist]; induction x as [|a x IH]; try reflexivity; cbn [map2 nsum fold_right] in *.
  - cbn [nadd nabs nsub NumR]. unfold nsum in IH. cbn [nadd n0 nabs nsub NumR num] in *. rewrite IH, Rminus_diag_eq, Rabs_R0 by reflexivity. lra.
  - rewrite IH. cbn [nltb nabs nsub NumR]. rewrite Rminus_diag_eq, Rabs_R0 by reflexivity. unfold Rltb. destruct (Rlt_dec 0 0); reflexivity.
  - unfold nsum in IH. cbn [nadd n0 nmul nsub NumR num] in *. rewrite IH, Rminus_diag_eq by reflexivity. lra.
Qed.

(** every measured pair consists of two equal samples: never returns *)
Theorem rbf_never : forall fuel d X k kind ix1 ix2 (u : nat -> R),
  X <> [] -> a_choice (length X) (rbf_Nk (length X) k) ix1 -> a_choice (length X) k ix2 ->
  (forall i j, In (i, j) (pairs ix1) -> nth i X [] = nth j X []) ->
  @rbf_param NumR fuel d X k kind ix1 ix2 u = None.
Proof.
  intros fuel d X k kind ix1 ix2 u HX H1 H2 H. apply rbf_stuck; auto. intros i j Hij. rewrite (H i j Hij). apply rdist_same.
Qed.

(** exactly when it returns *)
Theorem rbf_returns_iff : forall d X k kind ix1 ix2 (u : nat -> R),
  (0 < k)%nat -> X <> [] -> Forall (fun x => length x = d) X -> a_choice (length X) (rbf_Nk (length X) k) ix1 -> a_choice (length X) k ix2 ->
  infinitely_often (fun n => 1 / 2 <= u n) ->
  ((exists fuel r, @rbf_param NumR fuel d X k kind ix1 ix2 u = Some r) <->
   exists i j, In (i, j) (pairs ix1) /\ nth i X [] <> nth j X []).
Proof.
  intros d X k kind ix1 ix2 u Hk HX HW H1 H2 Hu. split.
  - intros (fuel & r & E).
    assert (forall l : list (nat * nat), (forall i j, In (i, j) l -> nth i X [] = nth j X []) \/ exists i j, In (i, j) l /\ nth i X [] <> nth j X []) as Dec.
    { induction l as [|[i j] l IH]; [left; intros ? ? []|].
      destruct (list_eq_dec Req_EM_T (nth i X []) (nth j X [])) as [Eq|Ne].
      - destruct IH as [IH|(i' & j' & Hin & Hne)].
        + left. intros i' j' [Heq|Hin]; [injection Heq as <- <-; exact Eq|auto].
        + right. exists i', j'. split; [now right|exact Hne].
      - right. exists i, j. split; [now left|exact Ne]. }
    destruct (Dec (pairs ix1)) as [All|Some_]; [|exact Some_].
    rewrite rbf_never in E by auto. discriminate.
  - intros Hd. destruct (rbf_total d X k kind ix1 ix2 u Hk HW H1 H2 Hd Hu) as (fuel & W & B & E). eauto.
Qed.
