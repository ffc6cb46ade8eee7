(** Incremental training, solver equivalence, set_corr round trip (reals). *)
From Coq Require Import Reals Lra Permutation.
From Verif Require Import Base Num Mat LinAlg Slfn Strs Elm MatFacts SplitProofs Spec ElmFacts RLin
  AccProofs TrainProofs RidgeProofs TrainThms.
Local Open Scope R_scope.
#[local] Existing Instance NumR.

Lemma Rsum_perm : forall l m, Permutation l m -> Rsum l = Rsum m.
Proof. intros. rewrite !Rsum_N. now apply nsum_perm. Qed.
Lemma spec_HH_perm : forall L norm ss ss', Permutation ss ss' -> spec_HH L norm ss = spec_HH L norm ss'.
Proof.
  intros. unfold spec_HH. apply map_ext. intros i. apply map_ext. intros j. f_equal.
  apply Rsum_perm, Permutation_map, H.
Qed.
Lemma spec_HT_perm : forall L c ss ss', Permutation ss ss' -> spec_HT L c ss = spec_HT L c ss'.
Proof. intros. unfold spec_HT. apply map_ext. intros i. apply map_ext. intros j. apply Rsum_perm, Permutation_map, H. Qed.

Lemma samples_combine : forall (g : list R -> R) (h : list R -> list R) X T, length X = length T ->
  samples (map g T) (map h X) T = map (fun xt => (g (snd xt), h (fst xt), snd xt)) (combine X T).
Proof. intros g h. induction X; intros [|t T] E; cbn in *; try discriminate; auto. rewrite IHX by lia. reflexivity. Qed.

(** one call of add_data with its own batch size *)
Definition part_call {SG : Sing} (e : elm) (p : Z * (mat * mat)) : elm * res unit :=
  add_data (with_batch e (fst p)) (fst (snd p)) (snd (snd p)).
Definition parts_X (ps : list (Z * (mat * mat))) : mat := concat (map (fun p => fst (snd p)) ps).
Definition parts_T (ps : list (Z * (mat * mat))) : mat := concat (map (fun p => snd (snd p)) ps).

Section Incr.
Context {SG : Sing}.

Definition call_ok (i o : nat) (p : Z * (mat * mat)) : Prop :=
  (0 < fst p)%Z /\ fst (snd p) <> [] /\ length (fst (snd p)) = length (snd (snd p)) /\
  wide i (fst (snd p)) /\ wide o (snd (snd p)).

Lemma weights_ok_same : forall e e' g T, e_class e' = e_class e -> e_wc e' = e_wc e ->
  s_outputs (e_net e') = s_outputs (e_net e) -> weights_ok e g T -> weights_ok e' g T.
Proof.
  intros e e' g T E1 E2 E3 [H1 H2]. split; auto.
  assert (is_wc e' = is_wc e) as Ew by (unfold is_wc; now rewrite E1). unfold fill_wc in *. rewrite Ew.
  destruct (is_wc e); auto. rewrite E2, E3. destruct H2 as (wc & A & B). exists wc. split; auto.
  destruct (e_wc e) eqn:Ee; cbn [e_wc with_wc] in *; congruence.
Qed.

Lemma parts_acc : forall g ps e ss,
  Acc (e_net e) ss -> usable (e_net e) -> (is_wc e = true -> e_wc e <> None) ->
  Forall (call_ok (s_inputs (e_net e)) (s_outputs (e_net e))) ps ->
  (forall p, In p ps -> weights_ok e g (snd (snd p))) ->
  exists e', run_all part_call e ps = (e', Ok tt) /\
    Acc (e_net e') (ss ++ samples (map g (parts_T ps)) (map (hrow (s_neurons (e_net e))) (parts_X ps)) (parts_T ps)) /\
    e_net e' = with_corr (e_net e) (s_HH (e_net e')) (s_HT (e_net e')) /\
    (ps <> [] \/ s_HH (e_net e) <> None -> s_HH (e_net e') <> None).
Proof.
  intros g. induction ps as [|[b [X T]] ps IH]; intros e ss HA HU Hw HO HG.
  - exists e. cbn. rewrite app_nil_r. split; auto. split; auto. split; [destruct (e_net e); reflexivity|].
    intros [?|?]; congruence.
  - inversion HO as [|? ? (O1 & O2 & O3 & O4 & O5) HO']; subst. cbn [fst snd] in *.
    assert (weights_ok (with_batch e b) g T) as HW by exact (weights_ok_same e (with_batch e b) g T eq_refl eq_refl eq_refl (HG _ (or_introl eq_refl))).
    destruct (add_data_acc (with_batch e b) g X T ss HA HU O1 O2 O3 O4 O5 HW) as (s' & E & A & Es & N).
    cbn [e_net with_batch] in *.
    assert (fill_wc (with_batch e b) T = with_batch e b) as EF.
    { unfold fill_wc. destruct (is_wc (with_batch e b)) eqn:Ew; auto. cbn [e_wc with_batch].
      destruct (e_wc e) eqn:Ee; auto. exfalso. apply Hw; auto. }
    rewrite EF in E.
    set (e1 := with_net (with_batch e b) s') in *.
    destruct (IH e1 _ A) as (e' & E2 & A2 & Es2 & N2).
    { unfold e1. cbn. rewrite Es. exact HU. }
    { exact Hw. }
    { unfold e1. cbn. rewrite Es. exact HO'. }
    { intros p Hp. apply weights_ok_same with e; auto. { unfold e1. cbn. now rewrite Es. } apply HG; right; auto. }
    exists e'. cbn [run_all]. unfold part_call at 1. cbn [fst snd]. rewrite E. split; [exact E2|].
    unfold parts_X, parts_T in *. cbn [map concat fst snd].
    assert (s_neurons (e_net e1) = s_neurons (e_net e)) as En by (unfold e1; cbn; rewrite Es; reflexivity).
    rewrite En in A2. split; [|split].
    + rewrite <- app_assoc in A2. rewrite !map_app. cbn [num NumR] in *.
      rewrite (samples_app (map g T)); [exact A2|rewrite !map_length; auto|rewrite map_length; auto].
    + rewrite Es2. unfold e1. cbn. rewrite Es. reflexivity.
    + intros _. apply N2. right. unfold e1. cbn. exact N.
Qed.

Lemma parts_len : forall ps i o, Forall (call_ok i o) ps -> length (parts_X ps) = length (parts_T ps).
Proof.
  unfold parts_X, parts_T. induction 1 as [|p ps (_ & _ & H & _) HF IH]; cbn; auto. rewrite !app_length.
  cbn [num NumR] in *. lia.
Qed.

Lemma parts_T_in : forall ps p t, In p ps -> In t (snd (snd p)) -> In t (parts_T ps).
Proof. intros. unfold parts_T. apply in_concat. exists (snd (snd p)). split; auto. apply in_map_iff. eauto. Qed.

Lemma combine_len_perm : forall {A B} (X1 X2 : list A) (T1 T2 : list B), length X1 = length T1 -> length X2 = length T2 ->
  Permutation (combine X1 T1) (combine X2 T2) -> length X1 = length X2.
Proof. intros. apply Permutation_length in H1. rewrite !combine_length in H1. lia. Qed.

(** C03: the common core *)
Lemma incremental : forall g e ps b X T,
  no_data (e_net e) -> usable (e_net e) -> (is_wc e = true -> e_wc e <> None) ->
  ps <> [] -> Forall (call_ok (s_inputs (e_net e)) (s_outputs (e_net e))) ps ->
  (0 < b)%Z -> length X = length T ->
  Permutation (combine (parts_X ps) (parts_T ps)) (combine X T) ->
  (forall p, In p ps -> weights_ok e g (snd (snd p))) -> weights_ok e g T ->
  exists e1 e2 C, run_all part_call e ps = (e1, Ok tt) /\ add_data (with_batch e b) X T = (e2, Ok tt) /\
    get_corr (e_net e1) = Ok (Some C) /\ get_corr (e_net e2) = Ok (Some C).
Proof.
  intros g e ps b X T Hf HU Hw Hne HO Hb HL HP HG HGT0.
  pose proof (weights_ok_same e (with_batch e b) g T eq_refl eq_refl eq_refl HGT0) as HGT.
  destruct (parts_acc g ps e [] (no_data_acc _ Hf) HU Hw HO HG) as (e1 & E1 & A1 & Es1 & N1).
  pose proof (parts_len _ _ _ HO) as HL1.
  pose proof (combine_len_perm _ _ _ _ HL1 HL HP) as HLX.
  assert (wide (s_inputs (e_net e)) (parts_X ps) /\ wide (s_outputs (e_net e)) (parts_T ps)) as [W1 W2].
  { unfold parts_X, parts_T. split; rewrite wide_concat, Forall_map; eapply Forall_impl; try exact HO;
      intros p (A & B & C & D & E); assumption. }
  assert (wide (s_inputs (e_net e)) X /\ wide (s_outputs (e_net e)) T) as [WX WT].
  { assert (forall x t, In (x, t) (combine X T) -> length x = s_inputs (e_net e) /\ length t = s_outputs (e_net e)) as Hin.
    { intros x t Hin. apply (Permutation_in _ (Permutation_sym HP)) in Hin. unfold wide in *. rewrite Forall_forall in W1, W2.
      split; [apply W1; eapply in_combine_l; eauto|apply W2; eapply in_combine_r; eauto]. }
    clear -Hin HL. revert T HL Hin. induction X; intros [|t T] HL Hin; cbn in HL; try discriminate; split; constructor.
    - apply (Hin a t). left; auto.
    - apply (IHX T); auto. intros; apply Hin; right; auto.
    - apply (Hin a t). left; auto.
    - apply (IHX T); auto. intros; apply Hin; right; auto. }
  assert (X <> []) as HX.
  { destruct ps as [|p ps]; [congruence|]. inversion HO as [|? ? (_ & O2 & _) _]; subst. intros ->.
    unfold parts_X in HLX. cbn in HLX. rewrite app_length in HLX. cbn [num NumR] in *. destruct (fst (snd p)); [congruence|cbn in HLX; discriminate]. }
  destruct (add_data_acc (with_batch e b) g X T [] (no_data_acc _ Hf) HU Hb HX HL WX WT HGT) as (s2 & E2 & A2 & Es2 & N2).
  cbn [e_net with_batch app] in *. eexists e1, _, _. split; [exact E1|]. split; [exact E2|]. cbn [e_net with_net].
  assert (s_HH (e_net e1) <> None) as N1' by (apply N1; left; auto).
  rewrite (samples_combine g _ X T HL) in A2. rewrite (samples_combine g _ _ _ HL1) in A1.
  rewrite (corr_of e (e_net e1) _ A1 Es1 N1'). split; [reflexivity|].
  rewrite (corr_of e s2 _ A2 Es2 N2).
  pose proof (Permutation_map (fun xt => (g (snd xt), hrow (s_neurons (e_net e)) (fst xt), snd xt)) (Permutation_sym HP)) as HQ.
  cbn [num NumR] in *.
  rewrite (spec_HH_perm _ _ _ _ HQ), (spec_HT_perm _ _ _ _ HQ). reflexivity.
Qed.

Theorem incremental_plain : forall e ps b X T,
  no_data (e_net e) -> usable (e_net e) -> is_wc e = false ->
  ps <> [] -> Forall (call_ok (s_inputs (e_net e)) (s_outputs (e_net e))) ps ->
  (0 < b)%Z -> length X = length T ->
  Permutation (combine (parts_X ps) (parts_T ps)) (combine X T) ->
  exists e1 e2 C, run_all part_call e ps = (e1, Ok tt) /\ add_data (with_batch e b) X T = (e2, Ok tt) /\
    get_corr (e_net e1) = Ok (Some C) /\ get_corr (e_net e2) = Ok (Some C).
Proof.
  intros. apply incremental with (g := fun _ => 1); auto using weights_plain. congruence.
Qed.

Theorem incremental_weighted : forall e ws ps b X T,
  no_data (e_net e) -> usable (e_net e) -> is_wc e = true -> e_wc e = Some (map Fin ws) ->
  length ws = s_outputs (e_net e) -> (forall w, In w ws -> 0 <= w) ->
  ps <> [] -> Forall (call_ok (s_inputs (e_net e)) (s_outputs (e_net e))) ps ->
  (forall t, In t (parts_T ps) -> exists k, has_class (s_outputs (e_net e)) t k) ->
  (0 < b)%Z -> length X = length T ->
  Permutation (combine (parts_X ps) (parts_T ps)) (combine X T) ->
  exists e1 e2 C, run_all part_call e ps = (e1, Ok tt) /\ add_data (with_batch e b) X T = (e2, Ok tt) /\
    get_corr (e_net e1) = Ok (Some C) /\ get_corr (e_net e2) = Ok (Some C).
Proof.
  intros e ws ps b X T Hf HU Hw Ew Lw Pw Hne HO HC Hb HL HP.
  apply incremental with (g := gw ws); auto.
  - congruence.
  - intros p Hp. apply weights_given; auto. intros t Ht. apply HC. eapply parts_T_in; eauto.
  - apply weights_given; auto. intros t Ht. apply HC.
    destruct (In_nth _ _ [] Ht) as (i & Hi & Ei).
    assert (In (nth i X [], t) (combine X T)) as Hin.
    { rewrite <- Ei. rewrite <- combine_nth by auto. apply nth_In. rewrite combine_length. cbn [num NumR] in *. lia. }
    apply (Permutation_in _ (Permutation_sym HP)) in Hin. eapply in_combine_r; eauto.
Qed.

(** ** C06 *)
Definition with_kind (k : skind) (s : slfn) : slfn :=
  mkSlfn k (s_inputs s) (s_outputs s) (s_norm s) (s_neurons s) (s_L s) (s_B s) (s_HH s) (s_HT s).

Definition same_net (s1 s2 : slfn) : Prop :=
  s_inputs s1 = s_inputs s2 /\ s_outputs s1 = s_outputs s2 /\ s_norm s1 = s_norm s2 /\
  s_neurons s1 = s_neurons s2 /\ s_L s1 = s_L s2.

Lemma add_batch_status : forall s1 s2 X T wv, same_net s1 s2 -> snd (add_batch s1 X T wv) = snd (add_batch s2 X T wv).
Proof.
  intros s1 s2 X T wv (E1 & E2 & E3 & E4 & E5). unfold add_batch.
  assert (project s1 X = project s2 X) as -> by (unfold project; now rewrite E1, E4).
  rewrite E2.
  match goal with |- context [match ?p with Ok _ => _ | Err _ => _ end] => destruct p as [[H' T']|x] end; auto.
  destruct (if (length T' =? length H')%nat then mapM (fit_cols (s_outputs s2)) T' else Err ValueError); reflexivity.
Qed.

Lemma with_corr_same : forall s a b, same_net s (with_corr s a b).
Proof. intros. repeat split. Qed.
Lemma same_trans : forall a b c, same_net a b -> same_net b c -> same_net a c.
Proof. unfold same_net; intuition congruence. Qed.
Lemma same_sym : forall a b, same_net a b -> same_net b a.
Proof. unfold same_net; intuition congruence. Qed.

Definition batch_call (s : slfn) (p : mat * mat * option (list xnum)) : slfn * res unit :=
  add_batch s (fst (fst p)) (snd (fst p)) (snd p).

Lemma history_acc : forall hist s1 s2 s1' ss, same_net s1 s2 -> Acc s1 ss -> Acc s2 ss ->
  (forall p, In p hist -> wide (s_outputs s1) (snd (fst p))) ->
  run_all batch_call s1 hist = (s1', Ok tt) ->
  exists s2' ss', run_all batch_call s2 hist = (s2', Ok tt) /\ Acc s1' ss' /\ Acc s2' ss' /\
    same_net s1 s1' /\ same_net s2 s2' /\ (hist <> [] -> s_HH s1' <> None /\ s_HH s2' <> None) /\
    (s_HH s1 <> None -> s_HH s1' <> None) /\ (s_HH s2 <> None -> s_HH s2' <> None) /\ (nonneg ss -> nonneg ss') /\
    s_kind s2' = s_kind s2 /\ s_kind s1' = s_kind s1.
Proof.
  induction hist as [|[[X T] wv] r IH]; intros s1 s2 s1' ss HS A1 A2 HT HR.
  - cbn in *. injection HR as <-. exists s2, ss. repeat split; auto; congruence.
  - cbn [run_all] in *. unfold batch_call in HR at 1. unfold batch_call at 1. cbn [fst snd] in *.
    pose proof (add_batch_status s1 s2 X T wv HS) as St.
    destruct (add_batch s1 X T wv) as [t1 [u|x]] eqn:B1; [|discriminate].
    destruct (add_batch s2 X T wv) as [t2 [u2|x]] eqn:B2; [|discriminate].
    destruct u, u2.
    assert (wide (s_outputs s1) T) as WT by exact (HT _ (or_introl eq_refl)).
    destruct HS as (S1 & S2 & S3 & S4 & S5).
    destruct (add_batch_acc s1 t1 X T wv ss A1 WT B1) as (H1 & P1 & L1 & W1 & G1 & A1' & E1 & N1).
    assert (wide (s_outputs s2) T) as WT2 by (rewrite <- S2; exact WT).
    destruct (add_batch_acc s2 t2 X T wv ss A2 WT2 B2) as (H2 & P2 & L2 & W2 & G2 & A2' & E2 & N2).
    assert (H1 = H2) as <-.
    { apply Ok_inj. rewrite <- P1, <- P2. unfold project. now rewrite S1, S4. }
    assert (same_net s1 t1) as T1 by (rewrite E1; apply with_corr_same).
    assert (same_net s2 t2) as T2 by (rewrite E2; apply with_corr_same).
    assert (s_kind t1 = s_kind s1 /\ s_kind t2 = s_kind s2) as [K1 K2] by (rewrite E1, E2; auto).
    assert (same_net t1 t2) as T12.
    { eapply same_trans; [apply same_sym; exact T1|]. eapply same_trans; [|exact T2]. repeat split; auto. }
    assert (forall p, In p r -> wide (s_outputs t1) (snd (fst p))) as HT'.
    { intros p Hp. destruct T1 as (_ & T1 & _). rewrite <- T1. apply HT; right; auto. }
    destruct (IH t1 t2 s1' _ T12 A1' A2' HT' HR) as (s2' & ss' & Q1 & Q2 & Q3 & Q4 & Q5 & Q6 & Q7 & Q8 & Q9 & Q10 & Q11).
    exists s2', ss'. split; [exact Q1|]. split; [exact Q2|]. split; [exact Q3|].
    split; [eapply same_trans; eauto|]. split; [eapply same_trans; eauto|].
    split; [auto|]. split; [auto|]. split; [auto|]. split; [|split; congruence].
    intros Hn. apply Q9. intros sm Hin. apply in_app_or in Hin. destruct Hin as [Hin|Hin]; [auto|].
    clear -Hin G1. revert Hin G1. generalize (eff_weights (length H1) wv). revert T.
    induction H1 as [|h H1 IHH]; intros [|t T] [|w ws] Hin Hg; cbn in Hin; try contradiction.
    destruct Hin as [<-|Hin]; [apply Hg; left; auto|]. eapply IHH; eauto. intros; apply Hg; right; auto.
Qed.

Theorem solvers_agree : forall s k hist s',
  no_data s -> hist <> [] -> (forall p, In p hist -> wide (s_outputs s) (snd (fst p))) ->
  run_all batch_call s hist = (s', Ok tt) ->
  exists s2 HH HT, run_all batch_call (with_kind k s) hist = (s2, Ok tt) /\
    get_corr s' = Ok (Some (HH, HT)) /\ get_corr s2 = Ok (Some (HH, HT)) /\
    (forall i j, (i < getL s)%nat -> (j < getL s)%nat -> entry (nth i HH []) j = entry (nth j HH []) i).
Proof.
  intros s k hist s' Hf Hne HT HR.
  destruct (history_acc hist s (with_kind k s) s' []) as (s2 & ss & Q1 & Q2 & Q3 & Q4 & Q5 & Q6 & _); auto using no_data_acc.
  { repeat split. }
  destruct (Q6 Hne) as [N1 N2]. destruct Q4 as (_ & O4 & M4 & _ & L4). destruct Q5 as (_ & O5 & M5 & _ & L5).
  exists s2, (spec_HH (getL s) (s_norm s) ss), (spec_HT (getL s) (s_outputs s) ss).
  split; [exact Q1|].
  rewrite (get_corr_acc s' ss Q2 N1), (get_corr_acc s2 ss Q3 N2).
  assert (getL s' = getL s) as -> by (unfold getL; now rewrite <- L4).
  assert (getL s2 = getL s) as -> by (unfold getL; now rewrite <- L5).
  rewrite <- O4, <- M4, <- O5, <- M5. split; [reflexivity|]. split; [reflexivity|].
  intros i j Hi Hj. exact (spec_HH_sym (getL s) (s_norm s) ss i j Hi Hj).
Qed.

(** ** C07 *)
Theorem corr_roundtrip : forall s L HH HT, s_L s = Some L -> s_kind s <> Fast ->
  is_mat L L HH -> is_mat L (s_outputs s) HT ->
  (forall i j, (i < L)%nat -> (j < L)%nat -> entry (nth i HH []) j = entry (nth j HH []) i) ->
  exists s', set_corr s L L HH L (s_outputs s) HT = (s', Ok tt) /\ get_corr s' = Ok (Some (HH, HT)).
Proof.
  intros s L HH HT EL Hk H1 H2 Hs. unfold set_corr. rewrite EL, !Nat.eqb_refl. cbn [negb].
  eexists. split; [reflexivity|]. unfold get_corr. cbn [s_HH s_HT with_corr s_kind]. do 3 f_equal.
  unfold getL. cbn [s_L with_corr]. rewrite EL.
  assert (triu_sym L HH = HH) as E.
  { apply mat_ext with L L; auto; [apply is_mat_mk|]. intros i j Hi Hj. unfold triu_sym. rewrite mget_mk by auto.
    pose proof (Hs i j Hi Hj) as Hij. change (@mget NumR HH i j = @mget NumR HH j i) in Hij.
    destruct (Nat.leb_spec i j); destruct (Nat.ltb_spec j i); try lia; try rewrite Hij; rlra. }
  destruct (s_kind s); auto. congruence.
Qed.

(** the default solver: get_corr returns the symmetric completion of the stored
    upper triangle *)
Theorem corr_roundtrip_fast : forall s L HH HT, s_L s = Some L -> s_kind s = Fast ->
  is_mat L L HH -> is_mat L (s_outputs s) HT ->
  (forall i j, (i < L)%nat -> (j < i)%nat -> entry (nth i HH []) j = 0) ->
  exists s' HH', set_corr s L L HH L (s_outputs s) HT = (s', Ok tt) /\ get_corr s' = Ok (Some (HH', HT)) /\
    is_mat L L HH' /\
    forall i j, (i < L)%nat -> (j < L)%nat -> entry (nth i HH' []) j = entry (nth (Nat.min i j) HH []) (Nat.max i j).
Proof.
  intros s L HH HT EL Hk H1 H2 Hs. unfold set_corr. rewrite EL, !Nat.eqb_refl. cbn [negb].
  eexists _, (add_triu1_T L HH). split; [reflexivity|]. unfold get_corr. cbn [s_HH s_HT with_corr s_kind].
  unfold getL. cbn [s_L with_corr]. rewrite EL, Hk. split; [reflexivity|]. split; [apply is_mat_mk|].
  intros i j Hi Hj. change (entry (nth i (add_triu1_T L HH) []) j) with (@mget NumR (add_triu1_T L HH) i j).
  unfold add_triu1_T. rewrite mget_mk by auto.
  destruct (Nat.ltb_spec j i).
  - rewrite Nat.min_r, Nat.max_l by lia. pose proof (Hs i j Hi H) as E.
    change (entry (nth i HH []) j) with (@mget NumR HH i j) in E. rewrite E.
    change (entry (nth j HH []) i) with (@mget NumR HH j i). rlra.
  - rewrite Nat.min_l, Nat.max_r by lia. change (entry (nth i HH []) j) with (@mget NumR HH i j). rlra.
Qed.
End Incr.
