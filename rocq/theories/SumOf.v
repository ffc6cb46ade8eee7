(** * What the accumulated matrices are sums of, in any arithmetic

    No algebraic law is assumed about [Num] here: [sum_of f l x] says that [x]
    is the result of adding the numbers [f i], for [i] in [l], in some order and
    with some bracketing (and possibly adding zeros).  The matrices kept by
    add_data are such sums of products, one product per sample. *)
From Coq Require Import Permutation.
From Verif Require Import Base Num Mat LinAlg Slfn Strs Elm MatFacts SplitProofs Spec ElmFacts AccProofs TrainThms.

Section SumOf.
Context {K : Num}.

Inductive sum_of {I : Type} (f : I -> num) : list I -> num -> Prop :=
| so_nil : sum_of f [] n0
| so_one : forall i, sum_of f [i] (f i)
| so_add : forall l1 l2 l a b, sum_of f l1 a -> sum_of f l2 b -> Permutation l (l1 ++ l2) -> sum_of f l (nadd a b).

Lemma so_app : forall {I} (f : I -> num) l1 l2 a b, sum_of f l1 a -> sum_of f l2 b -> sum_of f (l1 ++ l2) (nadd a b).
Proof. intros. eapply so_add; eauto. Qed.
Lemma so_zero_r : forall {I} (f : I -> num) l a, sum_of f l a -> sum_of f l (nadd a n0).
Proof. intros I f l a H. eapply so_add; [exact H|apply so_nil|]. rewrite app_nil_r. reflexivity. Qed.
Lemma so_zero_l : forall {I} (f : I -> num) l a, sum_of f l a -> sum_of f l (nadd n0 a).
Proof. intros I f l a H. eapply so_add; [apply so_nil|exact H|reflexivity]. Qed.
Lemma so_nsum : forall {I} (f : I -> num) l, sum_of f l (nsum (map f l)).
Proof.
  induction l as [|i l IH]; [apply so_nil|]. cbn. change (i :: l) with ([i] ++ l). apply so_app; [apply so_one|exact IH].
Qed.
Lemma so_perm : forall {I} (f : I -> num) l l' a, l <> [] -> sum_of f l a -> Permutation l l' -> sum_of f l' a.
Proof.
  intros I f l l' a Hl H HP. destruct H as [|i|l1 l2 l a b H1 H2 HP'].
  - congruence.
  - apply Permutation_length_1_inv in HP. subst. apply so_one.
  - eapply so_add; eauto. rewrite <- HP, HP'. reflexivity.
Qed.

(** ** The products *)
(** HH[i, j]: norm on the diagonal, and h[i] * h[j] for every row h *)
Definition HH_term (norm : num) (i j : nat) (o : option vec) : num :=
  match o with None => norm | Some h => nmul (vget h i) (vget h j) end.
Definition HH_index (i j : nat) (H : mat) : list (option vec) :=
  (if (i =? j)%nat then [None] else []) ++ map Some H.
(** HT[i, k]: h[i] * t[k] for every sample (h, t) *)
Definition HT_term (i k : nat) (ht : vec * vec) : num := nmul (vget (fst ht) i) (vget (snd ht) k).

Definition whole (k : skind) : bool := match k with Basic | Gpu64 => true | Fast | Gpu32 => false end.

Definition Sums (s : slfn) (ht : list (vec * vec)) : Prop :=
  match s_HH s, s_HT s with
  | None, None => ht = []
  | Some HH, Some HT =>
    is_mat (getL s) (getL s) HH /\ is_mat (getL s) (s_outputs s) HT /\
    (forall i j, i < getL s -> j < getL s ->
       if (i <=? j)%nat || whole (s_kind s) then sum_of (HH_term (s_norm s) i j) (HH_index i j (map fst ht)) (mget HH i j)
       else mget HH i j = n0) /\
    (forall i k, i < getL s -> k < s_outputs s -> sum_of (HT_term i k) ht (mget HT i k))
  | _, _ => False
  end.

Lemma map2_same : forall {A B} (f : A -> A -> B) l, map2 f l l = map (fun a => f a a) l.
Proof. induction l; cbn; auto. now rewrite IHl. Qed.

Lemma tdot_HH : forall norm L H i j, i < L -> j < L -> sum_of (HH_term norm i j) (map Some H) (mget (tdot L L H H) i j).
Proof.
  intros norm L H i j Hi Hj. unfold tdot. rewrite mget_mk by auto. rewrite map2_same.
  replace (map (fun a => nmul (vget a i) (vget a j)) H) with (map (HH_term norm i j) (map Some H)) by (rewrite map_map; reflexivity).
  apply so_nsum.
Qed.
Lemma tdot_HT : forall L c H T i k, i < L -> k < c -> sum_of (HT_term i k) (combine H T) (mget (tdot L c H T) i k).
Proof.
  intros L c H T i k Hi Hk. unfold tdot. rewrite mget_mk by auto. rewrite map2_combine. apply so_nsum.
Qed.

Lemma HH_index_app : forall i j A B, HH_index i j (A ++ B) = HH_index i j A ++ map Some B.
Proof. intros. unfold HH_index. now rewrite map_app, app_assoc. Qed.

Lemma map_fst_combine : forall {A B} (l : list A) (m : list B), length l = length m -> map fst (combine l m) = l.
Proof. induction l; intros [|b m] H; cbn in *; try discriminate; auto. f_equal; auto. Qed.

Lemma add_HH_sums : forall k L norm HH H R,
  is_mat L L HH ->
  (forall i j, i < L -> j < L ->
     if (i <=? j)%nat || whole k then sum_of (HH_term norm i j) (HH_index i j R) (mget HH i j) else mget HH i j = n0) ->
  is_mat L L (add_HH k L HH H) /\
  (forall i j, i < L -> j < L ->
     if (i <=? j)%nat || whole k then sum_of (HH_term norm i j) (HH_index i j (R ++ H)) (mget (add_HH k L HH H) i j)
     else mget (add_HH k L HH H) i j = n0).
Proof.
  intros k L norm HH H R HM HS. pose proof (is_mat_tdot L L H H) as HG.
  assert (forall i j, i < L -> j < L -> whole k = true -> add_HH k L HH H = madd HH (tdot L L H H)) as EW by (intros; destruct k; try discriminate; reflexivity).
  split.
  - unfold add_HH. destruct k; try apply is_mat_mk; apply is_mat_madd; auto.
  - intros i j Hi Hj. specialize (HS i j Hi Hj). rewrite HH_index_app.
    destruct (whole k) eqn:Ek.
    + rewrite orb_true_r in *. rewrite (EW i j) by auto. rewrite mget_madd with (r := L) (c := L) by auto.
      apply so_app; [exact HS|]. apply tdot_HH; auto.
    + rewrite orb_false_r in *. assert (mget (add_HH k L HH H) i j = if (i <=? j)%nat then nadd (mget HH i j) (mget (tdot L L H H) i j) else mget HH i j) as ->
        by (unfold add_HH; destruct k; try discriminate; rewrite mget_mk by auto; reflexivity).
      destruct (i <=? j)%nat; [|exact HS]. apply so_app; [exact HS|]. apply tdot_HH; auto.
Qed.

Lemma fit_wide : forall c T, wide c T -> mapM (fit_cols c) T = Ok T.
Proof.
  intros c T H. rewrite (mapM_ok_map _ (fun r => r)); [now rewrite map_id|].
  intros x Hx. unfold wide in H. rewrite Forall_forall in H. unfold fit_cols. now rewrite (H x Hx), Nat.eqb_refl.
Qed.

Lemma add_batch_sums : forall {SG : Sing} s X T ht, Sums s ht -> usable s -> wide (s_inputs s) X -> wide (s_outputs s) T ->
  length X = length T ->
  exists hh htm, add_batch s X T None = (with_corr s (Some hh) (Some htm), Ok tt) /\
    Sums (with_corr s (Some hh) (Some htm)) (ht ++ combine (map (hrow (s_neurons s)) X) T).
Proof.
  intros SG s X T ht HS HU WX WT HL. unfold add_batch. rewrite (project_ok s X HU WX). cbn [rbind].
  set (H := map (hrow (s_neurons s)) X). assert (length H = length T) as LH by (subst H; rewrite map_length; exact HL).
  rewrite <- LH, Nat.eqb_refl, (fit_wide _ _ WT). eexists _, _. split; [reflexivity|].
  unfold Sums in HS |- *. cbn [s_HH s_HT with_corr]. change (getL (with_corr s _ _)) with (getL s). cbn [s_kind s_norm s_outputs with_corr].
  rewrite map_app, (map_fst_combine H T LH).
  destruct (s_HH s) as [HH|]; destruct (s_HT s) as [HT|]; try contradiction.
  - destruct HS as (M1 & M2 & S1 & S2). destruct (add_HH_sums (s_kind s) (getL s) (s_norm s) HH H (map fst ht) M1 S1) as [M1' S1'].
    split; [exact M1'|]. split; [apply is_mat_madd; [exact M2|apply is_mat_tdot]|]. split; [exact S1'|].
    intros i k Hi Hk. rewrite mget_madd with (r := getL s) (c := s_outputs s); auto using is_mat_tdot. apply so_app; [apply S2; auto|apply tdot_HT; auto].
  - subst ht. cbn [map app].
    destruct (add_HH_sums (s_kind s) (getL s) (s_norm s) (scaled_eye (getL s) (s_norm s)) H []) as [M1' S1'].
    { apply is_mat_scaled_eye. }
    { intros i j Hi Hj. unfold scaled_eye. rewrite mget_mk by auto. unfold HH_index. cbn [map]. rewrite app_nil_r.
      destruct (Nat.eqb_spec i j) as [->|N].
      - rewrite Nat.leb_refl. cbn [orb]. exact (so_one (HH_term (s_norm s) j j) None).
      - destruct ((i <=? j)%nat || whole (s_kind s)); [apply so_nil|reflexivity]. }
    split; [exact M1'|]. split; [apply is_mat_madd; [apply is_mat_mk|apply is_mat_tdot]|]. split; [exact S1'|].
    intros i k Hi Hk. rewrite mget_madd with (r := getL s) (c := s_outputs s); auto using is_mat_tdot; [|apply is_mat_mk].
    unfold zero_mat. rewrite mget_mk by auto. apply so_zero_l. apply tdot_HT; auto.
Qed.

Lemma combine_app : forall {A B} (a a' : list A) (b b' : list B), length a = length b -> combine (a ++ a') (b ++ b') = combine a b ++ combine a' b'.
Proof. induction a; intros a' [|y b] b' H; cbn in *; try discriminate; auto. f_equal. apply IHa. congruence. Qed.

Lemma run_sums : forall {SG : Sing} parts s ht, Sums s ht -> usable s ->
  (forall x t, In (x, t) parts -> length x = length t /\ wide (s_inputs s) x /\ wide (s_outputs s) t) ->
  exists s', run_all (fun s p => add_batch s (fst p) (snd p) None) s parts = (s', Ok tt) /\
    s' = with_corr s (s_HH s') (s_HT s') /\
    Sums s' (ht ++ combine (map (hrow (s_neurons s)) (concat (map fst parts))) (concat (map snd parts))) /\
    (parts <> [] -> s_HH s' <> None).
Proof.
  intros SG. induction parts as [|[x t] parts IH]; intros s ht HS HU HP; cbn [run_all].
  - exists s. split; [reflexivity|]. split; [destruct s; reflexivity|]. cbn. rewrite app_nil_r. split; [exact HS|congruence].
  - destruct (HP x t (or_introl eq_refl)) as (HL & WX & WT).
    destruct (add_batch_sums s x t ht HS HU WX WT HL) as (hh & htm & E & HS'). cbn [fst snd]. rewrite E.
    destruct (IH (with_corr s (Some hh) (Some htm)) _ HS' HU) as (s' & E2 & E3 & HS2 & HN).
    { intros x' t' Hin. apply (HP x' t'). right. exact Hin. }
    exists s'. split; [exact E2|]. split; [exact E3|]. cbn [map concat fst snd]. split.
    + rewrite map_app, combine_app by (rewrite map_length; exact HL). rewrite app_assoc. exact HS2.
    + intros _. destruct parts as [|p parts]; [|apply HN; discriminate]. cbn in E2. injection E2 as <-. discriminate.
Qed.

Lemma no_data_sums : forall s, no_data s -> Sums s [].
Proof. intros s [H1 H2]. unfold Sums. rewrite H1, H2. reflexivity. Qed.

Lemma wide_concat : forall c (ls : list mat) l, wide c (concat ls) -> In l ls -> wide c l.
Proof.
  intros c ls l H Hin. unfold wide in *. rewrite Forall_forall in *. intros x Hx. apply H. apply in_concat. eauto.
Qed.

Lemma add_data_sums : forall {SG : Sing} e X T ht, Sums (e_net e) ht -> usable (e_net e) -> is_wc e = false -> (0 < e_batch e)%Z ->
  X <> [] -> length X = length T -> wide (s_inputs (e_net e)) X -> wide (s_outputs (e_net e)) T ->
  exists e', add_data e X T = (e', Ok tt) /\ e_net e' = with_corr (e_net e) (s_HH (e_net e')) (s_HT (e_net e')) /\
    e_batch e' = e_batch e /\ e_class e' = e_class e /\
    Sums (e_net e') (ht ++ combine (map (hrow (s_neurons (e_net e))) X) T) /\ s_HH (e_net e') <> None.
Proof.
  intros SG e X T ht HS HU Hw Hb HX HL WX WT.
  destruct (add_data_chunks e X T Hw Hb HX HL) as (parts & EX & ET & HP & _ & ER).
  destruct (run_sums parts (e_net e) ht HS HU) as (s' & E & Es & HS' & HN).
  { intros x t Hin. destruct (HP x t Hin) as (L1 & _). split; [exact L1|]. split.
    - apply (wide_concat _ (map fst parts)); [rewrite EX; exact WX|]. apply (in_map fst) in Hin. exact Hin.
    - apply (wide_concat _ (map snd parts)); [rewrite ET; exact WT|]. apply (in_map snd) in Hin. exact Hin. }
  rewrite EX, ET in HS'. rewrite E in ER. injection ER as EN EO.
  exists (fst (add_data e X T)). split; [rewrite <- EO; apply surjective_pairing|]. rewrite EN. split; [exact Es|].
  split; [|split; [|split; [exact HS'|]]].
  - unfold add_data, fill_wc. rewrite Hw. destruct (nbatches _ _); [|reflexivity]. destruct (_ <=? 0)%Z; [reflexivity|].
    destruct (array_split X _); [|reflexivity]. destruct (array_split T _); [|reflexivity]. destruct (add_batches _ _ _). reflexivity.
  - unfold add_data, fill_wc. rewrite Hw. destruct (nbatches _ _); [|reflexivity]. destruct (_ <=? 0)%Z; [reflexivity|].
    destruct (array_split X _); [|reflexivity]. destruct (array_split T _); [|reflexivity]. destruct (add_batches _ _ _). reflexivity.
  - apply HN. intros ->. cbn in EX. congruence.
Qed.

(** what get_corr reports *)
Lemma get_corr_sums : forall s ht, Sums s ht -> s_HH s <> None ->
  exists HH HT, get_corr s = Ok (Some (HH, HT)) /\ is_mat (getL s) (getL s) HH /\ is_mat (getL s) (s_outputs s) HT /\
    (forall i j, i < getL s -> j < getL s ->
       sum_of (HH_term (s_norm s) i j) (HH_index i j (map fst ht)) (mget HH i j) \/
       sum_of (HH_term (s_norm s) j i) (HH_index i j (map fst ht)) (mget HH i j)) /\
    (forall i k, i < getL s -> k < s_outputs s -> sum_of (HT_term i k) ht (mget HT i k)).
Proof.
  intros s ht HS HN. unfold Sums in HS. unfold get_corr. destruct (s_HH s) as [HH|]; [|congruence].
  destruct (s_HT s) as [HT|]; [|contradiction]. destruct HS as (M1 & M2 & S1 & S2).
  eexists _, _. split; [reflexivity|].
  assert (forall i j, HH_index j i (map fst ht) = HH_index i j (map fst ht)) as EI by (intros; unfold HH_index; rewrite Nat.eqb_sym; reflexivity).
  assert (forall i j, i < getL s -> j < getL s -> (i <=? j)%nat = true -> sum_of (HH_term (s_norm s) i j) (HH_index i j (map fst ht)) (mget HH i j)) as UP.
  { intros i j Hi Hj L. specialize (S1 i j Hi Hj). rewrite L in S1. exact S1. }
  split; [destruct (s_kind s); try apply is_mat_mk; exact M1|]. split; [exact M2|]. split; [|exact S2].
  intros i j Hi Hj. destruct (i <=? j)%nat eqn:L.
  - left. pose proof (UP i j Hi Hj L) as U. assert ((j <? i)%nat = false) as L2 by (apply Nat.ltb_ge, Nat.leb_le; exact L).
    destruct (s_kind s); [exact U| | |]; unfold add_triu1_T, triu_sym; rewrite mget_mk by auto; rewrite ?L, L2; apply so_zero_r; exact U.
  - apply Nat.leb_gt in L. assert ((j <? i)%nat = true) as L2 by (apply Nat.ltb_lt; lia). assert ((i <=? j)%nat = false) as L1 by (apply Nat.leb_gt; lia).
    pose proof (UP j i Hj Hi ltac:(apply Nat.leb_le; lia)) as U. rewrite EI in U.
    specialize (S1 i j Hi Hj). rewrite L1 in S1. cbn [orb] in S1.
    destruct (s_kind s); cbn [whole] in S1.
    + left. exact S1.
    + right. unfold add_triu1_T. rewrite mget_mk by auto. rewrite L2, S1. apply so_zero_l. exact U.
    + right. unfold triu_sym. rewrite mget_mk by auto. rewrite L1, L2. apply so_zero_l. exact U.
    + right. unfold triu_sym. rewrite mget_mk by auto. rewrite L1, L2. apply so_zero_l. exact U.
Qed.

(** ** Any number of calls of add_data *)
Definition rows_of (ps : list (mat * mat)) : mat := concat (map fst ps).
Definition targets_of (ps : list (mat * mat)) : mat := concat (map snd ps).

Lemma calls_sums : forall {SG : Sing} ps e ht, Sums (e_net e) ht -> usable (e_net e) -> is_wc e = false -> (0 < e_batch e)%Z ->
  (forall X T, In (X, T) ps -> X <> [] /\ length X = length T /\ wide (s_inputs (e_net e)) X /\ wide (s_outputs (e_net e)) T) ->
  exists e', run_all (fun e p => add_data e (fst p) (snd p)) e ps = (e', Ok tt) /\
    e_net e' = with_corr (e_net e) (s_HH (e_net e')) (s_HT (e_net e')) /\
    Sums (e_net e') (ht ++ combine (map (hrow (s_neurons (e_net e))) (rows_of ps)) (targets_of ps)) /\
    (ps <> [] -> s_HH (e_net e') <> None).
Proof.
  intros SG. unfold rows_of, targets_of. induction ps as [|[X T] ps IH]; intros e ht HS HU Hw Hb HP; cbn [run_all].
  - exists e. split; [reflexivity|]. split; [destruct (e_net e); reflexivity|]. cbn. rewrite app_nil_r. split; [exact HS|congruence].
  - destruct (HP X T (or_introl eq_refl)) as (HX & HL & WX & WT).
    destruct (add_data_sums e X T ht HS HU Hw Hb HX HL WX WT) as (e1 & E1 & N1 & B1 & C1 & S1 & Z1). cbn [fst snd]. rewrite E1.
    destruct (IH e1 _ S1) as (e' & E2 & E3 & S2 & HN).
    { rewrite N1. exact HU. }
    { unfold is_wc in *. rewrite C1. exact Hw. }
    { rewrite B1. exact Hb. }
    { intros X' T' Hin. rewrite N1. cbn [s_inputs s_outputs with_corr]. apply (HP X' T'). right. exact Hin. }
    exists e'. split; [exact E2|]. split.
    { rewrite E3, N1. reflexivity. }
    cbn [map concat fst snd]. split.
    + rewrite map_app, combine_app by (rewrite map_length; exact HL). rewrite app_assoc. rewrite N1 in S2. exact S2.
    + intros _. destruct ps as [|p ps]; [|apply HN; discriminate]. cbn in E2. injection E2 as <-. exact Z1.
Qed.

Theorem trained_sums : forall {SG : Sing} e ps H, no_data (e_net e) -> is_wc e = false -> (0 < e_batch e)%Z -> ps <> [] ->
  (forall X T, In (X, T) ps -> X <> [] /\ length X = length T /\ wide (s_outputs (e_net e)) T) ->
  elm_project e (Arr2 (s_inputs (e_net e)) (rows_of ps)) = Ok H ->
  exists e' HH HT, run_all (fun e p => add_data e (fst p) (snd p)) e ps = (e', Ok tt) /\
    get_corr (e_net e') = Ok (Some (HH, HT)) /\
    is_mat (getL (e_net e)) (getL (e_net e)) HH /\ is_mat (getL (e_net e)) (s_outputs (e_net e)) HT /\
    (forall i j, i < getL (e_net e) -> j < getL (e_net e) ->
       sum_of (HH_term (s_norm (e_net e)) i j) (HH_index i j H) (mget HH i j) \/
       sum_of (HH_term (s_norm (e_net e)) j i) (HH_index i j H) (mget HH i j)) /\
    (forall i k, i < getL (e_net e) -> k < s_outputs (e_net e) -> sum_of (HT_term i k) (combine H (targets_of ps)) (mget HT i k)).
Proof.
  intros SG e ps H Hf Hw Hb HN HP EH. unfold elm_project, check_arr in EH. rewrite Nat.eqb_refl in EH. cbn [rbind] in EH.
  apply project_inv in EH. destruct EH as (HU & WX & ->).
  destruct (calls_sums ps e [] (no_data_sums _ Hf) HU Hw Hb) as (e' & E & EN & HS & HZ).
  { intros X T Hin. destruct (HP X T Hin) as (A & B & C). split; [exact A|]. split; [exact B|]. split; [|exact C].
    apply (wide_concat _ (map fst ps)); [exact WX|]. apply (in_map fst) in Hin. exact Hin. }
  cbn [app] in HS. assert (length (map (hrow (s_neurons (e_net e))) (rows_of ps)) = length (targets_of ps)) as LL.
  { rewrite map_length. unfold rows_of, targets_of. clear - HP. induction ps as [|[X T] ps IH]; [reflexivity|]. cbn [map concat fst snd].
    rewrite !app_length. f_equal; [destruct (HP X T (or_introl eq_refl)) as (_ & L & _); exact L|]. apply IH. intros X' T' Hin. apply (HP X' T'). right. exact Hin. }
  destruct (get_corr_sums _ _ HS (HZ HN)) as (HH & HT & G & M1 & M2 & S1 & S2).
  rewrite (map_fst_combine _ _ LL) in S1. rewrite EN in M1, M2, S1, S2.
  exists e', HH, HT. split; [exact E|]. split; [exact G|]. split; [exact M1|]. split; [exact M2|]. split; [exact S1|exact S2].
Qed.
End SumOf.
