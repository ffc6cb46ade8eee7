(** * Weighted training in any arithmetic: every scaled sample is counted exactly once *)
From Coq Require Import Permutation.
From Verif Require Import Base Num Mat LinAlg Slfn Strs Elm MatFacts SplitProofs Spec ElmFacts AccProofs TrainThms SumOf.

Section WSums.
Context {K : Num}.

(** a target row with its only one in column k *)
Definition one_at (t : vec) (k : nat) : Prop := k < length t /\ forall j, j < length t -> neqb (nth j t n0) n1 = (j =? k).

(** the row multiplied by the square root of a weight *)
Definition times_root (w : num) (r : vec) : vec := map (fun a => nmul a (nsqrt w)) r.
(** hidden rows and targets, scaled by the weight of each target *)
Definition scaled_rows (g : vec -> num) (H T : mat) : mat := map (fun ht => times_root (g (snd ht)) (fst ht)) (combine H T).
Definition scaled_targets (g : vec -> num) (T : mat) : mat := map (fun t => times_root (g t) t) T.

Lemma where1_none : forall t j0, (forall j, j < length t -> neqb (nth j t n0) n1 = false) -> where1_row j0 t = [].
Proof.
  induction t as [|x t IH]; intros j0 H; [reflexivity|]. cbn [where1_row]. pose proof (H 0 ltac:(cbn; lia)) as H0. cbn [nth] in H0. rewrite H0.
  apply IH. intros j Hj. apply (H (S j)). cbn. lia.
Qed.
Lemma one_at_where1 : forall t k j0, one_at t k -> where1_row j0 t = [j0 + k].
Proof.
  induction t as [|x t IH]; intros k j0 [Hk Hj]; [cbn in Hk; lia|]. cbn [where1_row].
  pose proof (Hj 0 ltac:(cbn; lia)) as H0. cbn [nth] in H0. rewrite H0. destruct k as [|k]; cbn [Nat.eqb].
  - rewrite Nat.add_0_r. f_equal. apply where1_none. intros j Hl. apply (Hj (S j)). cbn. lia.
  - rewrite (IH k (S j0)); [f_equal; lia|]. split; [cbn in Hk; lia|]. intros j Hl. apply (Hj (S j)). cbn. lia.
Qed.

Definition weighs (wc : list xnum) (g : vec -> num) (t : vec) : Prop :=
  exists k, one_at t k /\ nth_error wc k = Some (Fin (g t)) /\ nltb (g t) n0 = false.

Lemma weighs_index : forall wc g T, (forall t, In t T -> weighs wc g t) -> wc_index wc (where1 T) = Ok (map (fun t => Fin (g t)) T).
Proof.
  intros wc g T. unfold wc_index, where1. induction T as [|t T IH]; intros H; [reflexivity|]. cbn [map concat].
  destruct (H t (or_introl eq_refl)) as (k & HO & HK & _). rewrite (one_at_where1 t k 0 HO). cbn [app mapM]. cbn [Nat.add]. rewrite HK. cbn [rbind].
  rewrite IH by (intros; apply H; right; assumption). reflexivity.
Qed.
Lemma weighs_roots : forall wc g T, (forall t, In t T -> weighs wc g t) -> mapM sqrt_weight (map (fun t => Fin (g t)) T) = Ok (map (fun t => nsqrt (g t)) T).
Proof.
  intros wc g T. induction T as [|t T IH]; intros H; [reflexivity|]. cbn [map mapM].
  destruct (H t (or_introl eq_refl)) as (k & _ & _ & HN). cbn [sqrt_weight]. rewrite HN. cbn [rbind].
  rewrite IH by (intros; apply H; right; assumption). reflexivity.
Qed.
Lemma scale_rows_eq : forall (g : vec -> num) T H, length H = length T ->
  scale_rows (map (fun t => nsqrt (g t)) T) H = Ok (scaled_rows g H T).
Proof.
  intros g T H HL. unfold scale_rows. rewrite map_length, HL, Nat.eqb_refl. f_equal. unfold scaled_rows. clear -HL. revert H HL.
  induction T as [|t T IH]; intros [|h H] HL; try discriminate; [reflexivity|]. cbn [map map2 combine]. f_equal. apply IH. cbn in HL. congruence.
Qed.
Lemma scaled_rows_self : forall (g : vec -> num) T, scaled_rows g T T = scaled_targets g T.
Proof. intros. unfold scaled_rows, scaled_targets. induction T as [|t T IH]; [reflexivity|]. cbn. f_equal. exact IH. Qed.
Lemma scaled_rows_length : forall (g : vec -> num) H T, length H = length T -> length (scaled_rows g H T) = length T.
Proof. intros. unfold scaled_rows. rewrite map_length, combine_length. lia. Qed.
Lemma scaled_wide : forall (g : vec -> num) c T, wide c T -> wide c (scaled_targets g T).
Proof.
  intros g c T H. unfold wide, scaled_targets in *. rewrite Forall_forall in *. intros x Hx. apply in_map_iff in Hx. destruct Hx as (t & <- & Ht).
  unfold times_root. rewrite map_length. exact (H t Ht).
Qed.

Lemma add_batch_wsums : forall {SG : Sing} s X T ht wc g, Sums s ht -> usable s -> wide (s_inputs s) X -> wide (s_outputs s) T ->
  length X = length T -> (forall t, In t T -> weighs wc g t) ->
  exists hh htm, add_batch s X T (Some (map (fun t => Fin (g t)) T)) = (with_corr s (Some hh) (Some htm), Ok tt) /\
    Sums (with_corr s (Some hh) (Some htm)) (ht ++ combine (scaled_rows g (map (hrow (s_neurons s)) X) T) (scaled_targets g T)).
Proof.
  intros SG s X T ht wc g HS HU WX WT HL HG. unfold add_batch. rewrite (project_ok s X HU WX). cbn [rbind].
  set (H0 := map (hrow (s_neurons s)) X). assert (length H0 = length T) as LH0 by (subst H0; rewrite map_length; exact HL).
  rewrite map_length, LH0, Nat.eqb_refl. cbn [orb]. rewrite (weighs_roots wc g T HG). cbn [rbind].
  rewrite (scale_rows_eq g T H0 LH0). cbn [rbind]. rewrite (scale_rows_eq g T T eq_refl). cbn [rbind]. rewrite scaled_rows_self.
  set (H := scaled_rows g H0 T). set (T' := scaled_targets g T).
  assert (length H = length T') as LH by (subst H T'; rewrite scaled_rows_length by exact LH0; unfold scaled_targets; rewrite map_length; reflexivity).
  rewrite <- LH, Nat.eqb_refl, (fit_wide _ T' (scaled_wide g _ _ WT)). eexists _, _. split; [reflexivity|].
  unfold Sums in HS |- *. cbn [s_HH s_HT with_corr]. change (getL (with_corr s _ _)) with (getL s). cbn [s_kind s_norm s_outputs with_corr].
  rewrite map_app, (map_fst_combine H T' LH).
  destruct (s_HH s) as [HH|]; destruct (s_HT s) as [HT|]; try contradiction.
  - destruct HS as (M1 & M2 & S1 & S2). destruct (add_HH_sums (s_kind s) (getL s) (s_norm s) HH H (map fst ht) M1 S1) as [M1' S1'].
    split; [exact M1'|]. split; [apply is_mat_madd; [exact M2|apply is_mat_tdot]|]. split; [exact S1'|].
    intros i k Hi Hk. rewrite mget_madd with (r := getL s) (c := s_outputs s); auto using is_mat_tdot. apply so_app; [apply S2; auto|apply tdot_HT; auto].
  - subst ht. cbn [map app].
    destruct (add_HH_sums (s_kind s) (getL s) (s_norm s) (scaled_eye (getL s) (s_norm s)) H []) as [M1' S1'].
    { apply is_mat_scaled_eye. }
    { intros i j Hi Hj. unfold scaled_eye. rewrite mget_mk by auto. unfold HH_index. cbn [map]. rewrite app_nil_r.
      destruct (Nat.eqb_spec i j) as [->|N].
      - rewrite Nat.leb_refl. cbn [orb]. exact (so_one (HH_term (s_norm s) j j) None).
      - destruct ((i <=? j)%nat || whole (s_kind s)); [apply so_nil|reflexivity]. }
    split; [exact M1'|]. split; [apply is_mat_madd; [apply is_mat_mk|apply is_mat_tdot]|]. split; [exact S1'|].
    intros i k Hi Hk. rewrite mget_madd with (r := getL s) (c := s_outputs s); auto using is_mat_tdot; [|apply is_mat_mk].
    unfold zero_mat. rewrite mget_mk by auto. apply so_zero_l. apply tdot_HT; auto.
Qed.

Lemma scaled_rows_app : forall (g : vec -> num) H H' T T', length H = length T ->
  scaled_rows g (H ++ H') (T ++ T') = scaled_rows g H T ++ scaled_rows g H' T'.
Proof. intros. unfold scaled_rows. rewrite combine_app by assumption. apply map_app. Qed.
Lemma scaled_both_app : forall (g : vec -> num) H H' T T', length H = length T ->
  combine (scaled_rows g (H ++ H') (T ++ T')) (scaled_targets g (T ++ T')) =
  combine (scaled_rows g H T) (scaled_targets g T) ++ combine (scaled_rows g H' T') (scaled_targets g T').
Proof.
  intros. rewrite scaled_rows_app by assumption. unfold scaled_targets. rewrite map_app. apply combine_app.
  rewrite scaled_rows_length by assumption. rewrite map_length. reflexivity.
Qed.

Lemma batches_wsums : forall {SG : Sing} e wc g parts s ht, is_wc e = true -> e_wc e = Some wc -> Sums s ht -> usable s ->
  (forall x t, In (x, t) parts -> length x = length t /\ wide (s_inputs s) x /\ wide (s_outputs s) t /\ forall r, In r t -> weighs wc g r) ->
  exists s', add_batches e s parts = (s', Ok tt) /\
    s' = with_corr s (s_HH s') (s_HT s') /\
    Sums s' (ht ++ combine (scaled_rows g (map (hrow (s_neurons s)) (concat (map fst parts))) (concat (map snd parts))) (scaled_targets g (concat (map snd parts)))) /\
    (parts <> [] -> s_HH s' <> None).
Proof.
  intros SG e wc g parts s ht Hw HW. revert s ht. induction parts as [|[x t] parts IH]; intros s ht HS HU HP; cbn [add_batches].
  - exists s. split; [reflexivity|]. split; [destruct s; reflexivity|]. cbn. rewrite app_nil_r. split; [exact HS|congruence].
  - destruct (HP x t (or_introl eq_refl)) as (HL & WX & WT & HG). rewrite Hw, HW, (weighs_index wc g t HG). cbn [rbind].
    destruct (add_batch_wsums s x t ht wc g HS HU WX WT HL HG) as (hh & htm & E & HS'). rewrite E.
    destruct (IH (with_corr s (Some hh) (Some htm)) _ HS' HU) as (s' & E2 & E3 & HS2 & HN).
    { intros x' t' Hin. apply (HP x' t'). right. exact Hin. }
    exists s'. split; [exact E2|]. split; [exact E3|]. cbn [map concat fst snd]. split.
    + rewrite map_app, scaled_both_app by (rewrite map_length; exact HL). rewrite app_assoc. exact HS2.
    + intros _. destruct parts as [|p parts]; [|apply HN; discriminate]. cbn in E2. injection E2 as <-. discriminate.
Qed.

(** the weights used by add_data on targets T: those given, or total / count of each class *)
Definition weights_for (e : elm) (T : mat) (wc : list xnum) : Prop :=
  match e_wc e with
  | Some w => wc = w
  | None => let sums := map (fun k => nsum (map (fun t => nth k t n0) T)) (seq 0 (s_outputs (e_net e))) in
            wc = map (fun s => np_div (nsum sums) s) sums
  end.

Lemma weights_fill : forall e T wc, is_wc e = true -> weights_for e T wc -> e_wc (fill_wc e T) = Some wc.
Proof.
  intros e T wc Hw H. unfold weights_for in H. unfold fill_wc. rewrite Hw. destruct (e_wc e) as [w|] eqn:E; [subst; exact E|]. subst wc. reflexivity.
Qed.

Lemma add_data_wsums : forall {SG : Sing} e X T ht wc g, Sums (e_net e) ht -> usable (e_net e) -> is_wc e = true -> (0 < e_batch e)%Z ->
  weights_for e T wc ->
  X <> [] -> length X = length T -> wide (s_inputs (e_net e)) X -> wide (s_outputs (e_net e)) T -> (forall t, In t T -> weighs wc g t) ->
  exists e', add_data e X T = (e', Ok tt) /\ e_net e' = with_corr (e_net e) (s_HH (e_net e')) (s_HT (e_net e')) /\
    e_batch e' = e_batch e /\ e_class e' = e_class e /\ e_wc e' = Some wc /\
    Sums (e_net e') (ht ++ combine (scaled_rows g (map (hrow (s_neurons (e_net e))) X) T) (scaled_targets g T)) /\ s_HH (e_net e') <> None.
Proof.
  intros SG e X T ht wc g HS HU Hw Hb HW HX HL WX WT HG.
  destruct (add_data_chunks_gen e X T Hb HX HL) as (parts & EX & ET & HP & _ & ER).
  destruct (batches_wsums (fill_wc e T) wc g parts (e_net e) ht) as (s' & E & Es & HS' & HN); try assumption.
  { rewrite fill_wc_is_wc. exact Hw. }
  { apply weights_fill; assumption. }
  { intros x t Hin. destruct (HP x t Hin) as (L1 & _). split; [exact L1|]. split; [|split].
    - apply (wide_concat _ (map fst parts)); [rewrite EX; exact WX|]. apply (in_map fst) in Hin. exact Hin.
    - apply (wide_concat _ (map snd parts)); [rewrite ET; exact WT|]. apply (in_map snd) in Hin. exact Hin.
    - intros r Hr. apply HG. rewrite <- ET. apply in_concat. exists t. split; [apply (in_map snd) in Hin; exact Hin|exact Hr]. }
  rewrite E in ER. rewrite EX, ET in HS'. exists (with_net (fill_wc e T) s'). split; [exact ER|]. cbn [e_net with_net].
  split; [exact Es|]. split; [|split; [|split; [|split; [exact HS'|]]]].
  - unfold fill_wc. rewrite Hw. destruct (e_wc e); reflexivity.
  - unfold fill_wc. rewrite Hw. destruct (e_wc e); reflexivity.
  - exact (weights_fill e T wc Hw HW).
  - apply HN. intros ->. cbn in EX. congruence.
Qed.

Lemma calls_wsums : forall {SG : Sing} ps e ht wc g, Sums (e_net e) ht -> usable (e_net e) -> is_wc e = true -> (0 < e_batch e)%Z ->
  match ps with [] => True | p :: _ => weights_for e (snd p) wc end ->
  (forall X T, In (X, T) ps -> X <> [] /\ length X = length T /\ wide (s_inputs (e_net e)) X /\ wide (s_outputs (e_net e)) T /\
     forall t, In t T -> weighs wc g t) ->
  exists e', run_all (fun e p => add_data e (fst p) (snd p)) e ps = (e', Ok tt) /\
    e_net e' = with_corr (e_net e) (s_HH (e_net e')) (s_HT (e_net e')) /\
    Sums (e_net e') (ht ++ combine (scaled_rows g (map (hrow (s_neurons (e_net e))) (rows_of ps)) (targets_of ps)) (scaled_targets g (targets_of ps))) /\
    (ps <> [] -> s_HH (e_net e') <> None).
Proof.
  intros SG. unfold rows_of, targets_of. induction ps as [|[X T] ps IH]; intros e ht wc g HS HU Hw Hb HW HP; cbn [run_all].
  - exists e. split; [reflexivity|]. split; [destruct (e_net e); reflexivity|]. cbn. rewrite app_nil_r. split; [exact HS|congruence].
  - destruct (HP X T (or_introl eq_refl)) as (HX & HL & WX & WT & HG). cbn [snd] in HW.
    destruct (add_data_wsums e X T ht wc g HS HU Hw Hb HW HX HL WX WT HG) as (e1 & E1 & N1 & B1 & C1 & V1 & S1 & Z1). cbn [fst snd]. rewrite E1.
    destruct (IH e1 _ wc g S1) as (e' & E2 & E3 & S2 & HN).
    { rewrite N1. exact HU. }
    { unfold is_wc in *. rewrite C1. exact Hw. }
    { rewrite B1. exact Hb. }
    { destruct ps as [|p ps]; [exact I|]. unfold weights_for. rewrite V1. reflexivity. }
    { intros X' T' Hin. rewrite N1. cbn [s_inputs s_outputs with_corr]. apply (HP X' T'). right. exact Hin. }
    exists e'. split; [exact E2|]. split.
    { rewrite E3, N1. reflexivity. }
    cbn [map concat fst snd]. split.
    + rewrite map_app, scaled_both_app by (rewrite map_length; exact HL). rewrite app_assoc. rewrite N1 in S2. exact S2.
    + intros _. destruct ps as [|p ps]; [|apply HN; discriminate]. cbn in E2. injection E2 as <-. exact Z1.
Qed.

Lemma rows_targets : forall (ps : list (mat * mat)), (forall X T, In (X, T) ps -> length X = length T) -> length (rows_of ps) = length (targets_of ps).
Proof.
  unfold rows_of, targets_of. induction ps as [|[X T] ps IH]; intros HP; [reflexivity|]. cbn [map concat fst snd].
  rewrite !app_length. f_equal; [exact (HP X T (or_introl eq_refl))|]. apply IH. intros X' T' Hin. apply (HP X' T'). right. exact Hin.
Qed.

Theorem weighted_sums : forall {SG : Sing} e ps H wc (g : vec -> num), no_data (e_net e) -> is_wc e = true -> (0 < e_batch e)%Z -> ps <> [] ->
  (forall X T, In (X, T) ps -> X <> [] /\ length X = length T /\ wide (s_outputs (e_net e)) T) ->
  weights_for e (snd (hd ([], []) ps)) wc -> (forall t, In t (targets_of ps) -> weighs wc g t) ->
  elm_project e (Arr2 (s_inputs (e_net e)) (rows_of ps)) = Ok H ->
  let wH := scaled_rows g H (targets_of ps) in let wT := scaled_targets g (targets_of ps) in
  exists e' HH HT, run_all (fun e p => add_data e (fst p) (snd p)) e ps = (e', Ok tt) /\
    get_corr (e_net e') = Ok (Some (HH, HT)) /\
    is_mat (getL (e_net e)) (getL (e_net e)) HH /\ is_mat (getL (e_net e)) (s_outputs (e_net e)) HT /\
    length H = length (targets_of ps) /\
    (forall i j, i < getL (e_net e) -> j < getL (e_net e) ->
       sum_of (HH_term (s_norm (e_net e)) i j) (HH_index i j wH) (mget HH i j) \/
       sum_of (HH_term (s_norm (e_net e)) j i) (HH_index i j wH) (mget HH i j)) /\
    (forall i k, i < getL (e_net e) -> k < s_outputs (e_net e) -> sum_of (HT_term i k) (combine wH wT) (mget HT i k)).
Proof.
  intros SG e ps H wc g Hf Hw Hb HN HP HW HG EH wH wT. subst wH wT. unfold elm_project, check_arr in EH. rewrite Nat.eqb_refl in EH. cbn [rbind] in EH.
  apply project_inv in EH. destruct EH as (HU & WX & ->).
  destruct (calls_wsums ps e [] wc g (no_data_sums _ Hf) HU Hw Hb) as (e' & E & EN & HS & HZ).
  { destruct ps as [|p ps]; [exact I|exact HW]. }
  { intros X T Hin. destruct (HP X T Hin) as (A & B & C). split; [exact A|]. split; [exact B|]. split; [|split; [exact C|]].
    - apply (wide_concat _ (map fst ps)); [exact WX|]. apply (in_map fst) in Hin. exact Hin.
    - intros t Ht. apply HG. unfold targets_of. apply in_concat. exists T. split; [apply (in_map snd) in Hin; exact Hin|exact Ht]. }
  cbn [app] in HS. assert (length (map (hrow (s_neurons (e_net e))) (rows_of ps)) = length (targets_of ps)) as LL.
  { rewrite map_length. apply rows_targets. intros X T Hin. apply (HP X T Hin). }
  destruct (get_corr_sums _ _ HS (HZ HN)) as (HH & HT & G & M1 & M2 & S1 & S2).
  rewrite map_fst_combine in S1 by (rewrite scaled_rows_length by exact LL; unfold scaled_targets; rewrite map_length; reflexivity).
  rewrite EN in M1, M2, S1, S2.
  exists e', HH, HT. split; [exact E|]. split; [exact G|]. split; [exact M1|]. split; [exact M2|]. split; [exact LL|]. split; [exact S1|exact S2].
Qed.
End WSums.
