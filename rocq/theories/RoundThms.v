(** * Rounding errors of training, prediction and error(), in terms of samples *)
From Coq Require Import ZArith Reals Lra Permutation Floats.SpecFloat.
From Verif Require Import Base Num Mat LinAlg Slfn Strs Elm Hpelm MatFacts SplitProofs ElmFacts TrainThms RangeThms ErrThms SumOf Float Rounding Spec.
Local Open Scope R_scope.

Section Thms.
Context {K : Num} (RD : rounded K).
Notation val := (r_val K RD).
Notation fin := (r_fin K RD).
Notation rep := (r_rep K RD).
Notation u := (r_u K RD).
Notation eta := (r_eta K RD).
Notation bnd := (bnd RD).
Notation vals := (vals RD).
Notation mags := (mags RD).

(** ** The accumulated matrices *)
Lemma nth_spec : forall (r c : nat) (f : nat -> nat -> R) i j, (i < r)%nat -> (j < c)%nat ->
  entry (nth i (map (fun i => map (f i) (seq 0 c)) (seq 0 r)) []) j = f i j.
Proof.
  intros r c f i j Hi Hj. unfold entry. rewrite (nth_map_lt _ (seq 0 r) i 0%nat []) by (rewrite seq_length; exact Hi).
  rewrite (nth_map_lt _ (seq 0 c) j 0%nat 0) by (rewrite seq_length; exact Hj). rewrite !seq_nth_lt by assumption. reflexivity.
Qed.

Lemma plain_HH : forall (f : num -> R) H T i j, (forall h i, entry (map f h) i = f (vget h i)) -> length H = length T ->
  map (fun s => sm_w s * entry (sm_h s) i * entry (sm_h s) j) (Spec.plain (map (map f) H) (map (map f) T)) =
  map (fun h => f (vget h i) * f (vget h j)) H.
Proof.
  intros f H T i j Hf. revert T. induction H as [|h H IH]; intros [|t T] HL; try discriminate; [reflexivity|].
  unfold Spec.plain in *. cbn [map map2]. cbn [combine map]. f_equal; [unfold sm_w, sm_h, sm_t; cbn [fst snd]; rewrite !Hf; ring|]. apply IH. cbn in HL. congruence.
Qed.
Lemma plain_HT : forall (f : num -> R) H T i k, (forall h i, entry (map f h) i = f (vget h i)) -> length H = length T ->
  map (fun s => sm_w s * entry (sm_h s) i * entry (sm_t s) k) (Spec.plain (map (map f) H) (map (map f) T)) =
  map (fun p => f (vget (fst p) i) * f (vget (snd p) k)) (combine H T).
Proof.
  intros f H T i j Hf. revert T. induction H as [|h H IH]; intros [|t T] HL; try discriminate; [reflexivity|].
  unfold Spec.plain in *. cbn [map map2]. cbn [combine map]. f_equal; [unfold sm_w, sm_h, sm_t; cbn [fst snd]; rewrite !Hf; ring|]. apply IH. cbn in HL. congruence.
Qed.

Lemma Rsum_ones : forall {I} (l : list I), Rsum (map (fun _ => 1) l) = INR (length l).
Proof. induction l as [|a l IH]; [reflexivity|]. cbn [map length]. change (Rsum (1 :: ?r)) with (1 + Rsum r). rewrite IH, S_INR. lra. Qed.

Lemma HH_bound : forall norm i j H T x L, (i < L)%nat -> (j < L)%nat -> length H = length T ->
  sum_of (HH_term norm i j) (HH_index i j H) x -> fin x ->
  Rabs (val x - entry (nth i (spec_HH L (val norm) (Spec.plain (vals H) (vals T))) []) j) <=
    bnd (length H + 1) (entry (nth i (spec_HH L (Rabs (val norm)) (Spec.plain (mags H) (mags T))) []) j) (2 * INR (length H)).
Proof.
  intros norm i j H T x L Hi Hj HL HS HF. unfold spec_HH. rewrite !nth_spec by assumption.
  unfold vals, mags, Rounding.vals, Rounding.mags.
  rewrite (plain_HH val H T i j (entry_vals RD) HL), (plain_HH (fun x => Rabs (val x)) H T i j (entry_mags RD) HL).
  pose (s := fun o : option vec => match o with None => val norm | Some h => val (vget h i) * val (vget h j) end).
  pose (A := fun o : option vec => match o with None => Rabs (val norm) | Some h => Rabs (val (vget h i)) * Rabs (val (vget h j)) end).
  pose (m := fun o : option vec => match o with None => 0 | Some _ => 1 end).
  destruct (sum_of_bound RD (HH_term norm i j) s A m 1 (HH_index i j H) x) as [_ B]; [| |exact HS|exact HF|].
  { intros [h|] _; unfold s, A, m; split; try lra. rewrite Rabs_mult. lra. }
  { intros [h|] _ HF'; unfold s, A, m, HH_term in *; [apply mul_bound; exact HF'|].
    rewrite Rminus_eq_0, Rabs_R0. apply bnd_pos; [apply Rabs_pos|lra]. }
  assert (forall g : option vec -> R, Rsum (map g (HH_index i j H)) = (if (i =? j)%nat then g None else 0) + Rsum (map (fun h => g (Some h)) H)) as ES.
  { intros g. unfold HH_index. rewrite map_app, Rounding.Rsum_app, map_map. destruct (i =? j)%nat; cbn; lra. }
  rewrite !ES in B. unfold s, A, m in B.
  apply Rle_trans with (1 := B). apply bnd_mono.
  - unfold HH_index. rewrite app_length, map_length. destruct (i =? j)%nat; cbn; lia.
  - assert (0 <= Rsum (map (fun h => Rabs (val (vget h i)) * Rabs (val (vget h j))) H)).
    { apply Rsum_nonneg. intros h _. apply Rmult_le_pos; apply Rabs_pos. }
    pose proof (Rabs_pos (val norm)). destruct (i =? j)%nat; lra.
  - rewrite Rsum_ones. pose proof (pos_INR (length H)). pose proof (pos_INR (pred (length (HH_index i j H)))).
    assert (INR (pred (length (HH_index i j H))) <= INR (length H)).
    { apply le_INR. unfold HH_index. rewrite app_length, map_length. destruct (i =? j)%nat; cbn; lia. }
    destruct (i =? j)%nat; lra.
Qed.

Lemma HH_swap : forall norm L (ss : list sample) i j, (i < L)%nat -> (j < L)%nat ->
  entry (nth j (spec_HH L norm ss) []) i = entry (nth i (spec_HH L norm ss) []) j.
Proof.
  intros norm L ss i j Hi Hj. unfold spec_HH. rewrite !nth_spec by assumption. rewrite (Nat.eqb_sym j i). f_equal.
  f_equal. apply map_ext. intros p. ring.
Qed.

Lemma HT_bound : forall i k H T x L c, (i < L)%nat -> (k < c)%nat -> length H = length T ->
  sum_of (HT_term i k) (combine H T) x -> fin x ->
  Rabs (val x - entry (nth i (spec_HT L c (Spec.plain (vals H) (vals T))) []) k) <=
    bnd (length H + 1) (entry (nth i (spec_HT L c (Spec.plain (mags H) (mags T))) []) k) (2 * INR (length H)).
Proof.
  intros i k H T x L c Hi Hk HL HS HF. unfold spec_HT. rewrite !nth_spec by assumption.
  unfold vals, mags, Rounding.vals, Rounding.mags.
  rewrite (plain_HT val H T i k (entry_vals RD) HL), (plain_HT (fun x => Rabs (val x)) H T i k (entry_mags RD) HL).
  destruct (sum_of_bound RD (HT_term i k) (fun p => val (vget (fst p) i) * val (vget (snd p) k))
    (fun p => Rabs (val (vget (fst p) i)) * Rabs (val (vget (snd p) k))) (fun _ => 1) 1 (combine H T) x) as [_ B]; [| |exact HS|exact HF|].
  { intros p _. split; [|lra]. rewrite Rabs_mult. lra. }
  { intros p _ HF'. apply mul_bound. exact HF'. }
  rewrite Rsum_ones in B. assert (length (combine H T) = length H) as EL by (rewrite combine_length; lia). rewrite EL in B.
  apply Rle_trans with (1 := B). apply bnd_mono.
  - lia.
  - split; [|lra]. apply Rsum_nonneg. intros p _. apply Rmult_le_pos; apply Rabs_pos.
  - pose proof (pos_INR (length H)). pose proof (pos_INR (pred (length H))).
    assert (INR (pred (length H)) <= INR (length H)) by (apply le_INR; lia). lra.
Qed.

Theorem trained_rounding : forall {SG : Sing} e ps H, no_data (e_net e) -> is_wc e = false -> (0 < e_batch e)%Z -> ps <> [] ->
  (forall X T, In (X, T) ps -> X <> [] /\ length X = length T /\ wide (s_outputs (e_net e)) T) ->
  elm_project e (Arr2 (s_inputs (e_net e)) (rows_of ps)) = Ok H ->
  let L := getL (e_net e) in let c := s_outputs (e_net e) in let N := length H in let norm := val (s_norm (e_net e)) in
  exists e' HH HT, run_all (fun e p => add_data e (fst p) (snd p)) e ps = (e', Ok tt) /\
    get_corr (e_net e') = Ok (Some (HH, HT)) /\
    (forall i j, (i < L)%nat -> (j < L)%nat -> fin (mget HH i j) ->
       Rabs (val (mget HH i j) - entry (nth i (spec_HH L norm (Spec.plain (vals H) (vals (targets_of ps)))) []) j) <=
       bnd (N + 1) (entry (nth i (spec_HH L (Rabs norm) (Spec.plain (mags H) (mags (targets_of ps)))) []) j) (2 * INR N)) /\
    (forall i k, (i < L)%nat -> (k < c)%nat -> fin (mget HT i k) ->
       Rabs (val (mget HT i k) - entry (nth i (spec_HT L c (Spec.plain (vals H) (vals (targets_of ps)))) []) k) <=
       bnd (N + 1) (entry (nth i (spec_HT L c (Spec.plain (mags H) (mags (targets_of ps)))) []) k) (2 * INR N)).
Proof.
  intros SG e ps H Hf Hw Hb HN HP EH L c N norm.
  destruct (trained_sums e ps H Hf Hw Hb HN HP EH) as (e' & HH & HT & E1 & E2 & M1 & M2 & S1 & S2).
  assert (length H = length (targets_of ps)) as LL.
  { unfold elm_project, check_arr in EH. rewrite Nat.eqb_refl in EH. cbn [rbind] in EH. apply project_inv in EH. destruct EH as (_ & _ & ->).
    rewrite map_length. unfold rows_of, targets_of. clear - HP. induction ps as [|[X T] ps IH]; [reflexivity|]. cbn [map concat fst snd].
    rewrite !app_length. f_equal; [destruct (HP X T (or_introl eq_refl)) as (_ & Q & _); exact Q|]. apply IH. intros X' T' Hin. apply (HP X' T'). right. exact Hin. }
  exists e', HH, HT. split; [exact E1|]. split; [exact E2|]. split.
  - intros i j Hi Hj HF. destruct (S1 i j Hi Hj) as [S|S].
    + apply (HH_bound _ i j H (targets_of ps) _ L Hi Hj LL S HF).
    + assert (HH_index j i H = HH_index i j H) as EI by (unfold HH_index; rewrite Nat.eqb_sym; reflexivity).
      rewrite <- EI in S. pose proof (HH_bound _ j i H (targets_of ps) _ L Hj Hi LL S HF) as B.
      rewrite !(HH_swap _ L _ i j Hi Hj) in B. exact B.
  - intros i k Hi Hk HF. apply (HT_bound i k H (targets_of ps) _ L c Hi Hk LL (S2 i k Hi Hk) HF).
Qed.

(** the same data in other batches, in another number of calls, or on another accelerator *)
Theorem splits_rounding : forall {SG : Sing} e1 e2 ps1 ps2 H,
  no_data (e_net e1) -> no_data (e_net e2) -> is_wc e1 = false -> is_wc e2 = false -> (0 < e_batch e1)%Z -> (0 < e_batch e2)%Z ->
  getL (e_net e1) = getL (e_net e2) -> s_outputs (e_net e1) = s_outputs (e_net e2) -> s_norm (e_net e1) = s_norm (e_net e2) ->
  (forall X T, In (X, T) ps1 -> X <> [] /\ length X = length T /\ wide (s_outputs (e_net e1)) T) ->
  (forall X T, In (X, T) ps2 -> X <> [] /\ length X = length T /\ wide (s_outputs (e_net e2)) T) ->
  ps1 <> [] -> ps2 <> [] -> targets_of ps1 = targets_of ps2 ->
  elm_project e1 (Arr2 (s_inputs (e_net e1)) (rows_of ps1)) = Ok H -> elm_project e2 (Arr2 (s_inputs (e_net e2)) (rows_of ps2)) = Ok H ->
  let L := getL (e_net e1) in let c := s_outputs (e_net e1) in let N := length H in
  exists e1' e2' HH1 HT1 HH2 HT2,
    run_all (fun e p => add_data e (fst p) (snd p)) e1 ps1 = (e1', Ok tt) /\ get_corr (e_net e1') = Ok (Some (HH1, HT1)) /\
    run_all (fun e p => add_data e (fst p) (snd p)) e2 ps2 = (e2', Ok tt) /\ get_corr (e_net e2') = Ok (Some (HH2, HT2)) /\
    (forall i j, (i < L)%nat -> (j < L)%nat -> fin (mget HH1 i j) -> fin (mget HH2 i j) ->
       Rabs (val (mget HH1 i j) - val (mget HH2 i j)) <=
       2 * bnd (N + 1) (entry (nth i (spec_HH L (Rabs (val (s_norm (e_net e1)))) (Spec.plain (mags H) (mags (targets_of ps1)))) []) j) (2 * INR N)) /\
    (forall i k, (i < L)%nat -> (k < c)%nat -> fin (mget HT1 i k) -> fin (mget HT2 i k) ->
       Rabs (val (mget HT1 i k) - val (mget HT2 i k)) <=
       2 * bnd (N + 1) (entry (nth i (spec_HT L c (Spec.plain (mags H) (mags (targets_of ps1)))) []) k) (2 * INR N)).
Proof.
  intros SG e1 e2 ps1 ps2 H D1 D2 W1 W2 B1 B2 EL Ec En P1 P2 N1 N2 ET H1 H2 L c N.
  destruct (trained_rounding e1 ps1 H D1 W1 B1 N1 P1 H1) as (e1' & HH1 & HT1 & R1 & C1 & A1 & T1).
  destruct (trained_rounding e2 ps2 H D2 W2 B2 N2 P2 H2) as (e2' & HH2 & HT2 & R2 & C2 & A2 & T2).
  rewrite <- EL, <- Ec, <- En, <- ET in *.
  exists e1', e2', HH1, HT1, HH2, HT2. split; [exact R1|]. split; [exact C1|]. split; [exact R2|]. split; [exact C2|]. split.
  - intros i j Hi Hj F1 F2. specialize (A1 i j Hi Hj F1). specialize (A2 i j Hi Hj F2).
    match type of A1 with Rabs (_ - ?s) <= _ => match goal with |- Rabs (?a - ?b) <= _ => replace (a - b) with ((a - s) - (b - s)) by ring; pose proof (Rabs_triang (a - s) (- (b - s))) as Q; rewrite Rabs_Ropp in Q end end.
    unfold Rminus in *. unfold L, N in *. lra.
  - intros i j Hi Hj F1 F2. specialize (T1 i j Hi Hj F1). specialize (T2 i j Hi Hj F2).
    match type of T1 with Rabs (_ - ?s) <= _ => match goal with |- Rabs (?a - ?b) <= _ => replace (a - b) with ((a - s) - (b - s)) by ring; pose proof (Rabs_triang (a - s) (- (b - s))) as Q; rewrite Rabs_Ropp in Q end end.
    unfold Rminus in *. unfold L, c, N in *. lra.
Qed.

(** ** Prediction *)
Lemma map_seq_combine : forall {B} (f : num -> num -> B) (y t : vec), length y = length t ->
  map (fun p => f (fst p) (snd p)) (combine y t) = map (fun j => f (vget y j) (vget t j)) (seq 0 (length y)).
Proof.
  intros B f. induction y as [|a y IH]; intros [|b t] HL; try discriminate; [reflexivity|].
  cbn [combine map length seq]. f_equal. rewrite IH by (cbn in HL; congruence). rewrite <- seq_shift, map_map. reflexivity.
Qed.

Theorem predict_rounding : forall e X H B Y, elm_project e (Arr2 (s_inputs (e_net e)) X) = Ok H ->
  s_B (e_net e) = Some B -> elm_predict e (Arr2 (s_inputs (e_net e)) X) = Ok Y ->
  (forall h, In h H -> length h = length B) ->
  length Y = length X /\ forall r k, (r < length X)%nat -> (k < s_outputs (e_net e))%nat -> fin (mget Y r k) ->
    Rabs (val (mget Y r k) - predict1 (vals B) (nth r (vals H) []) k) <=
    bnd (length B) (predict1 (mags B) (nth r (mags H) []) k) (2 * INR (length B)).
Proof.
  intros e X H B Y EH EB EY HL. unfold elm_project, elm_predict, check_arr in *. rewrite Nat.eqb_refl in *. cbn [rbind] in *.
  unfold predict in EY. rewrite EB, EH in EY. cbn [rbind] in EY. apply Ok_inj in EY. subst Y.
  assert (length H = length X) as LH by (apply project_inv in EH; destruct EH as (_ & _ & ->); apply map_length).
  split. { unfold mmul. rewrite map_length. exact LH. }
  intros r k Hr Hk HF. rewrite mget_mmul in HF |- * by (cbn [num] in *; lia || assumption).
  set (h := nth r H []) in *. assert (length h = length B) as Lh by (apply HL, nth_In; lia).
  set (col := mcol B k) in *. assert (length col = length B) as Lc by apply mcol_length.
  assert (forall f : num -> R, (forall h i, entry (map f h) i = f (vget h i)) -> f n0 = 0 ->
    predict1 (map (map f) B) (nth r (map (map f) H) []) k = Rsum (map (fun p => f (fst p) * f (snd p)) (combine h col))) as EP.
  { intros f Hf Hf0. unfold predict1. rewrite (nth_map_lt (map f) H r [] []) by lia. fold h. rewrite map_length.
    rewrite (map_seq_combine (fun a b => f a * f b) h col) by lia. f_equal. apply map_ext_in. intros j Hj. apply in_seq in Hj.
    rewrite Hf. f_equal. rewrite (nth_map_lt (map f) B j [] []) by lia. rewrite Hf. f_equal. unfold col.
    rewrite vget_mcol by lia. reflexivity. }
  unfold vals, mags, Rounding.vals, Rounding.mags. rewrite (EP val (entry_vals RD) (r_val0 K RD)).
  rewrite (EP (fun x => Rabs (val x)) (entry_mags RD)) by (rewrite (r_val0 K RD); apply Rabs_R0).
  assert (sum_of (fun p => nmul (fst p) (snd p)) (combine h col) (dotv h col)) as S by (unfold dotv; rewrite map2_combine; apply so_nsum).
  destruct (sum_of_bound RD (fun p => nmul (fst p) (snd p)) (fun p => val (fst p) * val (snd p))
    (fun p => Rabs (val (fst p)) * Rabs (val (snd p))) (fun _ => 1) 1 (combine h col) (dotv h col)) as [_ Bd]; [| |exact S|exact HF|].
  { intros p _. split; [|lra]. rewrite Rabs_mult. lra. }
  { intros p _ HF'. apply mul_bound. exact HF'. }
  rewrite Rsum_ones in Bd. assert (length (combine h col) = length B) as EL by (rewrite combine_length; lia). rewrite EL in Bd.
  destruct (length B) as [|n] eqn:En.
  { destruct h; [|discriminate]. cbn in Bd |- *. unfold Rounding.bnd in *. cbn in *. lra. }
  apply Rle_trans with (1 := Bd). apply bnd_mono.
  - cbn. lia.
  - split; [|lra]. apply Rsum_nonneg. intros p _. apply Rmult_le_pos; apply Rabs_pos.
  - pose proof (pos_INR n). cbn [pred]. rewrite S_INR. lra.
Qed.

(** ** Mean squared error *)
Definition pairs (T Y : mat) : list (num * num) := concat (map (fun yt => combine (fst yt) (snd yt)) (combine Y T)).
Definition sqd (p : num * num) : num := nsq (nsub (fst p) (snd p)).
Definition d2 (p : num * num) : R := (val (fst p) - val (snd p)) ^ 2.

Lemma xsum_gen : forall l : list num, xsum (map Fin l) = Fin (nsum l).
Proof. induction l as [|a l IH]; [reflexivity|]. cbn [map xsum fold_right]. change (fold_right xadd (Fin n0) (map Fin l)) with (xsum (map Fin l)). rewrite IH. reflexivity. Qed.

Lemma concat_map_map : forall {A B C} (f : B -> C) (g : A -> list B) l, concat (map (fun a => map f (g a)) l) = map f (concat (map g l)).
Proof. induction l as [|a l IH]; [reflexivity|]. cbn. rewrite map_app, IH. reflexivity. Qed.

Lemma raw_mse_sum : forall wc T Y c x, length Y = length T -> raw_error None wc T Y c = Ok (Fin x) ->
  pairs T Y <> [] /\ x = ndiv (nsum (map sqd (pairs T Y))) (nof_nat (length (pairs T Y))).
Proof.
  intros wc T Y c x HL E. unfold raw_error, zip_rows in E. rewrite (bcast_eq Y T HL) in E. cbn [rbind] in E. apply Ok_inj in E.
  assert (concat (map (fun yt : vec * vec => map2 (fun y t => Fin (nsq (nsub y t))) (fst yt) (snd yt)) (combine Y T)) = map Fin (map sqd (pairs T Y))) as EC.
  { rewrite map_map. unfold pairs. rewrite <- concat_map_map. f_equal. apply map_ext. intros yt. rewrite map2_combine. reflexivity. }
  rewrite EC in E. clear EC. destruct (pairs T Y) as [|p P]; [discriminate|]. split; [discriminate|].
  set (l := map sqd (p :: P)) in *.
  assert (xmean (map Fin l) = xdiv (xsum (map Fin l)) (Fin (nof_nat (length l)))) as EX by (unfold l; unfold xmean; cbn [map length]; rewrite !map_length; reflexivity).
  rewrite EX, xsum_gen in E. cbn [xdiv] in E. unfold np_div in E. destruct (neqb (nof_nat (length l)) n0).
  - destruct (neqb (nsum l) n0); [discriminate|]. unfold xinf in E. destruct (nltb _ _); discriminate.
  - injection E as <-. unfold l. rewrite map_length. reflexivity.
Qed.

Lemma sqd_bound : forall p, rep (fst p) -> rep (snd p) -> fin (sqd p) -> Rabs (val (sqd p) - d2 p) <= bnd 3 (d2 p) 1.
Proof.
  intros [y t] Ry Rt HF. unfold sqd, d2, nsq in *. cbn [fst snd] in *. destruct (r_mul K RD _ _ HF) as (FD & _ & HM).
  destruct (r_sub K RD y t Ry Rt FD) as (_ & _ & HS). set (d := val (nsub y t)) in *. set (q := val (nmul (nsub y t) (nsub y t))) in *.
  set (w := val y - val t) in *. clearbody d q w. pose proof (r_u_pos K RD) as U. pose proof (r_eta_pos K RD) as E.
  assert (Rabs d <= (1 + u) * Rabs w) as D1 by (replace d with ((d - w) + w) by ring; pose proof (Rabs_triang (d - w) w); lra).
  assert (Rabs (d * d - w ^ 2) <= ((1 + u) ^ 2 - 1) * w ^ 2) as D2.
  { replace (d * d - w ^ 2) with ((d - w) * (d + w)) by ring. rewrite Rabs_mult.
    assert (Rabs (d + w) <= (2 + u) * Rabs w) by (pose proof (Rabs_triang d w); lra).
    apply Rle_trans with ((u * Rabs w) * ((2 + u) * Rabs w)); [apply Rmult_le_compat; auto using Rabs_pos|].
    rewrite <- (pow2_abs w). right. ring. }
  assert (Rabs (d * d) <= (1 + u) ^ 2 * w ^ 2) as D3.
  { rewrite Rabs_mult. apply Rle_trans with (((1 + u) * Rabs w) * ((1 + u) * Rabs w)); [apply Rmult_le_compat; auto using Rabs_pos|].
    rewrite <- (pow2_abs w). right. ring. }
  assert (Rabs (q - w ^ 2) <= u * Rabs (d * d) + eta + ((1 + u) ^ 2 - 1) * w ^ 2) as D4.
  { replace (q - w ^ 2) with ((q - d * d) + (d * d - w ^ 2)) by ring. pose proof (Rabs_triang (q - d * d) (d * d - w ^ 2)). lra. }
  assert (u * Rabs (d * d) <= u * ((1 + u) ^ 2 * w ^ 2)) as D5 by (apply Rmult_le_compat_l; auto).
  unfold Rounding.bnd. pose proof (pow_u1 RD 3) as P3.
  assert (1 * eta <= (1 + u) ^ 3 * 1 * eta) by (apply Rmult_le_compat_r; lra).
  replace (((1 + u) ^ 3 - 1) * w ^ 2) with (u * ((1 + u) ^ 2 * w ^ 2) + ((1 + u) ^ 2 - 1) * w ^ 2) by ring. lra.
Qed.

Lemma mse_bound : forall P x, P <> [] -> (Z.of_nat (length P) < r_int K RD)%Z ->
  (forall p, In p P -> rep (fst p) /\ rep (snd p)) ->
  x = ndiv (nsum (map sqd P)) (nof_nat (length P)) -> fin x ->
  Rabs (val x - Rsum (map d2 P) / INR (length P)) <= bnd (length P + 3) (Rsum (map d2 P) / INR (length P)) 3.
Proof.
  intros P x HP Hn HR -> HF. destruct (r_nat K RD _ Hn) as [FN VN].
  assert (0 < INR (length P)) as Pn by (apply lt_0_INR; destruct P; [congruence|cbn; lia]).
  destruct (r_div K RD _ _ HF FN ltac:(rewrite VN; lra)) as [FS HD]. rewrite VN in HD.
  assert (forall p, 0 <= d2 p) as D0 by (intros p; unfold d2; apply pow2_ge_0).
  destruct (sum_of_bound RD sqd d2 d2 (fun _ => 1) 3 P (nsum (map sqd P))) as [_ B]; [| |apply so_nsum|exact FS|].
  { intros p _. split; [|lra]. rewrite Rabs_right; [lra|]. apply Rle_ge, D0. }
  { intros p Hp HF'. destruct (HR p Hp). apply sqd_bound; assumption. }
  rewrite Rsum_ones in B. set (S := Rsum (map d2 P)) in *. assert (0 <= S) as HS by (apply Rsum_nonneg; auto).
  set (n := INR (length P)) in *. set (v := val (nsum (map sqd P))) in *.
  assert (0 < / n) as Pi by (apply Rinv_0_lt_compat; exact Pn).
  assert (INR (pred (length P)) <= n) as Hpr by (apply le_INR; lia). pose proof (pos_INR (pred (length P))) as Hp0.
  assert (0 <= S / n) as HSn by (unfold Rdiv; apply Rmult_le_pos; lra).
  replace (length P + 3)%nat with (Datatypes.S (3 + pred (length P))) by (destruct P; [congruence|cbn; lia]).
  replace 3 with (2 + 1) by ring.
  apply bnd_step with (e := bnd (3 + pred (length P)) (S / n) 2) (x := v / n); try lra.
  - rewrite Rabs_right; lra.
  - replace (v / n - S / n) with ((v - S) * / n) by (unfold Rdiv; ring). rewrite Rabs_mult, (Rabs_right (/ n)) by lra.
    apply Rle_trans with (bnd (3 + pred (length P)) S (n + INR (pred (length P))) * / n); [apply Rmult_le_compat_r; lra|].
    apply Rle_trans with (bnd (3 + pred (length P)) S (2 * n) * / n); [apply Rmult_le_compat_r; [lra|apply bnd_mono; try lia; lra]|].
    unfold Rounding.bnd, Rdiv. right. field. lra.
Qed.

(** in terms of the samples *)
Lemma pairs_length : forall c T Y, wide c T -> wide c Y -> length Y = length T -> length (pairs T Y) = (length T * c)%nat.
Proof.
  intros c. induction T as [|t T IH]; intros [|y Y] HT HY HL; try discriminate; [reflexivity|]. inversion HT; subst. inversion HY; subst.
  unfold pairs in *. cbn [combine map concat fst snd]. rewrite app_length, IH by (auto; cbn in HL; congruence). rewrite combine_length. cbn [length]. nia.
Qed.
Lemma pairs_in : forall T Y p, In p (pairs T Y) -> exists t y, In t T /\ In y Y /\ In (snd p) t /\ In (fst p) y.
Proof.
  intros T Y p H. unfold pairs in H. apply in_concat in H. destruct H as (l & Hl & Hp). apply in_map_iff in Hl. destruct Hl as ([y t] & <- & Hyt).
  cbn [fst snd] in Hp. destruct p as [a b]. exists t, y. cbn [fst snd].
  split; [exact (in_combine_r _ _ _ _ Hyt)|]. split; [exact (in_combine_l _ _ _ _ Hyt)|].
  split; [exact (in_combine_r _ _ _ _ Hp)|exact (in_combine_l _ _ _ _ Hp)].
Qed.
Lemma pairs_sum : forall c T Y, (0 < c)%nat -> wide c T -> wide c Y -> length Y = length T ->
  Rsum (map d2 (pairs T Y)) = Rsum (errs None c (vals T) (vals Y)) * INR c.
Proof.
  intros c T Y Hc. assert (INR c <> 0) as Hc0 by (apply not_0_INR; lia). revert Y.
  induction T as [|t T IH]; intros [|y Y] HT HY HL; try discriminate; [cbn; lra|]. inversion HT as [|t' T' L1 HT']. subst t' T'. inversion HY as [|y' Y' L2 HY']. subst y' Y'.
  unfold pairs, errs in *. cbn [combine map concat fst snd map2 Rounding.vals]. rewrite map_app, Rounding.Rsum_app.
  change (Rsum (sample_err None c (map val t) (map val y) :: ?r)) with (sample_err None c (map val t) (map val y) + Rsum r).
  rewrite (IH Y HT' HY') by (cbn in HL; congruence). rewrite Rmult_plus_distr_r. f_equal.
  cbn [sample_err]. unfold sq_err. unfold d2. rewrite (map_seq_combine (fun a b => (val a - val b) ^ 2) y t) by lia.
  unfold Rdiv. rewrite Rmult_assoc, Rinv_l, Rmult_1_r by exact Hc0. rewrite L2. f_equal. apply map_ext. intros j. rewrite !(entry_vals RD). reflexivity.
Qed.
Lemma pairs_mean : forall c T Y, (0 < c)%nat -> wide c T -> wide c Y -> length Y = length T -> T <> [] ->
  Rsum (map d2 (pairs T Y)) / INR (length (pairs T Y)) = mean (errs None c (vals T) (vals Y)).
Proof.
  intros c T Y Hc HT HY HL HN. rewrite (pairs_sum c), (pairs_length c) by auto. unfold mean.
  rewrite errs_length by (unfold vals, Rounding.vals; rewrite !map_length; congruence). unfold vals, Rounding.vals. rewrite map_length, mult_INR.
  field. split; apply not_0_INR; [destruct T; [congruence|discriminate]|lia].
Qed.

Lemma raw_mse_rounding : forall wc c T Y x, (0 < c)%nat -> wide c T -> wide c Y -> length T = length Y ->
  Forall (Forall rep) T -> Forall (Forall rep) Y -> (Z.of_nat (length T * c) < r_int K RD)%Z ->
  raw_error None wc T Y c = Ok (Fin x) -> fin x ->
  T <> [] /\ Rabs (val x - mean (errs None c (vals T) (vals Y))) <= bnd (length T * c + 3) (mean (errs None c (vals T) (vals Y))) 3.
Proof.
  intros wc c T Y x Hc HT HY HL RT RY HI E HF. destruct (raw_mse_sum wc T Y c x (eq_sym HL) E) as [HN Ex].
  assert (T <> []) as HTN by (intros ->; destruct Y; [|discriminate]; apply HN; reflexivity).
  split; [exact HTN|]. rewrite <- (pairs_mean c T Y), <- (pairs_length c T Y) by auto.
  apply mse_bound; auto.
  - rewrite (pairs_length c T Y) by auto. exact HI.
  - intros p Hp. destruct (pairs_in _ _ _ Hp) as (t & y & Ht & Hy & Hpt & Hpy). rewrite Forall_forall in RT, RY.
    specialize (RT t Ht). specialize (RY y Hy). rewrite Forall_forall in RT, RY. split; auto.
Qed.

Theorem elm_error_rounding : forall e c T Y x, e_class e = None -> s_outputs (e_net e) = c -> (0 < c)%nat ->
  wide c T -> wide c Y -> length T = length Y -> Forall (Forall rep) T -> Forall (Forall rep) Y ->
  (Z.of_nat (length T * c) < r_int K RD)%Z ->
  elm_error e (Arr2 c T) (Arr2 c Y) = Ok (Fin x) -> fin x ->
  Rabs (val x - mean (errs None c (vals T) (vals Y))) <= bnd (length T * c + 3) (mean (errs None c (vals T) (vals Y))) 3.
Proof.
  intros e c T Y x Hcl Ho Hc HT HY HL RT RY HI E HF. unfold elm_error, check_arr in E. rewrite Ho, Nat.eqb_refl in E. cbn [rbind] in E.
  unfold error_ in E. rewrite Hcl, Ho in E. destruct (raw_error None (e_wc e) T Y c) as [r|] eqn:ER; cbn [rbind] in E; [|discriminate].
  assert (r = Fin x) as -> by (unfold assert_not_nan in E; destruct r; try discriminate; apply Ok_inj in E; exact E).
  apply (raw_mse_rounding (e_wc e) c T Y x); auto.
Qed.

(** ** Mean squared error computed batch by batch (HPELM) *)
Definition batch_err (c : nat) (T Y : mat) (ab : Z * Z) : num :=
  match raw_error None None (slice T (fst ab) (snd ab)) (slice Y (fst ab) (snd ab)) c with Ok (Fin v) => v | _ => n0 end.
Definition batch_share (c : nat) (T Y : mat) (cnt : Z) (ab : Z * Z) : num :=
  ndiv (nmul (batch_err c T Y ab) (nofZ (snd ab - fst ab))) (nofZ cnt).

Lemma nofZ_nat : forall n, nofZ (Z.of_nat n) = nof_nat n.
Proof. intros n. unfold nofZ. destruct (Z.of_nat n <? 0)%Z eqn:E; [apply Z.ltb_lt in E; lia|]. rewrite Nat2Z.id. reflexivity. Qed.

Lemma np_div_Fin : forall a b x : num, np_div a b = Fin x -> x = ndiv a b.
Proof.
  intros a b x E. unfold np_div in E. destruct (neqb b n0); [|congruence]. destruct (neqb a n0); [discriminate|].
  unfold xinf in E. destruct (nltb n0 a); discriminate.
Qed.
Lemma xdiv_Fin : forall a (b x : num), xdiv a (Fin b) = Fin x -> exists v, a = Fin v /\ x = ndiv v b.
Proof.
  intros [v| | |] b x E; cbn [xdiv] in E; try discriminate; try (unfold xinf in E; match type of E with context [if ?q then _ else _] => destruct q end; discriminate).
  exists v. split; [reflexivity|]. apply np_div_Fin. exact E.
Qed.
Lemma xmul_Fin : forall a (b x : num), xmul a (Fin b) = Fin x -> exists v, a = Fin v /\ x = nmul v b.
Proof.
  intros [v| | |] b x E; cbn [xmul] in E; try discriminate.
  - exists v. split; congruence.
  - destruct (neqb b n0); [discriminate|]. unfold xinf in E. destruct (nltb n0 b); discriminate.
  - destruct (neqb b n0); [discriminate|]. unfold xinf in E. destruct (nltb b n0); discriminate.
Qed.
Lemma xadd_Fin : forall a b (x : num), xadd a b = Fin x -> exists v w, a = Fin v /\ b = Fin w /\ x = nadd v w.
Proof. intros [v| | |] [w| | |] x E; cbn [xadd] in E; try discriminate. exists v, w. repeat split; congruence. Qed.

Lemma mean_batches_acc : forall f T Y rs cnt acc x, mean_batches f T Y rs cnt acc = Ok (Fin x) -> exists v, acc = Fin v.
Proof.
  induction rs as [|ab r IH]; intros cnt acc x E; cbn [mean_batches] in E; [exists x; apply Ok_inj in E; exact E|].
  destruct (f _ _) as [eb|]; cbn [rbind] in E; [|discriminate]. apply IH in E. destruct E as [v E]. apply xadd_Fin in E. destruct E as (w & z & -> & _). exists w. reflexivity.
Qed.

Lemma mean_batches_sum : forall c T Y cnt rs acc l0 x, sum_of (batch_share c T Y cnt) l0 acc ->
  mean_batches (fun t y => raw_error None None t y c) T Y rs cnt (Fin acc) = Ok (Fin x) ->
  sum_of (batch_share c T Y cnt) (l0 ++ rs) x /\
  forall ab, In ab rs -> raw_error None None (slice T (fst ab) (snd ab)) (slice Y (fst ab) (snd ab)) c = Ok (Fin (batch_err c T Y ab)).
Proof.
  induction rs as [|ab r IH]; intros acc l0 x HS E; cbn [mean_batches] in E.
  - rewrite app_nil_r. split; [|intros ab []]. apply Ok_inj in E. injection E as <-. exact HS.
  - destruct (raw_error None None (slice T (fst ab) (snd ab)) (slice Y (fst ab) (snd ab)) c) as [eb|] eqn:ER; cbn [rbind] in E; [|discriminate].
    destruct (mean_batches_acc _ _ _ _ _ _ _ E) as [v Ev]. destruct (xadd_Fin _ _ _ Ev) as (a & w & Ea & Ew & ->). injection Ea as <-.
    destruct (xdiv_Fin _ _ _ Ew) as (p & Ep & ->). destruct (xmul_Fin _ _ _ Ep) as (q & -> & ->). rewrite Ev in E.
    assert (batch_err c T Y ab = q) as EB by (unfold batch_err; rewrite ER; reflexivity).
    assert (ndiv (nmul q (nofZ (snd ab - fst ab))) (nofZ cnt) = batch_share c T Y cnt ab) as ESh by (unfold batch_share; rewrite EB; reflexivity).
    rewrite ESh in E. apply (IH _ (l0 ++ [ab])) in E; [|apply so_app; [exact HS|apply so_one]].
    rewrite <- app_assoc in E. destruct E as [E1 E2]. split; [exact E1|]. intros ab' [<-|Hin]; [rewrite EB; exact ER|apply E2; exact Hin].
Qed.

Definition batch_mean (c : nat) (T Y : mat) (N : nat) (ab : Z * Z) : R :=
  Rsum (errs None c (vals (slice T (fst ab) (snd ab))) (vals (slice Y (fst ab) (snd ab)))) / INR N.

Lemma vals_app : forall A B, vals (A ++ B) = vals A ++ vals B.
Proof. intros. unfold vals, Rounding.vals. apply map_app. Qed.
Lemma vals_length : forall A, length (vals A) = length A.
Proof. intros. unfold vals, Rounding.vals. apply map_length. Qed.

Lemma tiles_in : forall batch rs a b, tiles batch a b rs -> forall x y, In (x, y) rs -> (a <= x < y)%Z /\ (y <= b)%Z.
Proof.
  induction rs as [|[x y] r IH]; intros a b Ht x' y' Hin; [destruct Hin|]. cbn [tiles] in Ht. destruct Ht as (-> & H1 & H2 & H3).
  pose proof (tiles_le _ _ _ _ H3). destruct Hin as [E|Hin]; [injection E as <- <-; lia|]. specialize (IH _ _ H3 _ _ Hin). lia.
Qed.
Lemma tiles_sums : forall c batch (T Y : mat) N, length T = length Y -> forall rs a b, (0 <= a)%Z -> (b <= Z.of_nat (length T))%Z -> tiles batch a b rs ->
  Rsum (map (batch_mean c T Y N) rs) = Rsum (errs None c (vals (slice T a b)) (vals (slice Y a b))) / INR N /\
  Rsum (map (fun ab => INR (Z.to_nat (snd ab - fst ab))) rs) = INR (Z.to_nat (b - a)) /\ (length rs <= Z.to_nat (b - a))%nat.
Proof.
  intros c batch T Y N HL. induction rs as [|[x y] r IH]; intros a b Ha Hb Ht.
  - cbn in Ht. subst b. rewrite !slice_empty, Z.sub_diag. cbn. split; [unfold Rdiv; ring|]. split; [reflexivity|lia].
  - cbn [tiles] in Ht. destruct Ht as (-> & H1 & H2 & H3). pose proof (tiles_le _ _ _ _ H3) as Hyb.
    destruct (IH y b ltac:(lia) Hb H3) as (I1 & I2 & I3). cbn [map length].
    change (Rsum (?h :: ?r)) with (h + Rsum r). change (Rsum (INR (Z.to_nat (snd (a, y) - fst (a, y))) :: ?r)) with (INR (Z.to_nat (y - a)) + Rsum r).
    rewrite I1, I2. split; [|split].
    + rewrite <- (slice_app T a y b), <- (slice_app Y a y b) by lia. rewrite !vals_app, errs_app, Rounding.Rsum_app.
      * unfold batch_mean. cbn [fst snd]. unfold Rdiv. ring.
      * rewrite !vals_length, !slice_length_in by lia. reflexivity.
    + cbn [fst snd]. rewrite <- plus_INR. apply (f_equal INR). lia.
    + lia.
Qed.

Lemma errs_nonneg : forall c T Y e, In e (errs None c T Y) -> 0 <= e.
Proof.
  intros c T Y e H. rewrite errs_combine in H. apply in_map_iff in H. destruct H as (p & <- & _). cbn [sample_err]. unfold sq_err.
  destruct c as [|c]; [cbn; unfold Rdiv; lra|]. apply Rmult_le_pos.
  - apply Rsum_nonneg. intros j _. apply pow2_ge_0.
  - left. apply Rinv_0_lt_compat, lt_0_INR. lia.
Qed.

Lemma batch_share_bound : forall c (T Y : mat) N a b, (0 < c)%nat -> wide c T -> wide c Y -> length T = length Y ->
  Forall (Forall rep) T -> Forall (Forall rep) Y -> (Z.of_nat (N * c) < r_int K RD)%Z -> (0 < N)%nat ->
  (0 <= a < b)%Z -> (b <= Z.of_nat (length T))%Z -> (Z.to_nat (b - a) <= N)%nat ->
  raw_error None None (slice T a b) (slice Y a b) c = Ok (Fin (batch_err c T Y (a, b))) ->
  fin (batch_share c T Y (Z.of_nat N) (a, b)) ->
  Rabs (val (batch_share c T Y (Z.of_nat N) (a, b)) - batch_mean c T Y N (a, b)) <=
    bnd (N * c + 5) (batch_mean c T Y N (a, b)) ((3 * INR (Z.to_nat (b - a)) + 1) / INR N + 1).
Proof.
  intros c T Y N a b Hc HT HY HL RT RY HI HN Hab Hb HnN ER HF. unfold batch_share in *. cbn [fst snd] in *.
  set (eb := batch_err c T Y (a, b)) in *. set (n := Z.to_nat (b - a)) in *. replace (b - a)%Z with (Z.of_nat n) in * by (unfold n; lia).
  rewrite !nofZ_nat in *.
  assert (N <= N * c)%nat as HNc by nia. assert (n * c <= N * c)%nat as Hnc by nia.
  destruct (r_nat K RD N ltac:(lia)) as [FN VN]. destruct (r_nat K RD n ltac:(lia)) as [Fn Vn].
  assert (0 < INR N) as PN by (apply lt_0_INR; exact HN). assert (0 < INR n) as Pn by (apply lt_0_INR; unfold n; lia).
  destruct (r_div K RD _ _ HF FN ltac:(rewrite VN; lra)) as [FM HD]. destruct (r_mul K RD _ _ FM) as (FE & _ & HM). rewrite VN in HD. rewrite Vn in HM.
  assert (length (slice T a b) = n) as L1 by (apply slice_length_in; lia). assert (length (slice Y a b) = n) as L2 by (apply slice_length_in; lia).
  set (Es := errs None c (vals (slice T a b)) (vals (slice Y a b))) in *.
  destruct (raw_mse_rounding None c (slice T a b) (slice Y a b) eb) as [_ B]; auto.
  { apply Forall_wide_slice; exact HT. } { apply Forall_wide_slice; exact HY. } { lia. }
  { apply Forall_slice; exact RT. } { apply Forall_slice; exact RY. } { rewrite L1. lia. }
  rewrite L1 in B. fold Es in B.
  assert (mean Es = Rsum Es / INR n) as EM by (unfold mean, Es; rewrite errs_length, vals_length, L1; [reflexivity|rewrite !vals_length; lia]).
  assert (0 <= Rsum Es) as E0.
  { replace (Rsum Es) with (Rsum (map (fun x => x) Es)) by (rewrite map_id; reflexivity). apply Rsum_nonneg. intros x Hx. apply (errs_nonneg _ _ _ _ Hx). }
  assert (0 <= mean Es) as M0 by (rewrite EM; unfold Rdiv; apply Rmult_le_pos; [exact E0|left; apply Rinv_0_lt_compat; exact Pn]).
  unfold batch_mean. cbn [fst snd]. fold Es. replace (Rsum Es) with (mean Es * INR n) by (rewrite EM; field; lra).
  set (m := mean Es) in *. set (v := val (nmul eb (nof_nat n))) in *. set (w := val eb) in *. set (z := val (ndiv (nmul eb (nof_nat n)) (nof_nat N))) in *.
  assert (Rabs (v - m * INR n) <= bnd (S (n * c + 3)) (m * INR n) (3 * INR n + 1)) as B1.
  { apply bnd_step with (e := bnd (n * c + 3) (m * INR n) (3 * INR n)) (x := w * INR n); try lra.
    - apply Rmult_le_pos; lra.
    - rewrite Rabs_right; [lra|]. apply Rle_ge, Rmult_le_pos; lra.
    - replace (w * INR n - m * INR n) with ((w - m) * INR n) by ring. rewrite Rabs_mult, (Rabs_right (INR n)) by lra.
      apply Rle_trans with (bnd (n * c + 3) m 3 * INR n); [apply Rmult_le_compat_r; lra|]. unfold Rounding.bnd. right. ring. }
  assert (0 < / INR N) as PiN by (apply Rinv_0_lt_compat; exact PN).
  assert (0 <= m * INR n / INR N) as Q0 by (unfold Rdiv; apply Rmult_le_pos; [apply Rmult_le_pos; lra|lra]).
  assert (0 <= (3 * INR n + 1) / INR N) as Q1 by (unfold Rdiv; apply Rmult_le_pos; lra).
  apply Rle_trans with (bnd (S (S (n * c + 3))) (m * INR n / INR N) ((3 * INR n + 1) / INR N + 1)).
  - apply bnd_step with (e := bnd (S (n * c + 3)) (m * INR n / INR N) ((3 * INR n + 1) / INR N)) (x := v / INR N); try lra.
    + rewrite Rabs_right; lra.
    + replace (v / INR N - m * INR n / INR N) with ((v - m * INR n) * / INR N) by (unfold Rdiv; ring). rewrite Rabs_mult, (Rabs_right (/ INR N)) by lra.
      apply Rle_trans with (bnd (S (n * c + 3)) (m * INR n) (3 * INR n + 1) * / INR N); [apply Rmult_le_compat_r; lra|]. unfold Rounding.bnd, Rdiv. right. ring.
  - apply bnd_mono; try lra. lia.
Qed.

Theorem hp_error_rounding : forall e dT dY c T Y istart icount x,
  e_class e = None -> s_outputs (e_net e) = c -> (0 < c)%nat -> (0 < e_batch e)%Z ->
  holds_data dT c T -> holds_data dY c Y -> wide c T -> wide c Y -> length T = length Y ->
  Forall (Forall rep) T -> Forall (Forall rep) Y ->
  (istart <= length T)%nat -> let N := length (range_of T istart icount) in (0 < N)%nat ->
  (Z.of_nat (N * c) < r_int K RD)%Z ->
  hp_error e dT dY (Z.of_nat istart) (zcount icount) = Ok (Fin x) -> fin x ->
  let mse := mean (errs None c (vals (range_of T istart icount)) (vals (range_of Y istart icount))) in
  Rabs (val x - mse) <= bnd (N * c + N + 4) mse (2 * INR N + 3).
Proof.
  intros e dT dY c T Y istart icount x Hcl Ho Hc Hb HdT HdY HT HY HL RT RY Hi N HN HI E HF mse.
  unfold hp_error in E. rewrite Ho in E. rewrite (check_holds dT c T c), (check_holds dY c Y c) in E by auto. rewrite Nat.eqb_refl in E. cbn [rbind] in E.
  pose proof (@range_of_length _ T istart icount Hi) as HR.
  pose proof (clip_bounds (length T) istart icount Hi) as [HB1 HB2].
  unfold hp_error_ in E. rewrite Hcl in E.
  assert (range_of T istart icount = slice T (Z.of_nat istart) (Z.of_nat istart + clip_count (zcount icount) (length T) (Z.of_nat istart))) as ET
    by (symmetry; now apply slice_range).
  assert (range_of Y istart icount = slice Y (Z.of_nat istart) (Z.of_nat istart + clip_count (zcount icount) (length T) (Z.of_nat istart))) as EY
    by (symmetry; rewrite HL; apply slice_range; lia).
  set (cnt := clip_count (zcount icount) (length T) (Z.of_nat istart)) in *.
  rewrite nbatches_eq in E by auto. cbn [rbind] in E.
  assert (tiles (e_batch e) (Z.of_nat istart) (Z.of_nat istart + cnt) (ranges (e_batch e) (Z.of_nat istart) cnt (ceil_div cnt (e_batch e)))) as Ht by (apply ranges_tiles; lia).
  set (rs := ranges (e_batch e) (Z.of_nat istart) cnt (ceil_div cnt (e_batch e))) in *.
  fold N in HR. assert (cnt = Z.of_nat N) as EN by lia. 
  destruct (mean_batches_sum c T Y cnt rs n0 [] x (so_nil _) E) as [HS HE]. cbn [app] in HS. clear E.
  destruct (tiles_sums c (e_batch e) T Y N HL rs (Z.of_nat istart) (Z.of_nat istart + cnt)%Z ltac:(lia) ltac:(lia) Ht) as (S1 & S2 & S3).
  replace (Z.to_nat (Z.of_nat istart + cnt - Z.of_nat istart)) with N in S2, S3 by lia.
  rewrite <- ET, <- EY in S1.
  assert (Rsum (map (batch_mean c T Y N) rs) = mse) as S4.
  { rewrite S1. unfold mse, mean. rewrite errs_length, vals_length; [reflexivity|]. rewrite !vals_length, ET, EY, !slice_length_in by lia. reflexivity. }
  assert (0 < INR N) as PN by (apply lt_0_INR; exact HN). assert (0 < / INR N) as PiN by (apply Rinv_0_lt_compat; exact PN).
  assert (forall ab, 0 <= batch_mean c T Y N ab) as Hm0.
  { intros ab. unfold batch_mean, Rdiv. apply Rmult_le_pos; [|lra].
    match goal with |- 0 <= Rsum ?l => replace l with (map (fun x : R => x) l) by apply map_id end. apply Rsum_nonneg. intros q Hq. apply (errs_nonneg _ _ _ _ Hq). }
  destruct (sum_of_bound RD (batch_share c T Y cnt) (batch_mean c T Y N) (batch_mean c T Y N)
    (fun ab => (3 * INR (Z.to_nat (snd ab - fst ab)) + 1) / INR N + 1) (N * c + 5) rs x) as [_ B]; [| |exact HS|exact HF|].
  { intros ab _. split; [rewrite Rabs_right; [lra|apply Rle_ge, Hm0]|]. pose proof (pos_INR (Z.to_nat (snd ab - fst ab))).
    assert (0 <= (3 * INR (Z.to_nat (snd ab - fst ab)) + 1) / INR N) by (unfold Rdiv; apply Rmult_le_pos; lra). lra. }
  { intros [a b] Hin HF'. destruct (tiles_in _ _ _ _ Ht a b Hin) as [Q1 Q2]. cbn [fst snd]. rewrite EN in HF' |- *.
    apply batch_share_bound; auto; try lia. apply (HE (a, b) Hin). }
  rewrite S4 in B.
  assert (rs <> []) as Hrs by (intros C; rewrite C in Ht; cbn in Ht; lia).
  assert (1 <= length rs)%nat as Hlr by (destruct rs; [congruence|cbn; lia]).
  assert (Rsum (map (fun ab : Z * Z => (3 * INR (Z.to_nat (snd ab - fst ab)) + 1) / INR N + 1) rs) = 3 + INR (length rs) / INR N + INR (length rs)) as S5.
  { assert (forall l : list (Z * Z), Rsum (map (fun ab : Z * Z => (3 * INR (Z.to_nat (snd ab - fst ab)) + 1) / INR N + 1) l) =
      3 * Rsum (map (fun ab => INR (Z.to_nat (snd ab - fst ab))) l) / INR N + INR (length l) / INR N + INR (length l)) as G.
    { induction l as [|q l IH]; [cbn; unfold Rdiv; ring|]. cbn [map length]. rewrite S_INR.
      change (Rsum (?h :: ?r)) with (h + Rsum r) in |- *. rewrite IH.
      change (Rsum (INR (Z.to_nat (snd q - fst q)) :: ?r)) with (INR (Z.to_nat (snd q - fst q)) + Rsum r). unfold Rdiv. ring. }
    rewrite G, S2. field. lra. }
  rewrite S5 in B.
  assert (INR (length rs) <= INR N) as Q by (apply le_INR; exact S3).
  assert (INR (pred (length rs)) = INR (length rs) - 1) as Q2 by (destruct (length rs); [lia|cbn [pred]; rewrite S_INR; ring]).
  assert (0 < INR (length rs)) as Q3 by (apply lt_0_INR; lia).
  assert (INR (length rs) / INR N <= 1) as Q4 by (apply Rmult_le_reg_r with (INR N); [lra|]; unfold Rdiv; rewrite Rmult_assoc, Rinv_l; lra).
  assert (0 <= INR (length rs) / INR N) as Q5 by (unfold Rdiv; apply Rmult_le_pos; lra).
  apply Rle_trans with (1 := B). apply bnd_mono; try lia; try lra.
  assert (0 <= mse) by (rewrite <- S4; apply Rsum_nonneg; auto). lra.
Qed.
End Thms.

(** ** IEEE double and single precision *)
Lemma p2_inv : forall n, p2 (- Z.of_nat n) = / 2 ^ n.
Proof. intros n. unfold p2. destruct n as [|n]; [cbn; lra|]. cbn [Z.of_nat Z.opp powerRZ]. rewrite SuccNat2Pos.id_succ. reflexivity. Qed.

Lemma half_val : sf_val (S754_finite false 3 (-1)) = 3 / 2.
Proof. unfold sf_val. change (-1)%Z with (- Z.of_nat 1)%Z. rewrite p2_inv. cbn [sf_sign pow]. rewrite Rmult_1_r. lra. Qed.

Theorem formats : forall fe ft,
  (exists RD : rounded (Num64 fe ft), r_u _ RD = / 2 ^ 53 /\ r_eta _ RD = / 2 ^ 1075 /\ r_int _ RD = (2 ^ 53)%Z /\
     (forall s m e, r_fin _ RD (S754_finite s m e)) /\ r_val _ RD (S754_finite false 3 (-1)) = 3 / 2) /\
  (exists RD : rounded (Num32 fe ft), r_u _ RD = / 2 ^ 24 /\ r_eta _ RD = / 2 ^ 150 /\ r_int _ RD = (2 ^ 24)%Z /\
     (forall s m e, r_fin _ RD (S754_finite s m e)) /\ r_val _ RD (S754_finite false 3 (-1)) = 3 / 2).
Proof.
  intros fe ft. split.
  - exists (rounded_64 fe ft). split; [apply (p2_inv 53)|]. split; [apply (p2_inv 1075)|]. split; [reflexivity|]. split; [intros; exact I|].
    exact half_val.
  - exists (rounded_32 fe ft). split; [apply (p2_inv 24)|]. split; [apply (p2_inv 150)|]. split; [reflexivity|]. split; [intros; exact I|].
    exact half_val.
Qed.
