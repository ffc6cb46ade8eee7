(** Sub-models that keep some of the neurons: their correlation matrices, output
    weights and errors (used by C33-C40; reals). *)
From Coq Require Import Reals Lra Permutation.
From Verif Require Import Base Num Mat LinAlg Slfn Strs Elm Mrsr Search Mss MatFacts SplitProofs Spec ElmFacts RLin
  AccProofs TrainProofs RidgeProofs WfProofs TrainThms IncrThms SolveThms NeuronThms ErrThms SearchThms SelectThms RankThms.
Local Open Scope R_scope.
#[local] Existing Instance NumR.

(** the features with the indices [ix] *)
Definition keep (ix : list nat) (h : list R) : list R := map (entry h) ix.
Definition keep_sample (ix : list nat) (s : sample) : sample := (sm_w s, keep ix (sm_h s), sm_t s).
(** distinct existing columns *)
Definition columns (L : nat) (ix : list nat) : Prop := NoDup ix /\ forall i, In i ix -> (i < L)%nat.

Lemma map_by_index : forall {A} (f : nat -> A) ix, map f ix = map (fun a => f (nth a ix 0%nat)) (seq 0 (length ix)).
Proof.
  intros A f ix. induction ix as [|i ix IH]; [reflexivity|]. cbn [map length seq nth]. f_equal.
  rewrite <- seq_shift, map_map. exact IH.
Qed.
Lemma sub_HH_mk : forall (M : list (list R)) ix, @sub_HH NumR M ix = mk (length ix) (length ix) (fun a b => mR M (nth a ix 0%nat) (nth b ix 0%nat)).
Proof.
  intros M ix. unfold sub_HH, csel, rsel, vsel, mk, mkv. rewrite map_map, map_by_index. apply map_ext. intros a.
  rewrite map_by_index. apply map_ext. reflexivity.
Qed.
Lemma columns_nth : forall L ix a, columns L ix -> (a < length ix)%nat -> (nth a ix 0 < L)%nat.
Proof. intros L ix a [_ H] Ha. apply H, nth_In, Ha. Qed.
Lemma columns_eqb : forall L ix a b, columns L ix -> (a < length ix)%nat -> (b < length ix)%nat -> (nth a ix 0 =? nth b ix 0)%nat = (a =? b)%nat.
Proof.
  intros L ix a b [ND _] Ha Hb. destruct (Nat.eqb_spec a b) as [->|N]; [apply Nat.eqb_refl|].
  apply Nat.eqb_neq. intros E. apply N. apply (proj1 (NoDup_nth ix 0%nat) ND); auto.
Qed.
Lemma keep_nth : forall ix h a, (a < length ix)%nat -> entry (keep ix h) a = entry h (nth a ix 0%nat).
Proof. intros ix h a H. unfold keep, entry. rewrite nth_map_lt with (da := 0%nat); auto. Qed.

Lemma sub_HH_spec : forall L norm ss ix, columns L ix ->
  @sub_HH NumR (spec_HH L norm ss) ix = spec_HH (length ix) norm (map (keep_sample ix) ss).
Proof.
  intros L norm ss ix Hc. rewrite sub_HH_mk, (spec_HH_mk (length ix)). apply (@mk_ext NumR). intros a b Ha Hb.
  pose proof (columns_nth _ _ _ Hc Ha). pose proof (columns_nth _ _ _ Hc Hb).
  rewrite spec_HH_mk, mget_mk by auto. rewrite (columns_eqb L) by auto. f_equal.
  rewrite map_map. apply nsum_map_ext. intros s _. unfold keep_sample. unfold sm_w, sm_h. cbn [fst snd].
  change (@vget NumR) with entry. rewrite !keep_nth by auto. reflexivity.
Qed.
Lemma rsel_HT_spec : forall L c ss ix, columns L ix ->
  @rsel NumR (spec_HT L c ss) ix = spec_HT (length ix) c (map (keep_sample ix) ss).
Proof.
  intros L c ss ix Hc. unfold rsel. rewrite map_by_index, (spec_HT_mk (length ix)). unfold mk. apply map_ext_in. intros a Ha. apply in_seq in Ha.
  pose proof (columns_nth _ _ a Hc ltac:(lia)). rewrite spec_HT_mk, nth_mk by auto. apply mkv_ext. intros k Hk.
  rewrite map_map. apply nsum_map_ext. intros s _. unfold keep_sample. unfold sm_w, sm_h, sm_t. cbn [fst snd].
  change (@vget NumR) with entry. rewrite !keep_nth by lia. reflexivity.
Qed.
Lemma good_keep : forall L ix ss, good L ss -> good (length ix) (map (keep_sample ix) ss).
Proof. intros L ix ss H s Hs. apply in_map_iff in Hs as (s0 & <- & Hs). split; [apply (H s0 Hs)|]. apply map_length. Qed.

(** predictions with output weights B *)
Definition outputs_of (c : nat) (B : list (list R)) (H : list (list R)) : list (list R) :=
  map (fun h => map (predict1 B h) (seq 0 c)) H.

Lemma mmul_outputs : forall n c (A B : list (list R)), length B = n -> Forall (fun r => length r = n) A ->
  @mmul NumR c A B = outputs_of c B A.
Proof.
  intros n c A B HB HA. unfold mmul, outputs_of. apply map_ext_in. intros h Hh. rewrite Forall_forall in HA. specialize (HA h Hh).
  unfold mkv. apply map_ext. intros k. unfold predict1. rewrite (dotv_sum _ _ n); [|auto|now rewrite mcol_length].
  rewrite Rsum_S, HA. apply sum_ext. intros i Hi. rewrite vget_mcol; [reflexivity|]. cbn [num NumR] in *. lia.
Qed.
Lemma csel_keep : forall (H : list (list R)) ix, @csel NumR H ix = map (keep ix) H.
Proof. reflexivity. Qed.

Section Solve.
Context {SG : @Sing NumR}.

(** solving with a complete symmetric matrix *)
Lemma solve_corr_full : forall s n (M Y : list (list R)), is_mat n n M ->
  (forall i j, (i < n)%nat -> (j < n)%nat -> mR M i j = mR M j i) -> PD n (mR M) -> is_mat n (s_outputs s) Y ->
  is_mat n (s_outputs s) (solve_corr s n M Y) /\ msolves n (s_outputs s) M (solve_corr s n M Y) Y.
Proof.
  intros s n M Y HM Hs HP HY.
  destruct (s_kind s) eqn:Ek.
  1:{ apply solve_corr_PD; auto. split; auto. intros i j Hi Hj. rewrite Ek. cbn [full_kind]. now rewrite orb_true_r. }
  all: unfold solve_corr; rewrite Ek.
  all: assert (forall i j, (i < n)%nat -> (j < n)%nat -> U M i j = mR M i j) as HU
    by (intros i j Hi Hj; unfold U; destruct (Nat.le_ge_cases i j); [rewrite Nat.min_l, Nat.max_r by auto; auto|rewrite Nat.min_r, Nat.max_l by auto; auto]).
  all: assert (PD n (U M)) as HPU by (eapply PD_ext; [|exact HP]; intros; symmetry; auto).
  all: destruct (proj2 (posv_PD n (s_outputs s) M Y) HPU) as [X E]; rewrite E;
    destruct (posv_sound _ _ _ _ _ E) as [HX Hsol]; split; auto;
    intros i k Hi Hk; rewrite <- Hsol by auto; apply sum_ext; intros; now rewrite HU.
Qed.

Lemma solve_corr_spec : forall s n norm ss, 0 < norm -> good n ss ->
  ridge_solution n (s_outputs s) norm ss (solve_corr s n (spec_HH n norm ss) (spec_HT n (s_outputs s) ss)).
Proof.
  intros s n norm ss Hn Hg.
  destruct (solve_corr_full s n (spec_HH n norm ss) (spec_HT n (s_outputs s) ss)) as [H1 H2].
  - rewrite spec_HH_mk. apply is_mat_mk.
  - intros. now apply spec_HH_sym.
  - apply PD_spec; auto. intros x Hx. apply (Hg x Hx).
  - rewrite spec_HT_mk. apply is_mat_mk.
  - now apply ridge_solution_of.
Qed.

(** [w] is the error on (Hv, Tv) of the model that keeps the features [ix] and is
    solved on the samples [ss] *)
Definition submodel_error (e : elm) (norm : R) (ss : list sample) (Hv Tv : list (list R)) (ix : list nat) (w : R) : Prop :=
  let c := s_outputs (e_net e) in
  exists B, ridge_solution (length ix) c norm (map (keep_sample ix) ss) B /\
    elm_error e (Arr2 c Tv) (Arr2 c (outputs_of c B (map (keep ix) Hv))) = Ok (@Fin NumR w).

Lemma error_elm : forall e c T Y, s_outputs (e_net e) = c -> @elm_error NumR e (Arr2 c T) (Arr2 c Y) = error_ e T Y.
Proof. intros e c T Y <-. unfold elm_error, check_arr. rewrite Nat.eqb_refl. reflexivity. Qed.

Lemma xfin_inv : forall (r : res xnum) (w : R), (let? x := r in @xfin NumR x) = Ok w -> r = Ok (Fin w).
Proof. intros [[a| | |]|] w E; cbn in E; try discriminate. now injection E as ->. Qed.

Lemma keep_wide : forall ix (H : list (list R)), Forall (fun r => length r = length ix) (map (keep ix) H).
Proof. intros. apply Forall_forall. intros r Hr. apply in_map_iff in Hr as (h & <- & _). apply map_length. Qed.

Lemma sub_error_model : forall e L norm ss Hv Tv ix w, 0 < norm -> good L ss -> columns L ix ->
  sub_error e (spec_HH L norm ss) (spec_HT L (s_outputs (e_net e)) ss) Hv Tv ix = Ok w ->
  submodel_error e norm ss Hv Tv ix w.
Proof.
  intros e L norm ss Hv Tv ix w Hn Hg Hc E. unfold sub_error in E. apply xfin_inv in E.
  rewrite (sub_HH_spec L) in E by auto. rewrite (rsel_HT_spec L) in E by auto.
  pose proof (solve_corr_spec (e_net e) (length ix) norm _ Hn (good_keep L ix ss Hg)) as RS.
  exists (solve_corr (e_net e) (length ix) (spec_HH (length ix) norm (map (keep_sample ix) ss))
            (spec_HT (length ix) (s_outputs (e_net e)) (map (keep_sample ix) ss))).
  split; [exact RS|]. rewrite error_elm by auto. rewrite csel_keep in E.
  erewrite mmul_outputs in E; [exact E|apply RS|apply keep_wide].
Qed.

Lemma keep_all : forall L h, length h = L -> keep (seq 0 L) h = h.
Proof.
  intros L h <-. unfold keep. apply list_ext with (d := 0); [now rewrite map_length, seq_length|].
  intros i Hi. rewrite map_length, seq_length in Hi. rewrite nth_map_lt with (da := 0%nat) by (now rewrite seq_length).
  rewrite seq_nth by auto. reflexivity.
Qed.
Lemma keep_sample_all : forall L ss, good L ss -> map (keep_sample (seq 0 L)) ss = ss.
Proof.
  intros L ss H. transitivity (map (fun s : sample => s) ss); [|apply map_id]. apply map_ext_in. intros s Hs.
  destruct (H s Hs) as [_ HL]. unfold keep_sample. rewrite keep_all by auto. destruct s as [[w h] t]. reflexivity.
Qed.
Lemma columns_all : forall L, columns L (seq 0 L).
Proof. intros L. split; [apply seq_NoDup|]. intros i H. apply in_seq in H. lia. Qed.

Lemma full_error_model : forall e L norm ss Hv Tv w, 0 < norm -> good L ss -> getL (e_net e) = L ->
  Forall (fun h => length h = L) Hv ->
  full_error e (spec_HH L norm ss) (spec_HT L (s_outputs (e_net e)) ss) Hv Tv = Ok w ->
  submodel_error e norm ss Hv Tv (seq 0 L) w.
Proof.
  intros e L norm ss Hv Tv w Hn Hg HL HV E. unfold full_error in E. apply xfin_inv in E. rewrite HL in E.
  pose proof (solve_corr_spec (e_net e) L norm ss Hn Hg) as RS.
  eexists. split.
  - rewrite seq_length, keep_sample_all by auto. exact RS.
  - rewrite error_elm by auto.
    assert (map (keep (seq 0 L)) Hv = Hv) as -> by (transitivity (map (fun h : list R => h) Hv); [|apply map_id]; apply map_ext_in; intros h Hh; rewrite Forall_forall in HV; apply keep_all; auto).
    erewrite mmul_outputs in E; [exact E|apply RS|exact HV].
Qed.

(** the order of the kept features does not matter *)
Lemma keep_perm_rows : forall L ix, Permutation ix (seq 0 L) -> forall f : nat -> R, S_ (length ix) (fun a => f (nth a ix 0%nat)) = S_ L f.
Proof.
  intros L ix HP f. unfold sumn. transitivity (N_ (map f ix)); [apply f_equal; symmetry; apply map_by_index|]. apply nsum_perm. now apply Permutation_map.
Qed.

Lemma submodel_perm : forall e norm ss Hv Tv L ix w, 0 < norm -> good L ss -> Forall (fun h => length h = L) Hv ->
  Permutation ix (seq 0 L) ->
  submodel_error e norm ss Hv Tv (seq 0 L) w <-> submodel_error e norm ss Hv Tv ix w.
Proof.
  intros e norm ss Hv Tv L ix w Hn Hg HV HP.
  assert (length ix = L) as HL by (rewrite (Permutation_length HP); apply seq_length).
  assert (columns L ix) as Hc.
  { split; [eapply Permutation_NoDup; [apply Permutation_sym; exact HP|apply seq_NoDup]|]. intros i Hi.
    eapply Permutation_in in Hi; [|exact HP]. apply in_seq in Hi. lia. }
  set (c := s_outputs (e_net e)).
  assert (forall B, ridge_solution L c norm ss B -> ridge_solution (length ix) c norm (map (keep_sample ix) ss) (@rsel NumR B ix) /\
     outputs_of c (@rsel NumR B ix) (map (keep ix) Hv) = outputs_of c B Hv) as F.
  { intros B (SB & RB & _). split.
    - apply ridge_solution_of; auto; [now apply (good_keep L)| |].
      + split; [apply map_length|]. apply Forall_forall. intros r Hr. apply in_map_iff in Hr as (i & <- & Hi). apply SB. apply nth_In. destruct SB as [SB _]. cbn [num NumR] in *. rewrite SB. now apply Hc.
      + pose proof (proj1 (solves_msolves _ _ _ _ _) RB) as RB'. clear RB; rename RB' into RB. intros a k Ha Hk. rewrite <- (sub_HH_spec L), <- (rsel_HT_spec L) by auto.
        pose proof (columns_nth _ _ _ Hc Ha) as Ha'. specialize (RB _ k Ha' Hk).
        rewrite sub_HH_mk. transitivity (S_ (length ix) (fun b => (fun j => mR (spec_HH L norm ss) (nth a ix 0%nat) j * mR B j k) (nth b ix 0%nat))).
        * apply sum_ext. intros b Hb. rewrite mget_mk by auto. f_equal. unfold mget, rsel. rewrite nth_map_lt with (da := 0%nat) by auto. reflexivity.
        * etransitivity; [apply (keep_perm_rows L ix HP (fun j => mR (spec_HH L norm ss) (nth a ix 0%nat) j * mR B j k))|]. rewrite RB. unfold mget, rsel. rewrite nth_map_lt with (da := 0%nat) by auto. reflexivity.
    - unfold outputs_of. rewrite map_map. apply map_ext_in. intros h Hh. apply map_ext. intros k. unfold predict1.
      rewrite Forall_forall in HV. rewrite (HV h Hh). unfold keep. rewrite map_length, !Rsum_S.
      etransitivity; [|apply (keep_perm_rows L ix HP (fun i => entry h i * entry (nth i B []) k))].
      apply sum_ext. intros a Ha. change (map (entry h) ix) with (keep ix h). rewrite keep_nth by auto. unfold rsel. rewrite nth_map_lt with (da := 0%nat) by auto. reflexivity. }
  assert (map (keep (seq 0 L)) Hv = Hv) as EH by (transitivity (map (fun h : list R => h) Hv); [|apply map_id]; apply map_ext_in; intros h Hh; rewrite Forall_forall in HV; apply keep_all; auto).
  pose proof (solve_corr_spec (e_net e) L norm ss Hn Hg) as RS. fold c in RS. set (B0 := solve_corr _ _ _ _) in RS. clearbody B0.
  destruct (F B0 RS) as [F1 F2].
  unfold submodel_error. fold c. rewrite seq_length, keep_sample_all, EH by auto. split.
  - intros (B & RB & E). assert (B = B0) as -> by (apply RS; apply RB). exists (rsel B0 ix). split; auto. now rewrite F2.
  - intros (B & RB & E). assert (B = rsel B0 ix) as -> by (apply F1; apply RB). exists B0. split; auto. now rewrite <- F2.
Qed.
End Solve.
