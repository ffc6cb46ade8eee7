(** What train / solve return (reals). *)
From Coq Require Import Reals Lra Permutation.
From Verif Require Import Base Num Mat LinAlg Slfn Strs Elm Mrsr Search Mss MatFacts SplitProofs Spec ElmFacts RLin
  AccProofs TrainProofs RidgeProofs WfProofs TrainThms IncrThms.
Local Open Scope R_scope.
#[local] Existing Instance NumR.

Lemma Rsum_S : forall n f, Rsum (map f (seq 0 n)) = S_ n f.
Proof. intros. rewrite Rsum_N. reflexivity. Qed.

Lemma solves_msolves : forall n c A X Y, solves n c A X Y <-> msolves n c A X Y.
Proof.
  intros. unfold solves, msolves. split; intros H i k Hi Hk; specialize (H i k Hi Hk); rewrite Rsum_S in *; exact H.
Qed.

(** B is the ridge solution of the samples ss *)
Definition ridge_solution (L c : nat) (norm : R) (ss : list sample) (B : list (list R)) : Prop :=
  shape L c B /\ solves L c (spec_HH L norm ss) B (spec_HT L c ss) /\
  (forall B', shape L c B' -> solves L c (spec_HH L norm ss) B' (spec_HT L c ss) -> B' = B) /\
  (forall B', ridge_loss L c norm ss B <= ridge_loss L c norm ss B').

Lemma shape_is_mat : forall r c M, shape r c M <-> is_mat r c M.
Proof. intros. unfold shape, is_mat. rewrite Forall_forall. tauto. Qed.

Lemma ridge_solution_of : forall L c norm ss B, 0 < norm -> good L ss -> is_mat L c B ->
  msolves L c (spec_HH L norm ss) B (spec_HT L c ss) -> ridge_solution L c norm ss B.
Proof.
  intros L c norm ss B Hn Hg HB HS. split; [now apply shape_is_mat|]. split; [now apply solves_msolves|].
  split.
  - intros B' H1 H2. assert (nonneg ss) as Hp by (intros s Hin; apply (Hg s Hin)).
    exact (ridge_unique L c norm ss B' B Hn Hp (proj1 (shape_is_mat _ _ _) H1) HB (proj1 (solves_msolves _ _ _ _ _) H2) HS).
  - intros B'. now apply ridge_optimal.
Qed.

Section Solve.
Context {SG : Sing}.

Lemma solve_acc : forall s ss, Acc s ss -> s_HH s <> None -> 0 < s_norm s -> good (getL s) ss ->
  exists B, solve s = (with_B s (Some B), Ok tt) /\ ridge_solution (getL s) (s_outputs s) (s_norm s) ss B.
Proof.
  intros s ss HA Hne Hn Hg. unfold Acc in HA. unfold solve.
  destruct (s_HH s) as [HH|]; [|congruence]. destruct (s_HT s) as [HT|]; [|contradiction].
  destruct HA as [Hh ->]. eexists. split; [reflexivity|].
  destruct (solve_corr_PD s (getL s) HH (spec_HT (getL s) (s_outputs s) ss) (spec_HH (getL s) (s_norm s) ss) Hh) as [H1 H2].
  - intros. now apply spec_HH_sym.
  - apply PD_spec; auto. intros x Hx. apply (Hg x Hx).
  - rewrite spec_HT_mk. apply is_mat_mk.
  - now apply ridge_solution_of.
Qed.

Lemma good_samples : forall L ws H T, (forall w, In w ws -> 0 <= w) -> (forall h, In h H -> length h = L) ->
  good L (samples ws H T).
Proof.
  intros L. induction ws as [|w ws IH]; intros [|h H] [|t T] Hw Hh s Hin; cbn in Hin; try contradiction.
  destruct Hin as [<-|Hin].
  - split; [apply Hw; left; auto|apply Hh; left; auto].
  - apply (IH H T); auto; intros; [apply Hw|apply Hh]; right; auto.
Qed.

Context {BR : Brent} {SH : Shuffle}.

Lemma parse_args_ok : forall e args kw e1, parse_args e args kw = (e1, Ok tt) -> e_net e1 = reset (e_net e).
Proof.
  intros e args kw e1 E. unfold parse_args in E. destruct (s_neurons (e_net e)); [discriminate|].
  destruct (negb _); [discriminate|]. destruct (negb _); [discriminate|].
  match type of E with context [parse_loop ?e0 ?k ?a] => pose proof (parse_loop_net k a e0) as EN; destruct (parse_loop e0 k a) as [e2 [u|x]] end; [|discriminate].
  cbn [fst] in EN. destruct (kw_batch kw); injection E as <-; exact EN.
Qed.

Lemma train_core : forall e X T args kw e1 g,
  wf_net (e_net e) -> usable (e_net e) -> 0 < s_norm (e_net e) ->
  parse_args e args kw = (e1, Ok tt) ->
  smem "V" args = false -> smem "CV" args = false -> smem "LOO" args = false ->
  (0 < e_batch e1)%Z -> X <> [] -> length X = length T ->
  wide (s_inputs (e_net e)) X -> wide (s_outputs (e_net e)) T -> weights_ok e1 g T ->
  exists e' B, train e (Arr2 (s_inputs (e_net e)) X) (Arr2 (s_outputs (e_net e)) T) args kw = (e', Ok None) /\
    s_B (e_net e') = Some B /\ s_neurons (e_net e') = s_neurons (e_net e) /\
    ridge_solution (nneurons (s_neurons (e_net e))) (s_outputs (e_net e)) (s_norm (e_net e))
                   (samples (map g T) (map (hrow (s_neurons (e_net e))) X) T) B.
Proof.
  intros e X T args kw e1 g HW HU Hn HP HV HCV HLOO Hb HX HL WX WT Hg.
  pose proof (parse_args_ok _ _ _ _ HP) as EN.
  unfold train, checkdata, check_arr. rewrite !Nat.eqb_refl. cbn [rbind]. cbn [num NumR] in *. rewrite HL, Nat.eqb_refl.
  rewrite HP, HV, HCV, HLOO. unfold train_basic.
  assert (Acc (e_net e1) []) as HA. { rewrite EN. reflexivity. }
  assert (usable (e_net e1)) as HU1 by (rewrite EN; exact HU).
  destruct (add_data_acc e1 g X T [] HA HU1 Hb HX HL) as (s' & E & A & Es & N); auto; try (rewrite EN; assumption).
  rewrite E. cbn [app] in A. rewrite EN in A, Es. cbn [s_neurons reset] in A.
  destruct (solve_acc s' _ A N) as (B & EB & RS).
  { rewrite Es. exact Hn. }
  { apply good_samples.
    - intros w Hin. apply in_map_iff in Hin. destruct Hin as (t & <- & Hin). apply Hg; auto.
    - intros h Hin. apply in_map_iff in Hin. destruct Hin as (x & <- & Hin).
      rewrite Es. exact (hrow_length (s_inputs (e_net e)) (s_neurons (e_net e)) x (wf_groups _ HW)). }
  cbn [e_net with_net]. rewrite EB. unfold done. cbn [fst snd].
  eexists _, B. split; [reflexivity|]. cbn. split; [reflexivity|]. rewrite Es in RS |- *. split; [reflexivity|]. exact RS.
Qed.

(** C08 *)
Theorem train_ridge : forall e X T H args kw e1,
  wf_net (e_net e) -> 0 < s_norm (e_net e) ->
  parse_args e args kw = (e1, Ok tt) -> is_wc e1 = false ->
  smem "V" args = false -> smem "CV" args = false -> smem "LOO" args = false ->
  (0 < e_batch e1)%Z -> X <> [] -> length X = length T -> wide (s_outputs (e_net e)) T ->
  elm_project e (Arr2 (s_inputs (e_net e)) X) = Ok H ->
  exists e' B, train e (Arr2 (s_inputs (e_net e)) X) (Arr2 (s_outputs (e_net e)) T) args kw = (e', Ok None) /\
    s_B (e_net e') = Some B /\ s_neurons (e_net e') = s_neurons (e_net e) /\
    ridge_solution (nneurons (s_neurons (e_net e))) (s_outputs (e_net e)) (s_norm (e_net e)) (plain H T) B.
Proof.
  intros e X T H args kw e1 HW Hn HP Hw HV HCV HLOO Hb HX HL WT HPr.
  destruct (elm_project_inv _ _ _ HPr) as (HU & WX & ->).
  rewrite <- samples_plain by (rewrite map_length; auto).
  eapply train_core; eauto. now apply weights_plain.
Qed.

Theorem train_ridge_weighted : forall e X T H args kw e1 ws ks,
  wf_net (e_net e) -> 0 < s_norm (e_net e) ->
  parse_args e args kw = (e1, Ok tt) -> is_wc e1 = true -> e_wc e1 = Some (map Fin ws) ->
  length ws = s_outputs (e_net e) -> (forall w, In w ws -> 0 <= w) ->
  smem "V" args = false -> smem "CV" args = false -> smem "LOO" args = false ->
  (0 < e_batch e1)%Z -> X <> [] -> length X = length T -> Forall2 (has_class (s_outputs (e_net e))) T ks ->
  elm_project e (Arr2 (s_inputs (e_net e)) X) = Ok H ->
  exists e' B, train e (Arr2 (s_inputs (e_net e)) X) (Arr2 (s_outputs (e_net e)) T) args kw = (e', Ok None) /\
    s_B (e_net e') = Some B /\ s_neurons (e_net e') = s_neurons (e_net e) /\
    ridge_solution (nneurons (s_neurons (e_net e))) (s_outputs (e_net e)) (s_norm (e_net e))
                   (samples (map (fun k => nth k ws 0) ks) H T) B.
Proof.
  intros e X T H args kw e1 ws ks HW Hn HP Hw Ew Lw Pw HV HCV HLOO Hb HX HL HT HPr.
  destruct (elm_project_inv _ _ _ HPr) as (HU & WX & ->).
  rewrite <- (gw_classes _ _ _ _ HT). pose proof (parse_args_ok _ _ _ _ HP) as EN.
  eapply train_core; eauto; [eapply classes_wide; eauto|].
  apply weights_given; auto; rewrite EN; cbn; auto.
  intros t Hin. destruct (classes_in _ _ _ _ HT Hin) as (k & _ & Hk). eauto.
Qed.

(** ** C09: least squares *)
Lemma residual_S : forall n c A X Y, residual n c A X Y =
  S_ c (fun k => S_ n (fun i => (S_ n (fun j => mR A i j * mR X j k) - mR Y i k) ^ 2)).
Proof.
  intros. unfold residual. rewrite Rsum_S. apply sum_ext. intros k _. rewrite Rsum_S. apply sum_ext. intros i _.
  rewrite Rsum_S. reflexivity.
Qed.

(** normal equations give a least-squares solution *)
Lemma normal_ls : forall n c A X Y,
  (forall i k, (i < n)%nat -> (k < c)%nat ->
     S_ n (fun p => mR A p i * (S_ n (fun j => mR A p j * mR X j k) - mR Y p k)) = 0) ->
  least_squares n c A X Y.
Proof.
  intros n c A X Y H X'. rewrite !residual_S. apply sum_le. intros k Hk.
  set (r := fun i => S_ n (fun j => mR A i j * mR X j k) - mR Y i k).
  set (d := fun i => S_ n (fun j => mR A i j * (mR X' j k - mR X j k))).
  assert (S_ n (fun i => (S_ n (fun j => mR A i j * mR X' j k) - mR Y i k) ^ 2) =
          S_ n (fun i => r i ^ 2) + 2 * S_ n (fun i => r i * d i) + S_ n (fun i => d i ^ 2)) as ->.
  { rewrite <- sum_scal, <- !sum_add. apply sum_ext. intros i Hi.
    assert (S_ n (fun j => mR A i j * mR X' j k) - mR Y i k = r i + d i) as ->; [|rring].
    unfold r, d. assert (S_ n (fun j => mR A i j * mR X' j k) =
      S_ n (fun j => mR A i j * mR X j k) + S_ n (fun j => mR A i j * (mR X' j k - mR X j k))) as ->; [|rring].
    rewrite <- sum_add. apply sum_ext. intros; rring. }
  assert (S_ n (fun i => r i * d i) = 0) as ->.
  { unfold d. rewrite (sum_ext n _ (fun i => S_ n (fun j => (mR X' j k - mR X j k) * (mR A i j * r i)))).
    2:{ intros i Hi. rewrite <- sum_scal. apply sum_ext. intros; rring. }
    rewrite sum_swap. apply sum_zero. intros j Hj. rewrite sum_scal.
    etransitivity; [apply f_equal; exact (H j k Hj Hk)|rring]. }
  assert (0 <= S_ n (fun i => d i ^ 2)).
  { apply sum_nonneg. intros. rn. apply pow2_ge_0. }
  change (S_ n (fun i => r i ^ 2) <= S_ n (fun i => r i ^ 2) + 2 * 0 + S_ n (fun i => d i ^ 2)). rlra.
Qed.

Lemma msolves_ls : forall n c A X Y, msolves n c A X Y -> least_squares n c A X Y.
Proof.
  intros n c A X Y H. apply normal_ls. intros i k Hi Hk. apply sum_zero. intros p Hp. rewrite (H p k Hp Hk). rring.
Qed.

Lemma lstsq_ls : forall n c A Y, is_mat n n A -> is_mat n c Y ->
  least_squares n c A (lstsq_sing A Y) Y -> least_squares n c A (lstsq n c A Y) Y.
Proof.
  intros n c A Y HA HY Ho. unfold lstsq. destruct (posv n c (tdot n n A A) (tdot n c A Y)) as [X|] eqn:E; auto.
  destruct (posv_sound _ _ _ _ _ E) as [HX HS]. apply normal_ls. intros i k Hi Hk.
  assert (S_ n (fun p => mR A p i * (S_ n (fun j => mR A p j * mR X j k) - mR Y p k)) =
    S_ n (fun j => U (tdot n n A A) i j * mR X j k) - mR (tdot n c A Y) i k) as ->.
  { destruct HA as [HA _]. destruct HY as [HY _].
    rewrite (tdot_sum n n c A Y i k HA HY Hi Hk).
    rewrite (sum_ext n (fun j => U (tdot n n A A) i j * mR X j k) (fun j => S_ n (fun p => mR A p i * mR A p j * mR X j k))).
    - rewrite sum_swap. rewrite <- sum_sub. apply sum_ext. intros p Hp.
      rewrite (sum_ext n (fun j => mR A p i * mR A p j * mR X j k) (fun j => mR A p i * (mR A p j * mR X j k))) by (intros; rring).
      rewrite sum_scal. rring.
    - intros j Hj. rewrite (U_tdot n A i j HA Hi Hj). rewrite <- sum_scal_r. apply sum_ext. intros; rring. }
  rewrite HS by auto. rring.
Qed.

Lemma fallback_sym : forall n HH M, is_mat n n M -> holds Fast n HH M ->
  (forall i j, (i < n)%nat -> (j < n)%nat -> mR M i j = mR M j i) -> add_triu1_T n HH = M.
Proof.
  intros n HH M HM [Hm Hh] Hs. apply mat_ext with n n; auto; [apply is_mat_mk|]. intros i j Hi Hj.
  unfold add_triu1_T. rewrite mget_mk by auto. rewrite !Hh by auto. cbn [full_kind]. rewrite !orb_false_r.
  destruct (Nat.leb_spec i j); destruct (Nat.ltb_spec j i); try lia; try rlra.
  destruct (Nat.leb_spec j i); [|lia]. rewrite (Hs i j Hi Hj). rlra.
Qed.
Lemma triu_holds : forall k n HH M, is_mat n n M -> holds k n HH M ->
  (forall i j, (i < n)%nat -> (j < n)%nat -> mR M i j = mR M j i) -> triu_sym n HH = M.
Proof.
  intros kd n HH M HM [Hm Hh] Hs. apply mat_ext with n n; auto; [apply is_mat_mk|]. intros i j Hi Hj.
  unfold triu_sym. rewrite mget_mk by auto. rewrite !Hh by auto.
  destruct (Nat.leb_spec i j); destruct (Nat.ltb_spec j i); try lia.
  - cbn [orb]. rlra.
  - destruct (Nat.leb_spec j i); [|lia]. cbn [orb]. rewrite (Hs i j Hi Hj). rlra.
Qed.

(** C09: the default (and the GPU) solver after any accumulated history *)
Theorem solve_least_squares : forall s hist s',
  no_data s -> s_kind s <> Basic -> hist <> [] -> (forall p, In p hist -> wide (s_outputs s) (snd (fst p))) ->
  run_all batch_call s hist = (s', Ok tt) ->
  exists HH HT B, get_corr s' = Ok (Some (HH, HT)) /\ solve s' = (with_B s' (Some B), Ok tt) /\
    (least_squares (getL s) (s_outputs s) HH (lstsq_sing HH HT) HT ->
     least_squares (getL s) (s_outputs s) HH B HT).
Proof.
  intros s hist s' Hf Hk Hne HT HR.
  assert (same_net s s) as SS0 by (repeat split).
  destruct (history_acc hist s s s' [] SS0 (no_data_acc _ Hf) (no_data_acc _ Hf) HT HR) as (s2 & ss & _ & A & _ & Q & _ & N & _ & _ & _ & _ & K').
  destruct (N Hne) as [N1 _]. clear N. destruct Q as (_ & O & M & _ & L).
  assert (getL s' = getL s) as EL by (unfold getL; now rewrite <- L).
  pose proof (get_corr_acc s' ss A N1) as EC.
  unfold Acc in A. unfold solve. destruct (s_HH s') as [HH|]; [|congruence]. destruct (s_HT s') as [HT'|]; [|contradiction].
  destruct A as [Hh ->]. eexists _, _, _. split; [exact EC|]. split; [reflexivity|]. rewrite EL, <- O in *.
  set (n := getL s) in *. set (c := s_outputs s) in *. set (MM := spec_HH n (s_norm s') ss) in *. set (RR := spec_HT n c ss) in *.
  assert (is_mat n n MM) as HM by (unfold MM; rewrite spec_HH_mk; apply is_mat_mk).
  assert (is_mat n c RR) as HRR by (unfold RR; rewrite spec_HT_mk; apply is_mat_mk).
  assert (forall i j, (i < n)%nat -> (j < n)%nat -> mR MM i j = mR MM j i) as Hs by (intros; now apply spec_HH_sym).
  intros Ho. unfold solve_corr. rewrite <- O. fold c. rewrite K' in *.
  assert (forall X, posv n c HH RR = Some X -> least_squares n c MM X RR) as HP.
  { intros X E. destruct (posv_sound _ _ _ _ _ E) as [HX HS]. apply msolves_ls. intros i k Hi Hk'.
    rewrite <- (HS i k Hi Hk'). apply sum_ext. intros j Hj. now rewrite (U_holds _ _ _ _ Hh Hs) by auto. }
  destruct (s_kind s) eqn:Ek; [congruence| | |]; destruct (posv n c HH RR) as [X|] eqn:E; auto.
  - rewrite (fallback_sym n HH MM HM Hh Hs). now apply lstsq_ls.
  - rewrite (triu_holds _ n HH MM HM Hh Hs). now apply lstsq_ls.
  - rewrite (triu_holds _ n HH MM HM Hh Hs). now apply lstsq_ls.
Qed.

(** GPU solvers: also for a full symmetric matrix passed to solve_corr *)
Theorem gpu_solve_corr_least_squares : forall s n HH HT,
  s_kind s = Gpu64 \/ s_kind s = Gpu32 -> is_mat n n HH -> is_mat n (s_outputs s) HT ->
  (forall i j, (i < n)%nat -> (j < n)%nat -> entry (nth i HH []) j = entry (nth j HH []) i) ->
  least_squares n (s_outputs s) HH (lstsq_sing HH HT) HT ->
  least_squares n (s_outputs s) HH (solve_corr s n HH HT) HT.
Proof.
  intros s n HH HT Hk H1 H2 Hs Ho. assert (holds Gpu64 n HH HH) as Hh.
  { split; auto. intros. cbn [full_kind]. now rewrite orb_true_r. }
  assert (forall i j, (i < n)%nat -> (j < n)%nat -> mR HH i j = mR HH j i) as Hs' by exact Hs.
  assert (forall X, posv n (s_outputs s) HH HT = Some X -> least_squares n (s_outputs s) HH X HT) as HP.
  { intros X E. destruct (posv_sound _ _ _ _ _ E) as [HX HS]. apply msolves_ls. intros i k Hi Hk'.
    rewrite <- (HS i k Hi Hk'). apply sum_ext. intros j Hj. now rewrite (U_holds _ _ _ _ Hh Hs') by auto. }
  unfold solve_corr. destruct Hk as [-> | ->]; destruct (posv n (s_outputs s) HH HT) as [X|] eqn:E; auto;
    rewrite (triu_holds _ n HH HH H1 Hh Hs'); now apply lstsq_ls.
Qed.
End Solve.
