(** Consequences: the value of 'LOO' and the errors on the training samples; it is not a leave-one-out rate (C99; reals). *)
From Coq Require Import Reals Lra Lia Permutation.
From Verif Require Import Base Num Mat LinAlg Slfn Strs Elm Mrsr Search Mss MatFacts SplitProofs ElmFacts RLin
  AccProofs TrainProofs RidgeProofs WfProofs TrainThms IncrThms SolveThms NeuronThms ErrThms SearchThms SelectThms RankThms SubThms MssThms LooThms SelThms FoldThms CvThms WorksThms Exact7 LooSpec Spec.
Local Open Scope R_scope.
#[local] Existing Instance NumR.

Lemma Rsum_le : forall {A} (f g : A -> R) l, (forall a, In a l -> f a <= g a) -> Rsum (map f l) <= Rsum (map g l).
Proof. induction l as [|a l IH]; intros H; cbn [map]; [lra|]. rewrite !Rsum_cons. assert (f a <= g a) by (apply H; left; auto). specialize (IH ltac:(intros; apply H; right; auto)). lra. Qed.
Lemma Rsum_zero_iff : forall {A} (f : A -> R) l, (forall a, In a l -> 0 <= f a) -> (Rsum (map f l) = 0 <-> forall a, In a l -> f a = 0).
Proof.
  induction l as [|a l IH]; intros H; [split; [intros _ a []|reflexivity]|]. cbn [map]. rewrite Rsum_cons.
  assert (0 <= f a) by (apply H; left; auto). assert (forall b, In b l -> 0 <= f b) as H' by (intros; apply H; right; auto). specialize (IH H').
  assert (0 <= Rsum (map f l)) as Q. { clear - H'. induction l as [|b l IH]; cbn [map]; [rewrite Rsum_nil; lra|]. rewrite Rsum_cons. assert (0 <= f b) by (apply H'; left; auto). assert (0 <= Rsum (map f l)) by (apply IH; intros; apply H'; right; auto). lra. }
  split.
  - intros E b [<-|Hb]; [lra|]. apply IH; [lra|exact Hb].
  - intros E. rewrite (E a) by (left; auto). rewrite (proj2 IH) by (intros; apply E; right; auto). lra.
Qed.

Lemma sample_err_nn : forall cls c t y, 0 <= sample_err cls c t y.
Proof.
  assert (forall c t y, 0 <= sq_err c t y) as G.
  { intros c t y. unfold sq_err. apply Rmult_le_pos.
    - induction (seq 0 c) as [|a l IH]; cbn [map]; [rewrite Rsum_nil; lra|]. rewrite Rsum_cons. assert (0 <= (entry y a - entry t a) ^ 2) by apply pow2_ge_0. lra.
    - destruct c; [cbn; rewrite Rinv_0; lra|]. left. apply Rinv_0_lt_compat, lt_0_INR. lia. }
  assert (forall c t y, 0 <= label_err c t y) as G2.
  { intros c t y. unfold label_err. apply Rmult_le_pos; [apply pos_INR|]. destruct c; [cbn; rewrite Rinv_0; lra|]. left. apply Rinv_0_lt_compat, lt_0_INR. lia. }
  intros [s|] c t y; cbn [sample_err]; [|apply G].
  assert (0 <= cls_err t y) as G3 by (unfold cls_err; destruct (_ =? _)%nat; lra).
  unfold sample_err. repeat (match goal with |- 0 <= match ?s with _ => _ end => destruct s | |- 0 <= (if ?s then _ else _) => destruct s | |- 0 <= (match (match ?s with _ => _ end) with _ => _ end) => destruct s end); auto.
Qed.

Lemma press_term : forall a r, 0 <= a -> 0 < r <= 1 -> a <= a / r ^ 2 /\ (a / r ^ 2 = 0 <-> a = 0).
Proof.
  intros a r Ha Hr. assert (0 < r ^ 2) by (apply pow_lt; lra). assert (r ^ 2 <= 1) by nra.
  split.
  - apply (Rmult_le_reg_r (r ^ 2)); [lra|]. unfold Rdiv. rewrite Rmult_assoc, Rinv_l by lra. nra.
  - split; [|intros ->; unfold Rdiv; lra]. intros E. unfold Rdiv in E. apply Rmult_integral in E as [E|E]; [exact E|]. exfalso. apply (Rinv_neq_0_compat (r ^ 2)); lra.
Qed.

Theorem measure_bounds : forall cls wcs n c norm ss H T w B, ErrThms.plain cls -> length H = length T -> T <> [] ->
  loo_measure cls wcs n c norm ss H T w -> ridge_solution n c norm ss B ->
  let Y := outputs_of c B H in
  mean (map (fun i => sample_err cls c (nth i T []) (nth i Y [])) (seq 0 (length T))) <= w /\
  (w = 0 <-> forall i, (i < length T)%nat -> sample_err cls c (nth i T []) (nth i Y []) = 0).
Proof.
  intros cls wcs n c norm ss H T w B Hp HL HN (B' & qs & HB' & Lq & Hq & Ew) HB Y.
  assert (B' = B) as ->. { destruct HB as (S1 & S2 & U & _), HB' as (S1' & S2' & _). now apply U. }
  cbv zeta in Ew. assert (w = press cls c T Y (map (fun q => 1 - q) qs)) as E by (rewrite Ew; destruct Hp as [->|[->| ->]]; reflexivity). clear Ew. subst w.
  assert (forall i, In i (seq 0 (length T)) -> let r := nth i (map (fun q => 1 - q) qs) 0 in 0 < r <= 1) as Hr.
  { intros i Hi. apply in_seq in Hi. cbv zeta. rewrite nth_map_lt with (da := 0) by lia. destruct (Hq i ltac:(lia)) as [_ Q]. rlra. }
  assert (0 < / INR (length T)) as Hi by (apply Rinv_0_lt_compat, lt_0_INR; destruct T; [congruence|cbn; lia]).
  unfold press, mean. rewrite !map_length, seq_length. split.
  - apply Rmult_le_compat_r; [lra|]. apply Rsum_le. intros i Hin. apply press_term; [apply sample_err_nn|apply (Hr i Hin)].
  - assert (forall a, a / INR (length T) = 0 <-> a = 0) as Hz. { intros a. unfold Rdiv. split; [intros Q; apply Rmult_integral in Q as [Q|Q]; lra|intros ->; lra]. }
    rewrite Hz. rewrite Rsum_zero_iff.
    + split; intros G i Hin.
      * assert (In i (seq 0 (length T))) as Hs by (apply in_seq; lia). apply (press_term _ (nth i (map (fun q => 1 - q) qs) 0)); [apply sample_err_nn|apply (Hr i Hs)|apply (G i Hs)].
      * apply (press_term _ (nth i (map (fun q => 1 - q) qs) 0)); [apply sample_err_nn|apply (Hr i Hin)|apply G; apply in_seq in Hin; lia].
    + intros i Hin. pose proof (press_term (sample_err cls c (nth i T []) (nth i Y [])) (nth i (map (fun q => 1 - q) qs) 0) (sample_err_nn _ _ _ _) (Hr i Hin)) as [Q _]. pose proof (sample_err_nn cls c (nth i T []) (nth i Y [])). lra.
Qed.

(** the fraction of samples (or labels) predicted wrongly by the ridge solution of the other samples *)
Definition loo_rate (cls : option string) (n c : nat) (norm : R) (H T : list (list R)) (w : R) : Prop :=
  exists Bs : nat -> list (list R),
    (forall i, (i < length H)%nat -> ridge_solution n c norm (Spec.plain (without i H) (without i T)) (Bs i)) /\
    w = mean (map (fun i => sample_err cls c (nth i T []) (map (predict1 (Bs i) (nth i H [])) (seq 0 c))) (seq 0 (length H))).

Lemma class_of2 : forall a b, class_of [a; b] = if Rle_dec b a then 0%nat else 1%nat.
Proof.
  intros a b. unfold class_of. cbn [length seq find forallb]. unfold entry. cbn [nth].
  destruct (Rle_dec a a) as [_|C]; [|lra]. destruct (Rle_dec b b) as [_|C]; [|lra]. destruct (Rle_dec b a); [reflexivity|]. destruct (Rle_dec a b); [reflexivity|lra].
Qed.

Lemma solution11 : forall H (T : list (list R)) b1 b2, Forall (fun h : list R => length h = 1%nat) H ->
  let ss := Spec.plain H T in
  entry (nth 0 (spec_HH 1 1 ss) []) 0 * b1 = entry (nth 0 (spec_HT 1 2 ss) []) 0 ->
  entry (nth 0 (spec_HH 1 1 ss) []) 0 * b2 = entry (nth 0 (spec_HT 1 2 ss) []) 1 ->
  ridge_solution 1 2 1 ss [[b1; b2]].
Proof.
  intros H T b1 b2 WH ss E1 E2. apply ridge_solution_of.
  - lra.
  - now apply good_plain.
  - split; [reflexivity|repeat constructor].
  - intros i k Hi Hk. assert (i = 0)%nat as -> by lia. destruct k as [|[|k]]; [| |lia]; cbn [S_]; unfold mR, mget.
    + etransitivity; [|exact E1]. unfold entry. cbn. rring.
    + etransitivity; [|exact E2]. unfold entry. cbn. rring.
Qed.

(** two samples; the second is classified wrongly by the model of the first *)
Definition loo_H : list (list R) := [[0]; [1]].
Definition loo_T : list (list R) := [[1; 0]; [0; 1]].
Lemma loo_witness : ridge_solution 1 2 1 (Spec.plain loo_H loo_T) [[0; 1/2]] /\ loo_rate (Some "c"%string) 1 2 1 loo_H loo_T (1/2).
Proof.
  split.
  - apply solution11; [repeat constructor| |]; unfold entry; cbn; rlra.
  - exists (fun i => match i with 0%nat => [[0; 1/2]] | _ => [[0; 0]] end). split.
    + intros [|[|i]] Hi; [| |cbn in Hi; lia]; (apply solution11; [repeat constructor| |]; unfold entry; cbn; rlra).
    + cbn [length loo_H seq map nth loo_T sample_err]. unfold cls_err, predict1. cbn [length seq map nth]. rewrite !class_of2. unfold entry. cbn [nth Rsum fold_right].
      unfold mean. repeat match goal with |- context [Rle_dec ?a ?b] => destruct (Rle_dec a b); try (exfalso; unfold Rsum, nsum in *; cbn in *; lra) end; unfold Rsum, nsum; cbn; lra.
Qed.

Section Wit.
Context {SG : @Sing NumR}.
Theorem loo_rate_refuted : forall e, e_class e = Some "c"%string -> s_outputs (e_net e) = 2%nat ->
  let ss := Spec.plain loo_H loo_T in
  loo_error e 1 loo_H (spec_HH 1 1 ss) (spec_HT 1 2 ss) loo_T = Ok 0 /\ loo_rate (Some "c"%string) 1 2 1 loo_H loo_T (1/2).
Proof.
  intros e Hc Ho ss. destruct loo_witness as [HB HR]. split; [|exact HR].
  destruct (loo_exact e 1 1 ss [] loo_H loo_T) as (w & Ew & Hm).
  - left. rewrite Hc. right. left. reflexivity.
  - rewrite Ho. lia.
  - lra.
  - apply good_plain. repeat constructor.
  - intros i Hi. exists 1, (nth i loo_T []). split; [|lra]. destruct i as [|[|i]]; cbn in *; auto. lia.
  - repeat constructor.
  - rewrite Ho. repeat constructor.
  - reflexivity.
  - discriminate.
  - rewrite Ho in Ew, Hm. rewrite Hc in Hm. rewrite Ew. f_equal.
    apply (measure_bounds (Some "c"%string) [] 1 2 1 ss loo_H loo_T w [[0; 1/2]]); auto.
    + right. left. reflexivity.
    + discriminate.
    + intros [|[|i]] Hi; [| |cbn in Hi; lia]; cbn [sample_err loo_T loo_H outputs_of map nth seq]; unfold cls_err, predict1; rewrite !class_of2; cbn [length seq map nth]; unfold entry; cbn [nth];
      repeat match goal with |- context [Rle_dec ?a ?b] => destruct (Rle_dec a b); try (exfalso; unfold Rsum, nsum in *; cbn in *; lra) end; reflexivity.
Qed.
End Wit.

From Verif Require Import Demo SelectDemo.
Definition loo_model : @elm NumR := @lin_model NumR 1 2 "" None 1000 None 1 1 [[1]] [0].
Lemma loo_model_eq : loo_model = mkElm (mkSlfn Fast 1 2 1 [mkNeuron 1 Lin [[1]] [0]] (Some 1%nat) None None None) 1000 true None None None false None.
Proof. reflexivity. Qed.
Lemma loo_model_project : elm_project loo_model (Arr2 1 loo_H) = Ok loo_H.
Proof.
  rewrite loo_model_eq. unfold elm_project, check_arr. cbn [e_net s_inputs Nat.eqb rbind]. rewrite project_ok.
  - unfold loo_H, hrow. cbn. apply f_equal. repeat f_equal; rring.
  - split; [discriminate|reflexivity].
  - repeat constructor.
Qed.
Section Run.
Context {SG : @Sing NumR} {BR : @Brent NumR} {SH : Shuffle}.
Theorem loo_not_rate : shuffles -> exists e', train loo_model (Arr2 1 loo_H) (Arr2 2 loo_T) ["LOO"; "C"]%string no_kw = (e', Ok None) /\
  elm_project loo_model (Arr2 1 loo_H) = Ok loo_H /\ e_class e' = Some "c"%string /\
  loo_value e' 1 (Spec.plain loo_H loo_T) loo_H loo_T [0%nat] 0 /\
  loo_rate (Some "c"%string) 1 2 1 loo_H loo_T (1/2).
Proof.
  intros shuf.
  assert (wf_net (e_net loo_model)) as HW by (rewrite loo_model_eq; constructor; cbn; try exact I; repeat constructor; cbn; auto; intuition discriminate).
  assert (0 < s_norm (e_net loo_model)) as Hn by (rewrite loo_model_eq; exact Rlt_0_1).
  assert (exists e1, parse_args loo_model ["LOO"; "C"]%string no_kw = (e1, Ok tt) /\ e_class e1 = Some "c"%string /\ (e_op e1 = false /\ e_batch e1 = 1000%Z /\ ranked_size e1 1 = 1%nat)) as (e1 & EP & EC & EO & EB & ER).
  { apply run_ok; [reflexivity|]. split; [reflexivity|]. repeat split. }
  assert (wide 2 loo_T) as WT by repeat constructor.
  destruct (train_loo_works loo_model loo_H loo_T _ _ e1 loo_H shuf HW Hn (le_S 1 1 (le_n 1)) EP eq_refl eq_refl eq_refl) as (e' & E); auto.
  { rewrite EC. right. left. reflexivity. } { left. exact EO. } { change (nneurons (s_neurons (e_net loo_model))) with 1%nat. rewrite ER. lia. } { rewrite EB. reflexivity. } { discriminate. } { exact loo_model_project. }
  exists e'. split; [exact E|]. split; [exact loo_model_project|].
  destruct (train_loo_selects loo_model loo_H loo_T _ _ e1 loo_H (repeat 1 2) e' None shuf HW Hn EP eq_refl eq_refl eq_refl) as (_ & rank & L & full & k & _ & _ & _ & _ & T1 & T2 & T3); auto.
  { rewrite EB. reflexivity. } { discriminate. } { apply (W_plain e1 loo_T). unfold is_wc. rewrite EC. reflexivity. } { exact loo_model_project. }
  assert (e_class e' = Some "c"%string) as Ec. { rewrite T1. unfold fill_wc, is_wc. rewrite EC. exact EC. }
  assert (s_outputs (e_net e') = 2%nat) as Eo. { rewrite T3, fill_wc_net, (parse_args_ok _ _ _ _ EP). reflexivity. }
  split; [exact Ec|]. destruct (loo_rate_refuted e' Ec Eo) as [Q1 Q2]. split; [|exact Q2].
  unfold loo_value. rewrite Eo. change (map (keep_sample [0%nat]) (Spec.plain loo_H loo_T)) with (Spec.plain loo_H loo_T). exact Q1.
Qed.
End Run.
