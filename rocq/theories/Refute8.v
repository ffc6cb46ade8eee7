(** Counterexamples for the data-file tools, validation_corr with weighted classes,
    rbf_param and the GPU kernel (C42, C43, C47, C49, C52, C56). *)
From Coq Require Import Reals Lra QArith Permutation.
From Verif Require Import Base Num Mat LinAlg Slfn Strs Elm Hpelm Hdf5 Spec Rbf RbfThms Demo.
Local Open Scope nat_scope.

Section Rationals.
#[local] Existing Instance NumQ.
Context {SG : @Sing NumQ}.
Local Open Scope Q_scope.

(** C42: the standard deviations as a Python list: the first one is replaced by 1 *)
Definition list_file : @h5node NumQ := @mkNode NumQ 2 [[6; 9]] 1 (@ANone NumQ) (@ANone NumQ).
Lemma normalize_list : exists m s f', length m = h_cols list_file /\ length s = h_cols list_file /\
  normalize_hdf5 (Ok tt) list_file (Some (PArr m)) (Some (PList s)) None = (Ok (m, [1; 3]), f', Some [1; 3]) /\
  m = [0; 0] /\ s = [2; 3] /\ h_rows f' = [[6; 3]].
Proof.
  exists [0; 0], [2; 3], (@mkNode NumQ 2 [[6; 3]] 1 (@AVec NumQ [0; 0]) (@AVec NumQ [2; 3])).
  split; [vm_compute; reflexivity|]. split; [vm_compute; reflexivity|]. split; [vm_compute; reflexivity|].
  split; [reflexivity|]. split; reflexivity.
Qed.

(** C43: nothing is applied *)
Definition raw_file : @h5node NumQ := @mkNode NumQ 1 [[0]; [2]] 1 (@ANone NumQ) (@ANone NumQ).
Lemma normalize_not_applied : exists f',
  normalize_hdf5 (Ok tt) raw_file None None None = (Ok ([1], [1]), f', None) /\ h_rows f' = [[0]; [2]] /\
  normalize_hdf5 (Ok tt) f' None None None = (Ok ([1], [1]), f', None).
Proof.
  exists (@mkNode NumQ 1 [[0]; [2]] 1 (@AVec NumQ [1]) (@AVec NumQ [1])).
  split; [vm_compute; reflexivity|]. split; [reflexivity|]. vm_compute. reflexivity.
Qed.

(** C47: weighted classification; with batches that lack a class every error is NaN and
    the first candidate is installed instead of the best *)
Definition wc_model (batch : Z) : elm := lin_model 1 2 "wc" (Some [1; 1]) batch None 1 2 [[1; 1]] [0; 1].
Definition wc_files : corrfs := mkFs (Some (2%nat, [[1; 0]; [0; 1]])) (Some (2%nat, [[0; 0]; [1; -1]])).
Definition wc_X : src := SArr (Arr2 1 [[3]; [-5]]).
Definition wc_T : src := SArr (Arr2 2 [[1; 0]; [0; 1]]).
Definition wc_run (batch : Z) := validation_corr (wc_model batch) wc_files wc_X wc_T [1; 2]%nat.
Definition errs_of {A B C} (r : res (A * B * C)) : option B := match r with Ok (_, b, _) => Some b | Err _ => None end.
Lemma validation_wc :
  errs_of (snd (wc_run 2)) = Some [Fin (1 # 2); Fin 0] /\ s_L (e_net (fst (wc_run 2))) = Some 2%nat /\
  errs_of (snd (wc_run 1)) = Some [XNaN; XNaN] /\ s_L (e_net (fst (wc_run 1))) = Some 1%nat.
Proof. split; [vm_compute; reflexivity|]. split; [vm_compute; reflexivity|]. split; vm_compute; reflexivity. Qed.

(** C56: the same text, compressed and not *)
Lemma gz_row : exists f1 f2, @make_hdf5 NumQ (@InGz NumQ [[5; 6; 7]]) 0 1 = (Ok tt, Some f1) /\ @make_hdf5 NumQ (@InText NumQ [[5; 6; 7]]) 0 1 = (Ok tt, Some f2) /\
  h_rows f1 = [[5]; [6]; [7]] /\ h_rows f2 = [[5; 6; 7]].
Proof.
  exists (@mkNode NumQ 1 [[5]; [6]; [7]] 1 (@ANone NumQ) (@ANone NumQ)), (@mkNode NumQ 3 [[5; 6; 7]] 1 (@ANone NumQ) (@ANone NumQ)).
  split; [vm_compute; reflexivity|]. split; [vm_compute; reflexivity|]. split; reflexivity.
Qed.
Lemma gz_single : @make_hdf5 NumQ (@InGz NumQ [[5]]) 0 1 = (Err AssertionError, None) /\ exists f, @make_hdf5 NumQ (@InText NumQ [[5]]) 0 1 = (Ok tt, Some f).
Proof. split; [vm_compute; reflexivity|]. exists (@mkNode NumQ 1 [[5]] 1 (@ANone NumQ) (@ANone NumQ)). vm_compute. reflexivity. Qed.
End Rationals.

Section Reals.
#[local] Existing Instance NumR.
Local Open Scope R_scope.
(** C49: 10 elements, blocks of 32 threads: element 10, which is not in the matrix, is overwritten *)
Lemma sigm_overrun : forall order, Permutation order (threads (sigm_grid 10 32) 32) ->
  exists mem : nat -> R, @launch NumR 32 order mem 10%nat <> mem 10%nat.
Proof.
  intros order HP. exists (fun _ => 0). rewrite (@launch_spec NumR _ 32 order _ 10 ltac:(lia) HP). change (sigm_grid 10 32) with 1%nat. cbn [Nat.ltb Nat.leb Nat.mul Nat.add].
  unfold sigm1. cbn [ndiv n1 nadd nexp NumR]. rewrite exp_0. lra.
Qed.

(** C52: all samples equal *)
Lemma rbf_equal : forall fuel k kind ix1 ix2 u, a_choice 3 (rbf_Nk 3 k) ix1 -> a_choice 3 k ix2 ->
  @rbf_param NumR fuel 1 [[1]; [1]; [1]] k kind ix1 ix2 u = None.
Proof.
  intros fuel k kind ix1 ix2 u H1 H2. apply rbf_stuck; auto; [discriminate|]. intros i j Hij.
  destruct (pairs_valid _ _ _ H1) as [_ HP]. destruct (HP i j Hij) as (_ & Hi & Hj).
  assert (forall i, (i < 3)%nat -> nth i [[1]; [1]; [1]] [] = [1]) as HN by (intros [|[|[|n]]] H; [reflexivity..|lia]).
  rewrite !HN by auto. destruct (rkind_of kind); cbn [rdist map2 nsub nabs nmul NumR].
  - rewrite Rminus_diag_eq, Rabs_R0 by reflexivity. cbn. lra.
  - rewrite Rminus_diag_eq, Rabs_R0 by reflexivity. cbn. unfold Rltb. destruct (Rlt_dec 0 0); lra.
  - rewrite Rminus_diag_eq by reflexivity. cbn. lra.
Qed.
End Reals.
