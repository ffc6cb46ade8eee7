(** Property theorems: training (C01-C09).  Proofs are in the other files. *)
From Coq Require Import Reals QArith Lra Permutation.
From Verif Require Import Base Num Mat LinAlg Slfn Strs Elm Mrsr Search Mss Hpelm MatFacts Spec ElmFacts WfProofs
  TrainThms IncrThms SolveThms WeightFacts Demo Refute1.

(** ** C01: batches cover every sample exactly once *)
Theorem C01_batches_cover {K : Num} : forall (e : elm) (X T : mat),
  is_wc e = false -> (0 < e_batch e)%Z -> X <> [] -> length X = length T ->
  exists parts : list (mat * mat),
    concat (map fst parts) = X /\ concat (map snd parts) = T /\
    (forall x t, In (x, t) parts ->
       length x = length t /\ (1 <= length x)%nat /\ (Z.of_nat (length x) <= e_batch e)%Z) /\
    ((Z.of_nat (length parts) - 1) * e_batch e < Z.of_nat (length X) <= Z.of_nat (length parts) * e_batch e)%Z /\
    (e_net (fst (add_data e X T)), snd (add_data e X T)) =
      run_all (fun s p => add_batch s (fst p) (snd p) None) (e_net e) parts.
Proof. exact add_data_chunks. Qed.
Print Assumptions C01_batches_cover.

Theorem C01_batches_cover_weighted {K : Num} : forall (e : elm) (X T : mat),
  is_wc e = true -> (0 < e_batch e)%Z -> X <> [] -> length X = length T ->
  exists (parts : list (mat * mat)) wc, e_wc (fst (add_data e X T)) = Some wc /\
    (forall w, e_wc e = Some w -> wc = w) /\
    concat (map fst parts) = X /\ concat (map snd parts) = T /\
    (forall x t, In (x, t) parts ->
       length x = length t /\ (1 <= length x)%nat /\ (Z.of_nat (length x) <= e_batch e)%Z) /\
    ((Z.of_nat (length parts) - 1) * e_batch e < Z.of_nat (length X) <= Z.of_nat (length parts) * e_batch e)%Z /\
    (e_net (fst (add_data e X T)), snd (add_data e X T)) =
      run_all (fun s p => match wc_index wc (where1 (snd p)) with
                          | Ok v => add_batch s (fst p) (snd p) (Some v)
                          | Err x => (s, Err x)
                          end) (e_net e) parts.
Proof. exact add_data_chunks_wc. Qed.
Print Assumptions C01_batches_cover_weighted.

Theorem C01_empty_rejected {K : Num} : forall (e : elm) (T : mat), (0 < e_batch e)%Z ->
  snd (add_data e [] T) = Err ValueError /\ e_net (fst (add_data e [] T)) = e_net e.
Proof. exact add_data_empty. Qed.
Print Assumptions C01_empty_rejected.

Example C01_hyps {K : Num} : let e := demo None "" None in
  is_wc e = false /\ (0 < e_batch e)%Z /\ demo_X <> [] /\ length demo_X = length demo_T /\
  is_wc (demo None "wc" (Some [n1; n1])) = true.
Proof. cbv zeta. repeat split. discriminate. Qed.

(** ** C05: weighted training (the full claim is refuted below; what remains true:) *)
Theorem C05_accepted_batches_partial {K : Num} : forall (e : elm) (X T : mat) e',
  is_wc e = true -> (0 < e_batch e)%Z -> X <> [] -> length X = length T ->
  add_data e X T = (e', Ok tt) ->
  exists parts : list (mat * mat),
    concat (map fst parts) = X /\ concat (map snd parts) = T /\
    forall x t, In (x, t) parts -> length x = length t /\ (Z.of_nat (length x) <= e_batch e)%Z /\
      (ones t = length t \/ ones t = 1%nat).
Proof. exact wc_accepts. Qed.
Print Assumptions C05_accepted_batches_partial.

(** ** C02: accumulated matrices are norm*I + H'H and H'T *)
Section Reals.
#[local] Existing Instance NumR.
Local Open Scope R_scope.

Theorem C02_accumulated_matrices {SG : Sing} : forall e X T H,
  no_data (e_net e) -> is_wc e = false -> (0 < e_batch e)%Z -> X <> [] -> length X = length T ->
  wide (s_outputs (e_net e)) T -> elm_project e (Arr2 (s_inputs (e_net e)) X) = Ok H ->
  exists e', add_data e X T = (e', Ok tt) /\
    get_corr (e_net e') = Ok (Some (spec_HH (getL (e_net e)) (s_norm (e_net e)) (plain H T),
                                    spec_HT (getL (e_net e)) (s_outputs (e_net e)) (plain H T))).
Proof. exact add_data_corr. Qed.

Example C02_hyps {SG : Sing} : let e := demo None "" None in
  no_data (e_net e) /\ is_wc e = false /\ (0 < e_batch e)%Z /\ demo_X <> [] /\ length demo_X = length demo_T /\
  wide (s_outputs (e_net e)) demo_T /\ exists H, elm_project e (Arr2 (s_inputs (e_net e)) demo_X) = Ok H.
Proof. cbv zeta. repeat split; try discriminate; [repeat constructor|]. eexists. reflexivity. Qed.

(** ** C03: incremental training *)
Theorem C03_incremental {SG : Sing} : forall e ps b X T,
  no_data (e_net e) -> usable (e_net e) -> is_wc e = false ->
  ps <> [] -> Forall (call_ok (s_inputs (e_net e)) (s_outputs (e_net e))) ps ->
  (0 < b)%Z -> length X = length T ->
  Permutation (combine (parts_X ps) (parts_T ps)) (combine X T) ->
  exists e1 e2 C, run_all part_call e ps = (e1, Ok tt) /\ add_data (with_batch e b) X T = (e2, Ok tt) /\
    get_corr (e_net e1) = Ok (Some C) /\ get_corr (e_net e2) = Ok (Some C).
Proof. exact incremental_plain. Qed.

Theorem C03_incremental_weighted {SG : Sing} : forall e ws ps b X T,
  no_data (e_net e) -> usable (e_net e) -> is_wc e = true -> e_wc e = Some (map Fin ws) ->
  length ws = s_outputs (e_net e) -> (forall w, In w ws -> 0 <= w) ->
  ps <> [] -> Forall (call_ok (s_inputs (e_net e)) (s_outputs (e_net e))) ps ->
  (forall t, In t (parts_T ps) -> exists k, has_class (s_outputs (e_net e)) t k) ->
  (0 < b)%Z -> length X = length T ->
  Permutation (combine (parts_X ps) (parts_T ps)) (combine X T) ->
  exists e1 e2 C, run_all part_call e ps = (e1, Ok tt) /\ add_data (with_batch e b) X T = (e2, Ok tt) /\
    get_corr (e_net e1) = Ok (Some C) /\ get_corr (e_net e2) = Ok (Some C).
Proof. exact incremental_weighted. Qed.

(** two calls, given in the opposite order and with different batch sizes *)
Example C03_hyps {SG : Sing} :
  let ps := [(7%Z, (skipn 1 demo_X, skipn 1 demo_T)); (1%Z, (firstn 1 demo_X, firstn 1 demo_T))] in
  forall e, e = demo None "" None \/ e = demo None "wc" (Some [2; 3]) ->
  no_data (e_net e) /\ usable (e_net e) /\
  ps <> [] /\ Forall (call_ok (s_inputs (e_net e)) (s_outputs (e_net e))) ps /\
  (forall t, In t (parts_T ps) -> exists k, has_class (s_outputs (e_net e)) t k) /\
  Permutation (combine (parts_X ps) (parts_T ps)) (combine demo_X demo_T).
Proof.
  intros ps e He. assert (s_inputs (e_net e) = 2%nat /\ s_outputs (e_net e) = 2%nat) as [-> ->] by (destruct He; subst e; split; reflexivity).
  split; [destruct He; subst e; split; reflexivity|].
  split; [destruct He; subst e; split; [discriminate|reflexivity|discriminate|reflexivity]|].
  split; [discriminate|]. split; [repeat constructor; discriminate|]. split.
  - intros t [<-|[<-|[<-|[]]]]; [exists 1%nat|exists 0%nat|exists 0%nat]; (split; [reflexivity|]);
       (split; [lia|]); intros [|[|j]] Hj; try reflexivity; lia.
  - cbn. apply Permutation_sym. apply (Permutation_cons_append [(_, _); (_, _)]).
Qed.

(** ** C04: class weights *)
Theorem C04_given_weights {SG : Sing} : forall e X T H ws ks,
  no_data (e_net e) -> is_wc e = true -> e_wc e = Some (map Fin ws) ->
  length ws = s_outputs (e_net e) -> (forall w, In w ws -> 0 <= w) ->
  (0 < e_batch e)%Z -> X <> [] -> length X = length T ->
  Forall2 (has_class (s_outputs (e_net e))) T ks -> elm_project e (Arr2 (s_inputs (e_net e)) X) = Ok H ->
  exists e', add_data e X T = (e', Ok tt) /\
    get_corr (e_net e') =
      Ok (Some (spec_HH (getL (e_net e)) (s_norm (e_net e)) (samples (map (fun k => nth k ws 0) ks) H T),
                spec_HT (getL (e_net e)) (s_outputs (e_net e)) (samples (map (fun k => nth k ws 0) ks) H T))).
Proof. exact add_data_weights. Qed.

Theorem C04_automatic_weights {SG : Sing} : forall e X T H ks,
  no_data (e_net e) -> is_wc e = true -> e_wc e = None ->
  (0 < e_batch e)%Z -> X <> [] -> length X = length T ->
  Forall2 (has_class (s_outputs (e_net e))) T ks -> elm_project e (Arr2 (s_inputs (e_net e)) X) = Ok H ->
  exists e', add_data e X T = (e', Ok tt) /\
    get_corr (e_net e') =
      Ok (Some (spec_HH (getL (e_net e)) (s_norm (e_net e)) (samples (map (auto_weight ks) ks) H T),
                spec_HT (getL (e_net e)) (s_outputs (e_net e)) (samples (map (auto_weight ks) ks) H T))).
Proof. exact add_data_auto_weights. Qed.

Example C04_hyps {SG : Sing} :
  let e := demo None "wc" (Some [2; 3]) in let e' := demo None "wc" None in
  no_data (e_net e) /\ is_wc e = true /\ e_wc e = Some (map Fin [2; 3]) /\
  no_data (e_net e') /\ is_wc e' = true /\ e_wc e' = None /\
  Forall2 (has_class (s_outputs (e_net e))) demo_T [0%nat; 1%nat; 0%nat] /\
  (exists H, elm_project e (Arr2 (s_inputs (e_net e)) demo_X) = Ok H) /\
  (exists H, elm_project e' (Arr2 (s_inputs (e_net e')) demo_X) = Ok H).
Proof.
  cbv zeta. repeat split; try (eexists; reflexivity).
  change (s_outputs _) with 2%nat.
  apply Forall2_cons; [|apply Forall2_cons; [|apply Forall2_cons; [|apply Forall2_nil]]];
  (split; [reflexivity|]); (split; [lia|]); intros [|[|j]] Hj; try reflexivity; lia.
Qed.

(** ** C06: all solvers accumulate the same matrices *)
Theorem C06_solvers_agree {SG : Sing} : forall s k hist s',
  no_data s -> hist <> [] -> (forall p, In p hist -> wide (s_outputs s) (snd (fst p))) ->
  run_all batch_call s hist = (s', Ok tt) ->
  exists s2 HH HT, run_all batch_call (with_kind k s) hist = (s2, Ok tt) /\
    get_corr s' = Ok (Some (HH, HT)) /\ get_corr s2 = Ok (Some (HH, HT)) /\
    (forall i j, (i < getL s)%nat -> (j < getL s)%nat -> entry (nth i HH []) j = entry (nth j HH []) i).
Proof. exact solvers_agree. Qed.

Example C06_hyps {SG : Sing} : let s := e_net (demo None "" None) in
  no_data s /\ exists s', run_all batch_call s [(demo_X, demo_T, None); (demo_X, demo_T, None)] = (s', Ok tt).
Proof.
  cbv zeta. split; [split; reflexivity|]. edestruct (run_ok (run_all batch_call (e_net (demo None "" None)) [(demo_X, demo_T, None); (demo_X, demo_T, None)]) tt (fun _ => True)) as (s' & E & _);
  [reflexivity|exact I|]. exists s'. exact E.
Qed.

(** ** C07: set_corr / get_corr *)
Theorem C07_roundtrip_partial {SG : Sing} : forall s L HH HT, s_L s = Some L -> s_kind s <> Fast ->
  is_mat L L HH -> is_mat L (s_outputs s) HT ->
  (forall i j, (i < L)%nat -> (j < L)%nat -> entry (nth i HH []) j = entry (nth j HH []) i) ->
  exists s', set_corr s L L HH L (s_outputs s) HT = (s', Ok tt) /\ get_corr s' = Ok (Some (HH, HT)).
Proof. exact corr_roundtrip. Qed.

Theorem C07_roundtrip_default_partial {SG : Sing} : forall s L HH HT, s_L s = Some L -> s_kind s = Fast ->
  is_mat L L HH -> is_mat L (s_outputs s) HT ->
  (forall i j, (i < L)%nat -> (j < i)%nat -> entry (nth i HH []) j = 0) ->
  exists s' HH', set_corr s L L HH L (s_outputs s) HT = (s', Ok tt) /\ get_corr s' = Ok (Some (HH', HT)) /\
    is_mat L L HH' /\
    forall i j, (i < L)%nat -> (j < L)%nat -> entry (nth i HH' []) j = entry (nth (Nat.min i j) HH []) (Nat.max i j).
Proof. exact corr_roundtrip_fast. Qed.

Example C07_hyps {SG : Sing} :
  s_L (e_net (demo (Some "basic"%string) "" None)) = Some 3%nat /\ s_kind (e_net (demo (Some "basic"%string) "" None)) = Basic /\
  s_kind (e_net (demo (Some "GPU"%string) "" None)) = Gpu64 /\ s_kind (e_net (demo None "" None)) = Fast.
Proof. repeat split. Qed.

(** ** C08: ridge regression *)
Theorem C08_ridge {SG : Sing} {BR : Brent} {SH : Shuffle} : forall e X T H args kw e1,
  wf_net (e_net e) -> 0 < s_norm (e_net e) ->
  parse_args e args kw = (e1, Ok tt) -> is_wc e1 = false ->
  smem "V" args = false -> smem "CV" args = false -> smem "LOO" args = false ->
  (0 < e_batch e1)%Z -> X <> [] -> length X = length T -> wide (s_outputs (e_net e)) T ->
  elm_project e (Arr2 (s_inputs (e_net e)) X) = Ok H ->
  exists e' B, train e (Arr2 (s_inputs (e_net e)) X) (Arr2 (s_outputs (e_net e)) T) args kw = (e', Ok None) /\
    s_B (e_net e') = Some B /\ s_neurons (e_net e') = s_neurons (e_net e) /\
    ridge_solution (nneurons (s_neurons (e_net e))) (s_outputs (e_net e)) (s_norm (e_net e)) (plain H T) B.
Proof. exact train_ridge. Qed.

Theorem C08_ridge_weighted {SG : Sing} {BR : Brent} {SH : Shuffle} : forall e X T H args kw e1 ws ks,
  wf_net (e_net e) -> 0 < s_norm (e_net e) ->
  parse_args e args kw = (e1, Ok tt) -> is_wc e1 = true -> e_wc e1 = Some (map Fin ws) ->
  length ws = s_outputs (e_net e) -> (forall w, In w ws -> 0 <= w) ->
  smem "V" args = false -> smem "CV" args = false -> smem "LOO" args = false ->
  (0 < e_batch e1)%Z -> X <> [] -> length X = length T -> Forall2 (has_class (s_outputs (e_net e))) T ks ->
  elm_project e (Arr2 (s_inputs (e_net e)) X) = Ok H ->
  exists e' B, train e (Arr2 (s_inputs (e_net e)) X) (Arr2 (s_outputs (e_net e)) T) args kw = (e', Ok None) /\
    s_B (e_net e') = Some B /\ s_neurons (e_net e') = s_neurons (e_net e) /\
    ridge_solution (nneurons (s_neurons (e_net e))) (s_outputs (e_net e)) (s_norm (e_net e))
                   (samples (map (fun k => nth k ws 0) ks) H T) B.
Proof. exact train_ridge_weighted. Qed.

Example C08_hyps {SG : Sing} : forall a, In a [None; Some "basic"%string; Some "GPU"%string] ->
  let e := demo a "" None in
  wf_net (e_net e) /\ 0 < s_norm (e_net e) /\
  (exists e1, parse_args e ["c"%string] no_kw = (e1, Ok tt) /\ is_wc e1 = false /\ (0 < e_batch e1)%Z) /\
  (exists e1, parse_args e ["wc"%string] (mkKw (Some [2; 3]) None None None None None) = (e1, Ok tt) /\ is_wc e1 = true /\
      e_wc e1 = Some (map Fin [2; 3])) /\
  (exists H, elm_project e (Arr2 (s_inputs (e_net e)) demo_X) = Ok H).
Proof.
  intros a [<-|[<-|[<-|[]]]]; cbv zeta.
  all: split; [constructor; cbn; try exact I; repeat constructor; cbn; auto; intuition discriminate|].
  all: split; [exact Rlt_0_1|].
  all: split; [apply run_ok; vm_compute; repeat split|]; split; [apply run_ok; vm_compute; repeat split|];
    apply get_ok; vm_compute; reflexivity.
Qed.

(** ** C09: least squares when the matrix is singular *)
Theorem C09_least_squares {SG : Sing} : forall s hist s',
  no_data s -> s_kind s <> Basic -> hist <> [] -> (forall p, In p hist -> wide (s_outputs s) (snd (fst p))) ->
  run_all batch_call s hist = (s', Ok tt) ->
  exists HH HT B, get_corr s' = Ok (Some (HH, HT)) /\ solve s' = (with_B s' (Some B), Ok tt) /\
    (least_squares (getL s) (s_outputs s) HH (lstsq_sing HH HT) HT ->
     least_squares (getL s) (s_outputs s) HH B HT).
Proof. exact solve_least_squares. Qed.

Theorem C09_gpu_files {SG : Sing} : forall s n HH HT,
  s_kind s = Gpu64 \/ s_kind s = Gpu32 -> is_mat n n HH -> is_mat n (s_outputs s) HT ->
  (forall i j, (i < n)%nat -> (j < n)%nat -> entry (nth i HH []) j = entry (nth j HH []) i) ->
  least_squares n (s_outputs s) HH (lstsq_sing HH HT) HT ->
  least_squares n (s_outputs s) HH (solve_corr s n HH HT) HT.
Proof. exact gpu_solve_corr_least_squares. Qed.
End Reals.

(** ** Violations found *)
Section Rationals.
#[local] Existing Instance NumQ.
Local Open Scope Q_scope.
(** C03, full claim including automatic class weights: false. *)
Theorem C03_automatic_weights_refuted {SG : @Sing NumQ} :
  (exists e1, add_data auto_model (part_X ++ part_X) (part1_T ++ part2_T) = (e1, Ok tt) /\
     exists HH HT, get_corr (e_net e1) = Ok (Some (HH, HT)) /\ HT = [[50; 50]]) /\
  (exists e', add_data auto_model part_X part1_T = (e', Ok tt) /\
     exists e2, add_data e' part_X part2_T = (e2, Ok tt) /\
     exists HH HT, get_corr (e_net e2) = Ok (Some (HH, HT)) /\ HT = [[225 # 8; 800 # 9]]).
Proof. exact auto_parts. Qed.
Print Assumptions C03_automatic_weights_refuted.

Theorem C05_misaligned_refuted {SG : @Sing NumQ} :
  is_wc wc_model = true /\ e_wc wc_model = Some [Fin 1; Fin 9] /\
  exists e', add_data wc_model [[1]; [1]] [[1; 1]; [0; 0]] = (e', Ok tt) /\
  exists HH HT, get_corr (e_net e') = Ok (Some (HH, HT)) /\ HH = [[1 * 1 + 9 * 1]].
Proof. exact wc_misaligned. Qed.
Print Assumptions C05_misaligned_refuted.

Theorem C05_broadcast_refuted {SG : @Sing NumQ} : exists e',
  add_data wc_model [[1]; [1]; [1]] [[0; 1]; [1 # 2; 1 # 2]; [0; 0]] = (e', Ok tt) /\
  exists HH HT, get_corr (e_net e') = Ok (Some (HH, HT)) /\ HH = [[9 * (1 + 1 + 1)]].
Proof. exact wc_broadcast. Qed.
Print Assumptions C05_broadcast_refuted.

(** C07 for the default solver and a full symmetric HH: false. *)
Theorem C07_default_refuted {SG : @Sing NumQ} :
  s_kind (e_net rt_model) = Fast /\
  exists s', set_corr (e_net rt_model) 2 2 [[2; 1]; [1; 2]] 2 1 [[1]; [1]] = (s', Ok tt) /\
  exists HH HT, get_corr s' = Ok (Some (HH, HT)) /\ HH = [[2; 1]; [2; 2]].
Proof. exact fast_roundtrip. Qed.
Print Assumptions C07_default_refuted.

(** C09 for the default solver reading files: false. *)
Theorem C09_default_files_refuted {SG : @Sing NumQ} : exists e',
  hp_solve_corr fast3 (mkFs (Some (3%nat, sing3)) (Some (1%nat, [[1]; [1]; [0]]))) = (e', Ok tt) /\
  match s_B (e_net e') with Some B => mmul 1 sing3 B <> [[1]; [1]; [0]] | None => False end.
Proof. exact fast_fallback_api. Qed.
Print Assumptions C09_default_files_refuted.

Theorem C09_default_solvable {SG : @Sing NumQ} :
  mmul 1 sing3 (solve_corr (e_net fast3) 3 sing3 [[1]; [1]; [0]]) <> [[1]; [1]; [0]] /\
  mmul 1 sing3 [[3 # 2]; [0]; [-1 # 2]] = [[1]; [1]; [0]].
Proof. exact fast_fallback. Qed.
End Rationals.

Print Assumptions C02_accumulated_matrices.
Print Assumptions C03_incremental.
Print Assumptions C03_incremental_weighted.
Print Assumptions C04_given_weights.
Print Assumptions C04_automatic_weights.
Print Assumptions C06_solvers_agree.
Print Assumptions C07_roundtrip_partial.
Print Assumptions C07_roundtrip_default_partial.
Print Assumptions C08_ridge.
Print Assumptions C08_ridge_weighted.
Print Assumptions C09_least_squares.
Print Assumptions C09_gpu_files.
Print Assumptions C09_default_solvable.
