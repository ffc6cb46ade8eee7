(** Exact characterisations for C05 and C52; progress reports, certified output weights,
    linear maps of the outputs, exact targets, neurons given twice: C89-C93. *)
From Coq Require Import Reals Lra QArith Floats.SpecFloat.
From Verif Require Import Base Num Mat LinAlg Slfn Strs Elm Mrsr Search Mss Hpelm WfProofs ElmFacts TrainThms RidgeProofs SolveThms RegMore RegMore2 RegOrder SubThms
  Rbf RbfThms WeightExact Progress Rounding RoundThms SumOf Float Certify RegMore3 Demo MoreDemo PropsRound Spec.
Local Open Scope string_scope.
Local Open Scope list_scope.

(** ** C89: progress reports *)
Theorem C89_documented : forall clk tprint nb, forward clk ->
  length (progress clk tprint nb) = nb /\ as_documented clk tprint nb 0 2 (clk 0%nat) (clk 1%nat) (progress clk tprint nb).
Proof. exact progress_documented. Qed.
Theorem C89_last : forall clk tprint nb l, forward clk -> nth_error (progress clk tprint nb) (nb - 1) = Some (Some l) ->
  (l_h l = 0 /\ l_m l = 0 /\ l_s l = 0 /\ l_b l = l_nb l)%Z.
Proof. exact progress_last. Qed.
Theorem C89_quiet : forall clk tprint nb T, forward clk -> (forall j, clk j - clk 0%nat <= T)%Q -> (T <= tprint)%Q ->
  progress clk tprint nb = repeat None nb.
Proof. exact progress_quiet. Qed.
(** the asynchronous calls go once more through the loop: the reports of the first nb
    iterations are as above, the last one counts nb+1 of nb batches and shows a negative
    time as nearly one hour *)
Theorem C89_async_partial : forall clk tprint nb, firstn nb (progress_async clk tprint nb) = progress clk tprint nb.
Proof. exact async_before. Qed.
Theorem C89_async_last : forall clk tprint nb l, forward clk -> nth_error (progress_async clk tprint nb) nb = Some (Some l) ->
  (l_b l = Z.of_nat nb + 1 /\ l_nb l = Z.of_nat nb /\
   exists elapsed, (0 <= elapsed)%Q /\ (let k := Qround.Qfloor (elapsed / inject_Z (Z.of_nat nb + 1)) in
     1 <= k < 3600 -> l_h l = 0 /\ 0 <= l_m l < 60 /\ 0 <= l_s l < 60 /\ l_m l * 60 + l_s l = 3600 - k))%Z.
Proof. exact async_last. Qed.
Theorem C89_async_refuted : exists clk tprint nb, forward clk /\
  progress_async clk tprint nb = [Some (mkLine 1 2 0 0 1); Some (mkLine 2 2 0 0 0); Some (mkLine 3 2 0 59 58)].
Proof. exact (ex_intro _ step_clock (ex_intro _ 1%Q (ex_intro _ 2%nat async_wrong))). Qed.
(** a clock that advances by 40 minutes with every reading, two batches: the first report says 40 minutes *)
Definition slow_clock (i : nat) : Q := inject_Z (2400 * Z.of_nat i).
Example C89_hyps : forward slow_clock /\ progress slow_clock 5 2 = [Some (mkLine 1 2 0 40 0); Some (mkLine 2 2 0 0 0)] /\
  forward (fun _ => 7%Q) /\ (forall j : nat, 7 - 7 <= 0)%Q /\ (0 <= 5)%Q.
Proof.
  split. { intros i. unfold slow_clock. rewrite <- Zle_Qle. lia. }
  split; [vm_compute; reflexivity|]. split; [intros i; apply Qle_refl|]. split; [intros _; vm_compute; discriminate|discriminate].
Qed.
(** the clock must not be set back *)
Example C89_clock_back : progress back_clock 5 2 = [Some (mkLine 1 2 0 59 58); None].
Proof. exact progress_back. Qed.

Section Reals.
#[local] Existing Instance NumR.
Local Open Scope R_scope.

(** ** C05: exactly which data weighted training accepts, and the weights it uses *)
Theorem C05_exact {SG : Sing} : forall e X T H ws,
  no_data (e_net e) -> is_wc e = true -> e_wc e = Some (map Fin ws) ->
  length ws = s_outputs (e_net e) -> (forall w, In w ws -> 0 <= w) ->
  (0 < e_batch e)%Z -> X <> [] -> length X = length T -> wide (s_outputs (e_net e)) T ->
  elm_project e (Arr2 (s_inputs (e_net e)) X) = Ok H ->
  exists parts : list (list (list R)),
    concat parts = T /\ (forall t, In t parts -> t <> [] /\ (Z.of_nat (length t) <= e_batch e)%Z) /\
    ((Z.of_nat (length parts) - 1) * e_batch e < Z.of_nat (length X) <= Z.of_nat (length parts) * e_batch e)%Z /\
    ((forall t, In t parts -> acceptable t) ->
       let ss := samples (concat (map (weights_in ws) parts)) H T in
       exists e', add_data e X T = (e', Ok tt) /\
         get_corr (e_net e') = Ok (Some (spec_HH (getL (e_net e)) (s_norm (e_net e)) ss,
                                         spec_HT (getL (e_net e)) (s_outputs (e_net e)) ss))) /\
    ((exists t, In t parts /\ ~ acceptable t) -> exists e' x, add_data e X T = (e', Err x)).
Proof. exact wc_exact. Qed.
(** targets with two ones in the first row and none in the second *)
Example C05_exact_hyps {SG : Sing} : let e := demo None "wc" (Some [2; 3]) in let T := [[1; 1]; [0; 0]] in
  no_data (e_net e) /\ is_wc e = true /\ e_wc e = Some (map Fin [2; 3]) /\ length [2; 3] = s_outputs (e_net e) /\
  (forall w, In w [2; 3] -> 0 <= w) /\ (0 < e_batch e)%Z /\ wide (s_outputs (e_net e)) T /\
  (exists H, elm_project e (Arr2 (s_inputs (e_net e)) (firstn 2 demo_X)) = Ok H) /\
  acceptable T /\ weights_in [2; 3] T = [2; 3] /\ ~ acceptable [[1; 1]; [1; 0]].
Proof.
  assert (Reqb 1 1 = true /\ Reqb 0 1 = false) as [R1 R0] by (split; [apply RLin.Reqb_refl|apply RLin.Reqb_false; lra]).
  assert (forall a b c d, ones_at [[a; b]; [c; d]] =
    (if Reqb a 1 then [0%nat] else []) ++ (if Reqb b 1 then [1%nat] else []) ++ (if Reqb c 1 then [0%nat] else []) ++ (if Reqb d 1 then [1%nat] else [])) as O.
  { intros. unfold ones_at. cbn. destruct (Reqb a 1), (Reqb b 1), (Reqb c 1), (Reqb d 1); reflexivity. }
  cbv zeta. split; [split; reflexivity|]. split; [reflexivity|]. split; [reflexivity|]. split; [reflexivity|].
  split. { intros w [<-|[<-|[]]]; lra. } split; [reflexivity|]. split; [repeat constructor|]. split; [eexists; reflexivity|].
  unfold acceptable, weights_in. rewrite !O, R1, R0. cbn. split; [now left|]. split; [reflexivity|]. intros [H|H]; discriminate.
Qed.

(** ** C52: exactly when rbf_param returns *)
Theorem C52_returns_iff : forall d X k kind ix1 ix2 (u : nat -> R),
  (0 < k)%nat -> X <> [] -> Forall (fun x => length x = d) X -> a_choice (length X) (rbf_Nk (length X) k) ix1 -> a_choice (length X) k ix2 ->
  infinitely_often (fun n => 1 / 2 <= u n) ->
  ((exists fuel r, @rbf_param NumR fuel d X k kind ix1 ix2 u = Some r) <->
   exists i j, In (i, j) (Rbf.pairs ix1) /\ nth i X [] <> nth j X []).
Proof. exact rbf_returns_iff. Qed.
Theorem C52_never : forall fuel d X k kind ix1 ix2 (u : nat -> R),
  X <> [] -> a_choice (length X) (rbf_Nk (length X) k) ix1 -> a_choice (length X) k ix2 ->
  (forall i j, In (i, j) (Rbf.pairs ix1) -> nth i X [] = nth j X []) ->
  @rbf_param NumR fuel d X k kind ix1 ix2 u = None.
Proof. exact rbf_never. Qed.
(** three samples, the two that are measured against each other are equal, the third is not *)
Example C52_iff_hyps : let X := [[1]; [1]; [2]] in let ix1 := [1%nat; 0%nat] in
  (0 < 2)%nat /\ X <> [] /\ Forall (fun x => length x = 1%nat) X /\ a_choice (length X) (rbf_Nk (length X) 2) ix1 /\ a_choice (length X) 2 [2%nat; 0%nat] /\
  infinitely_often (fun _ => 1 / 2 <= 3 / 4) /\ Rbf.pairs ix1 = [(0, 1); (1, 0)]%nat /\ (forall i j, In (i, j) (Rbf.pairs ix1) -> nth i X [] = nth j X []).
Proof.
  cbv zeta. split; [lia|]. split; [discriminate|]. split; [repeat constructor|]. split; [split; [reflexivity|repeat constructor]|].
  split; [split; [reflexivity|repeat constructor]|]. split. { intros n. exists n. split; [lia|lra]. }
  split; [reflexivity|]. intros i j [E|[E|[]]]; injection E as <- <-; reflexivity.
Qed.

Section Oracles.
Context {SG : Sing} {BR : Brent} {SH : Shuffle}.

(** ** C90: the residual of the normal equations bounds the distance from the trained weights *)
Theorem C90_certified : forall e X T e' B B' k, trained e X T e' ->
  s_B (e_net e') = Some B -> (k < s_outputs (e_net e))%nat ->
  let L := nneurons (s_neurons (e_net e)) in let norm := s_norm (e_net e) in let ss := Spec.plain (map (hidden e) X) T in
  let size := Rsum (map (fun i => gap L (spec_HH L norm ss) B' (spec_HT L (s_outputs (e_net e)) ss) i k ^ 2) (seq 0 L)) in
  norm ^ 2 * Rsum (map (fun i => (entry (nth i B' []) k - entry (nth i B []) k) ^ 2) (seq 0 L)) <= size /\
  4 * norm * Rsum (map (fun x => (predict1 B' (hidden e x) k - predict1 B (hidden e x) k) ^ 2) X) <= size.
Proof. exact certify_trained. Qed.
Theorem C90_approximate : forall L c norm ss B B' k (HH HT : list (list R)), 0 < norm -> good L ss -> ridge_solution L c norm ss B -> (k < c)%nat ->
  let off i := Rabs (gap L HH B' HT i k) + Rabs (entry (nth i HT []) k - entry (nth i (spec_HT L c ss) []) k) +
    Rsum (map (fun j => Rabs (entry (nth i HH []) j - entry (nth i (spec_HH L norm ss) []) j) * Rabs (entry (nth j B' []) k)) (seq 0 L)) in
  norm ^ 2 * Rsum (map (fun i => (entry (nth i B' []) k - entry (nth i B []) k) ^ 2) (seq 0 L)) <=
  Rsum (map (fun i => off i ^ 2) (seq 0 L)).
Proof. exact certify_approx. Qed.

(** ** C91: targets that some output weights meet exactly *)
Theorem C91_exact_targets : forall e X T e' B B0 Y, trained e X T e' -> s_B (e_net e') = Some B ->
  shape (nneurons (s_neurons (e_net e))) (s_outputs (e_net e)) B0 -> outputs_of (s_outputs (e_net e)) B0 (map (hidden e) X) = T ->
  elm_predict e' (Arr2 (s_inputs (e_net e)) X) = Ok Y ->
  total_sq T Y + s_norm (e_net e) * size_sq B <= s_norm (e_net e) * size_sq B0.
Proof. exact exact_targets. Qed.

(** ** C92: linear maps of the outputs *)
Theorem C92_output_maps : forall e X T e' e2 e2' M, trained e X T e' -> trained e2 X (map (mix M (s_outputs (e_net e2))) T) e2' ->
  s_neurons (e_net e2) = s_neurons (e_net e) -> s_inputs (e_net e2) = s_inputs (e_net e) -> s_norm (e_net e2) = s_norm (e_net e) ->
  forall n X' Y, elm_predict e' (Arr2 n X') = Ok Y -> elm_predict e2' (Arr2 n X') = Ok (map (mix M (s_outputs (e_net e2))) Y).
Proof. exact output_maps. Qed.

(** ** C93: every neuron twice and twice the norm *)
Theorem C93_neurons_twice : forall e ea cs e1 e2 X T e1' e2',
  wf_net (e_net e) -> wf_net (e_net ea) -> s_neurons (e_net e) = [] -> s_neurons (e_net ea) = [] ->
  s_inputs (e_net ea) = s_inputs (e_net e) -> s_outputs (e_net ea) = s_outputs (e_net e) -> s_norm (e_net ea) = 2 * s_norm (e_net e) ->
  Forall rect cs -> run_all do_add e cs = (e1, Ok tt) -> run_all do_add ea (cs ++ cs) = (e2, Ok tt) ->
  trained e1 X T e1' -> trained e2 X T e2' ->
  forall n X' Y, elm_predict e1' (Arr2 n X') = Ok Y -> elm_predict e2' (Arr2 n X') = Ok Y.
Proof. exact neurons_twice. Qed.

(** one model with two outputs, one with three outputs trained on sums of the first two *)
Example C90_C92_hyps : let e := demo_p 2 1 in let e2 := demo_p 3 1 in let M := [[1; 0; 1]; [0; 1; 1]] in
  (exists e' Y B, trained e X3 T3 e' /\ elm_predict e' (Arr2 2 X3) = Ok Y /\ s_B (e_net e') = Some B) /\
  (exists e2' Y, trained e2 X3 (map (mix M (s_outputs (e_net e2))) T3) e2' /\ elm_predict e2' (Arr2 2 X3) = Ok Y) /\
  s_neurons (e_net e2) = s_neurons (e_net e) /\ s_inputs (e_net e2) = s_inputs (e_net e) /\ s_norm (e_net e2) = s_norm (e_net e) /\
  (1 < s_outputs (e_net e))%nat.
Proof.
  cbv zeta. split.
  { destruct (demo_trains 2 1 X3 T3) as (e' & Y & H & P); [exact Rlt_0_1|discriminate|reflexivity|repeat constructor|repeat constructor|].
    destruct (trained_inv _ _ _ _ H) as (B & EB & _). exists e', Y, B. auto. }
  split. { apply demo_trains; [exact Rlt_0_1|discriminate|reflexivity|repeat constructor|repeat constructor]. }
  split; [reflexivity|]. split; [reflexivity|]. split; [reflexivity|]. change (1 < 2)%nat. lia.
Qed.
(** two linear neurons, which give the inputs back, and targets that are the inputs *)
Example C91_hyps : let e := lin_p 2 1 in let B0 := [[1; 0]; [0; 1]] in let T := outputs_of 2 B0 (map (hidden e) X3) in
  (exists e' Y, trained e X3 T e' /\ elm_predict e' (Arr2 2 X3) = Ok Y) /\
  nneurons (s_neurons (e_net e)) = 2%nat /\ s_outputs (e_net e) = 2%nat /\ shape 2 2 B0.
Proof.
  cbv zeta. split. { apply lin_p_trains; [exact Rlt_0_1|discriminate|reflexivity|repeat constructor|repeat constructor]. }
  split; [reflexivity|]. split; [reflexivity|]. split; [reflexivity|]. intros r [<-|[<-|[]]]; reflexivity.
Qed.
Definition bare2 : elm := match elm_init 2 2 "" None 2 None PF64 (Some 2) with Ok e => e | Err _ => dead end.
Definition demo_twice : elm := fst (run_all do_add bare2 (calls ++ calls)).
Example C93_hyps : wf_net (e_net bare) /\ wf_net (e_net bare2) /\ s_neurons (e_net bare) = [] /\ s_neurons (e_net bare2) = [] /\
  s_inputs (e_net bare2) = s_inputs (e_net bare) /\ s_outputs (e_net bare2) = s_outputs (e_net bare) /\ s_norm (e_net bare2) = 2 * s_norm (e_net bare) /\
  Forall rect calls /\ run_all do_add bare calls = (demo_p 2 1, Ok tt) /\ run_all do_add bare2 (calls ++ calls) = (demo_twice, Ok tt) /\
  (exists e' Y, trained (demo_p 2 1) X3 T3 e' /\ elm_predict e' (Arr2 2 X3) = Ok Y) /\
  (exists e2' Y, trained demo_twice X3 T3 e2' /\ elm_predict e2' (Arr2 2 X3) = Ok Y).
Proof.
  split; [constructor; cbn; try exact I; repeat constructor; cbn; auto; intuition discriminate|].
  split; [constructor; cbn; try exact I; repeat constructor; cbn; auto; intuition discriminate|].
  split; [reflexivity|]. split; [reflexivity|]. split; [reflexivity|]. split; [reflexivity|]. split; [change (2 = 2 * 1); lra|].
  split; [repeat constructor|]. split; [apply calls_run|].
  split. { unfold demo_twice. rewrite (surjective_pairing (run_all do_add bare2 (calls ++ calls))) at 1. apply f_equal. vm_compute. reflexivity. }
  split. { apply demo_trains; [exact Rlt_0_1|discriminate|reflexivity|repeat constructor|repeat constructor]. }
  assert (wf_net (e_net demo_twice)) as HW by (constructor; cbn; try exact I; repeat constructor; cbn; auto; intuition discriminate).
  apply (can_train demo_twice X3 T3 [] no_kw (fst (parse_args demo_twice [] no_kw))); auto.
  - change (0 < 2). lra.
  - reflexivity.
  - discriminate.
  - repeat constructor.
  - unfold elm_project. cbn [check_arr]. change (s_inputs (e_net demo_twice)) with 2%nat. rewrite Nat.eqb_refl. cbn [rbind]. eexists. apply ElmFacts.project_ok.
    + split; [discriminate|reflexivity].
    + repeat constructor.
Qed.
End Oracles.
End Reals.

(** ** C90 in rounded arithmetic, from the data to the output weights *)
Theorem C90_rounded {K : Num} (RD : rounded K) {SG : Sing} : forall e ps H, no_data (e_net e) -> is_wc e = false -> (0 < e_batch e)%Z -> ps <> [] ->
  (forall X T, In (X, T) ps -> X <> [] /\ length X = length T /\ wide (s_outputs (e_net e)) T) ->
  elm_project e (Arr2 (s_inputs (e_net e)) (rows_of ps)) = Ok H ->
  let L := getL (e_net e) in let c := s_outputs (e_net e) in let N := length H in let norm := r_val K RD (s_norm (e_net e)) in
  let ss := Spec.plain (vals RD H) (vals RD (targets_of ps)) in let as_ := Spec.plain (mags RD H) (mags RD (targets_of ps)) in
  (0 < norm)%R -> Forall (fun h => length h = L) H ->
  exists e' HH HT, run_all (fun e p => add_data e (fst p) (snd p)) e ps = (e', Ok tt) /\
    get_corr (e_net e') = Ok (Some (HH, HT)) /\
    ((forall i j, (i < L)%nat -> (j < L)%nat -> r_fin K RD (mget HH i j)) ->
     (forall i k, (i < L)%nat -> (k < c)%nat -> r_fin K RD (mget HT i k)) ->
     forall B B' k, ridge_solution L c norm ss B -> (k < c)%nat ->
     let off i := (Rabs (gap L (vals RD HH) B' (vals RD HT) i k) + acc_err RD N (entry (nth i (spec_HT L c as_) []) k) +
       Rsum (map (fun j => acc_err RD N (entry (nth i (spec_HH L norm as_) []) j) * Rabs (entry (nth j B' []) k)) (seq 0 L)))%R in
     (norm ^ 2 * Rsum (map (fun i => (entry (nth i B' []) k - entry (nth i B []) k) ^ 2) (seq 0 L)) <=
      Rsum (map (fun i => off i ^ 2) (seq 0 L)))%R).
Proof. exact (rounded_training RD). Qed.
(** the double precision data of PropsRound.v; its Example C72_C73_hyps shows the other hypotheses *)
Example C90_rounded_hyps {SG : @Sing (Num64 no_fun no_fun)} : exists H, elm_project (d_model None 2) (Arr2 2 (rows_of d_data)) = Ok H /\
  Forall (fun h => length h = getL (e_net (d_model None 2))) H /\ length H = 4%nat /\
  (exists m e, s_norm (e_net (d_model None 2)) = S754_finite false m e).
Proof. eexists. split; [vm_compute; reflexivity|]. split; [repeat constructor|]. split; [reflexivity|]. eexists _, _. vm_compute. reflexivity. Qed.
Print Assumptions C89_documented.
Print Assumptions C89_last.
Print Assumptions C89_quiet.
Print Assumptions C89_async_partial.
Print Assumptions C89_async_last.
Print Assumptions C89_async_refuted.
Print Assumptions C05_exact.
Print Assumptions C52_returns_iff.
Print Assumptions C52_never.
Print Assumptions C90_certified.
Print Assumptions C90_approximate.
Print Assumptions C91_exact_targets.
Print Assumptions C92_output_maps.
Print Assumptions C93_neurons_twice.
Print Assumptions C90_rounded.
