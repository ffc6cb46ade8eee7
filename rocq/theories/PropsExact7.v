(** Property theorems: keyword arguments of train (C97), neuron names (C12), the weighted task (C04). *)
From Coq Require Import Reals QArith Lra Lia.
From Verif Require Import Base Num Mat LinAlg Slfn Strs Elm Mrsr Search Mss Hpelm ElmFacts WfProofs SolveThms ErrThms ArgThms FeatureThms MssThms SubThms SelThms WorksThms Retrain Demo PropsData Refute4 SelectDemo Exact8 Spec.
Local Open Scope string_scope.
Local Open Scope list_scope.

(** ** C04: exactly the task type 'wc' is weighted *)
Theorem C04_task {K : Num} : forall e : elm, is_wc e = true <-> e_class e = Some "wc".
Proof. exact is_wc_iff. Qed.

(** ** C97: keyword arguments *)
Section Any.
Context {K : Num} {SG : Sing} {BR : Brent} {SH : Shuffle}.
(** batch=b is the same as a model with batch size b *)
Theorem C97_batch : forall e X T args kw b, kw_batch kw = Some b ->
  same_run (train e X T args kw) (train (with_batch e b) X T args (drop_batch kw)).
Proof. exact train_batch. Qed.
Theorem C97_hpelm_batch : forall e fX fT args kw istart icount b, kw_batch kw = Some b ->
  same_run (hp_train e fX fT args kw istart icount) (hp_train (with_batch e b) fX fT args (drop_batch kw) istart icount).
Proof. exact hp_train_batch. Qed.
(** a keyword without the argument it belongs to has no effect *)
Theorem C97_ignored : forall e X T args kw kw', kw_batch kw' = kw_batch kw ->
  (asked "OP" args -> kw_kmax kw' = kw_kmax kw) -> (asked "WC" args -> kw_w kw' = kw_w kw) ->
  (In "CV" args -> kw_k kw' = kw_k kw) -> (In "V" args -> kw_Xv kw' = kw_Xv kw /\ kw_Tv kw' = kw_Tv kw) ->
  train e X T args kw' = train e X T args kw.
Proof. exact train_ignored. Qed.
Theorem C97_hpelm_ignored : forall e fX fT args kw kw' istart icount, kw_batch kw' = kw_batch kw -> (asked "WC" args -> kw_w kw' = kw_w kw) ->
  (asked "OP" args -> kw_kmax kw' = kw_kmax kw) ->
  hp_train e fX fT args kw' istart icount = hp_train e fX fT args kw istart icount.
Proof. exact hp_train_ignored. Qed.
(** 'OP' with kmax=k and a structure selection leave at most k neurons *)
Theorem C97_kmax : forall e X T args kw k e' v, asked "OP" args -> kw_kmax kw = Some k ->
  In "V" args \/ In "CV" args \/ In "LOO" args ->
  train e X T args kw = (e', Ok v) -> (nneurons (s_neurons (e_net e')) <= k)%nat.
Proof. exact train_kmax. Qed.
End Any.

Section Reals.
#[local] Existing Instance NumR.
Local Open Scope R_scope.
Context {SG : Sing} {BR : Brent} {SH : Shuffle}.
(** a call without structure selection gives the ridge solution of the weighted samples it asks for *)
Theorem C97_training : forall e X T H args kw ws,
  wf_net (e_net e) -> 0 < s_norm (e_net e) -> valid_args e args kw ->
  ~ In "V" args -> ~ In "CV" args -> ~ In "LOO" args ->
  (0 < match kw_batch kw with Some b => b | None => e_batch e end)%Z ->
  X <> [] -> length X = length T -> call_weights (s_outputs (e_net e)) args kw T ws ->
  elm_project e (Arr2 (s_inputs (e_net e)) X) = Ok H ->
  exists e' B, train e (Arr2 (s_inputs (e_net e)) X) (Arr2 (s_outputs (e_net e)) T) args kw = (e', Ok None) /\
    s_B (e_net e') = Some B /\ s_neurons (e_net e') = s_neurons (e_net e) /\
    ridge_solution (nneurons (s_neurons (e_net e))) (s_outputs (e_net e)) (s_norm (e_net e)) (samples ws H T) B.
Proof. exact train_call. Qed.

(** ** C12: what the neuron names stand for *)
Theorem C12_named : forall e number name c W B rW rB e' X, wf_net (e_net e) ->
  (s_neurons (e_net e) = [] \/ usable (e_net e)) -> Forall (fun r => length r = c) W ->
  add_neurons e number (FName name) (Some (c, W)) (Some B) rW rB = (e', Ok tt) ->
  wide (s_inputs (e_net e)) X ->
  exists H k f, elm_project e' (Arr2 (s_inputs (e_net e)) X) = Ok H /\ length H = length X /\ In (name, f) neuron_names /\
    forall i j, (i < length X)%nat -> (j < Z.to_nat number)%nat ->
      neuron_value (s_inputs (e_net e)) f (nth i X []) (map (fun row => nth j row 0) W) (nth j B 0) (nth (k + j) (nth i H []) 0).
Proof. exact named_features. Qed.
End Reals.

Section Examples.
#[local] Existing Instance NumR.
#[local] Existing Instance no_shuffle.
Local Open Scope R_scope.
Let e := @demo NumR None "" None.

Example C12_named_hyps {SG : Sing} {BR : Brent} : forall name, In name (map fst neuron_names) ->
  wf_net (e_net e) /\ usable (e_net e) /\ wide 2 (@demo_X NumR) /\
  exists e', add_neurons e 2 (FName name) (Some (2%nat, [[1; 2]; [0; 3]])) (Some [1; 2]) (fun _ => []) (fun _ => []) = (e', Ok tt).
Proof.
  intros name Hn. destruct (demo_selects ["CV"] ltac:(cbn; auto)) as (A1 & _).
  split; [exact A1|]. split; [split; [discriminate|reflexivity]|]. split; [repeat constructor|].
  cbn in Hn. repeat destruct Hn as [<-|Hn]; try contradiction;
    (match goal with |- exists a, ?p = _ => destruct (run_ok p tt (fun _ => True) eq_refl I) as (z & E & _); exists z; exact E end).
Qed.

Let kw w : @kwargs NumR := mkKw w None (Some 1%Z) None None None.
Example C97_training_hyps {SG : Sing} {BR : Brent} : forall w args, In w [Some [2; 3]; None] -> In args [["wc"]; ["c"]; []] ->
  wf_net (e_net e) /\ 0 < s_norm (e_net e) /\ valid_args e args (kw w) /\ ~ In "V" args /\ ~ In "CV" args /\ ~ In "LOO" args /\
  (exists ws, call_weights 2 args (kw w) (@demo_T NumR) ws /\ (args = ["wc"] -> w = Some [2; 3] -> ws = [2; 3; 2]) /\ (args = ["c"] -> ws = [1; 1; 1])) /\
  exists H, elm_project e (Arr2 2 demo_X) = Ok H.
Proof.
  intros w args Hw Ha. destruct (demo_selects ["CV"] ltac:(cbn; auto)) as (A1 & A2 & _ & _ & _ & _ & A7 & A8 & _).
  assert (Forall2 (has_class 2) (@demo_T NumR) [0; 1; 0]%nat) as HC.
  { repeat constructor; unfold entry; cbn; try lia; intros [|[|j]] Hj; cbn; try lia; reflexivity. }
  assert (forall k a args0, upper a = k -> asked k (a :: args0)) as As by (intros k a l E; exists a; split; [left; reflexivity|exact E]).
  split; [exact A1|]. split; [exact A2|]. split.
  { apply parse_iff. destruct Hw as [<-|[<-|[]]]; destruct Ha as [<-|[<-|[<-|[]]]];
    (match goal with |- exists a, ?p = _ => destruct (run_ok p tt (fun _ => True) eq_refl I) as (z & E & _); exists z; exact E end). }
  split; [destruct Ha as [<-|[<-|[<-|[]]]]; cbn; intuition discriminate|].
  split; [destruct Ha as [<-|[<-|[<-|[]]]]; cbn; intuition discriminate|].
  split; [destruct Ha as [<-|[<-|[<-|[]]]]; cbn; intuition discriminate|].
  split; [|exact A8].
  assert (forall args, ~ asked "WC" args -> args <> ["wc"] -> exists ws, call_weights 2 args (kw w) (@demo_T NumR) ws /\ (args = ["wc"] -> w = Some [2; 3] -> ws = [2; 3; 2]) /\ (args = ["c"] -> ws = [1; 1; 1])) as P.
  { intros l HN Hl. exists (repeat 1 3). split; [apply (CW_plain 2 l (kw w) (@demo_T NumR) HN A7)|]. split; [contradiction|reflexivity]. }
  destruct Ha as [<-|[<-|[<-|[]]]].
  - assert (~ asked "R" ["wc"]) as NR by (intros (a & [<-|[]] & E); discriminate).
    destruct Hw as [<-|[<-|[]]].
    + eexists. split; [apply (CW_given 2 _ (kw (Some [2; 3])) (@demo_T NumR) [2; 3] [0; 1; 0]%nat (As "WC" "wc" [] eq_refl) NR eq_refl); [intros x [<-|[<-|[]]]; lra|exact HC]|]. split; [reflexivity|discriminate].
    + eexists. split; [apply (CW_auto 2 _ (kw None) (@demo_T NumR) _ (As "WC" "wc" [] eq_refl) NR eq_refl HC)|]. split; discriminate.
  - apply P; [intros (a & [<-|[]] & E); discriminate|discriminate].
  - apply P; [intros (a & [] & _)|discriminate].
Qed.
End Examples.

(** kmax 1 of 3 neurons; 'OP' with kmax works and leaves one neuron *)
Section Rationals.
#[local] Existing Instance NumQ.
#[local] Existing Instance no_shuffle.
Local Open Scope Q_scope.
Context {SG : @Sing NumQ} {BR : @Brent NumQ}.
Example C97_kmax_case : let kw := mkKw None (Some 1%nat) None None (Some (Arr2 2 demo_X)) (Some (Arr2 2 demo_T)) in
  asked "OP" ["OP"; "V"] /\ kw_kmax kw = Some 1%nat /\
  let r := train (demo None "" None) (Arr2 2 demo_X) (Arr2 2 demo_T) ["OP"; "V"] kw in
  snd r = Ok None /\ nneurons (s_neurons (e_net (fst r))) = 1%nat.
Proof. split; [exists "OP"; cbn; auto|]. split; [reflexivity|]. vm_compute. split; reflexivity. Qed.
Example C97_batch_case : exists kw : kwargs, kw_batch kw = Some 1%Z /\
  snd (train (demo None "" None) (Arr2 2 demo_X) (Arr2 2 demo_T) [] kw) = Ok None /\
  snd (hp_train (demo None "" None) (SArr (Arr2 2 demo_X)) (SArr (Arr2 2 demo_T)) [] kw None None) = Ok tt.
Proof. exists (mkKw None None (Some 1%Z) None None None). split; [reflexivity|]. vm_compute. split; reflexivity. Qed.
End Rationals.

Print Assumptions C04_task.
Print Assumptions C97_batch.
Print Assumptions C97_hpelm_batch.
Print Assumptions C97_ignored.
Print Assumptions C97_hpelm_ignored.
Print Assumptions C97_kmax.
Print Assumptions C97_training.
Print Assumptions C12_named.
