(** Further properties of using a model: history, order of the samples, errors, tried
    sizes, out-of-core options: C76-C80. *)
From Coq Require Import Reals Lra QArith Permutation Sorted.
From Verif Require Import Base Num Mat LinAlg Slfn Strs Elm Mrsr Search Mss Hpelm WfProofs ElmFacts TrainThms RangeThms RangeTrain ErrThms SelThms SolveThms RidgeProofs SubThms
  ArgThms Retrain HpPlain OrderThms ErrMore Sizes ExpQ VcSizes Demo MoreDemo PropsData Spec.
Local Open Scope string_scope.
Local Open Scope list_scope.
Local Open Scope nat_scope.

(** ** C76: training does not depend on what the model was used for before *)
Theorem C76_train {K : Num} {SG : Sing} {BR : Brent} {SH : Shuffle} : forall e1 e2 X T args kw, same_config e1 e2 ->
  same_run (train e1 X T args kw) (train e2 X T args kw).
Proof. exact train_history. Qed.
Theorem C76_hpelm {K : Num} {SG : Sing} : forall e1 e2 fX fT args kw istart icount, same_config e1 e2 ->
  same_run (hp_train e1 fX fT args kw istart icount) (hp_train e2 fX fT args kw istart icount).
Proof. exact hp_train_history. Qed.
(** a new model, and the same model after weighted training on other data *)
Definition used {K : Num} {SG : Sing} {BR : Brent} {SH : Shuffle} : elm :=
  fst (train (demo None "" None) (Arr2 2 [[n1; n1]; [n2; n0]]) (Arr2 2 [[n1; n0]; [n0; n1]]) ["wc"] (mkKw (Some [n1; n2]) None None None None None)).
Example C76_hyps {SG : @Sing NumQ} {BR : @Brent NumQ} {SH : Shuffle} :
  let e1 := @demo NumQ None "" None in let e2 := @used NumQ _ _ _ in
  same_config e1 e2 /\ s_HH (e_net e1) = None /\ s_HH (e_net e2) <> None /\ s_B (e_net e2) <> None /\ e_wc e2 <> None /\
  snd (train e2 (Arr2 2 demo_X) (Arr2 2 demo_T) [] no_kw) = Ok None /\
  snd (hp_train e2 (SFile (Some (2, demo_X))) (SArr (Arr2 2 demo_T)) [] no_kw None None) = Ok tt.
Proof.
  cbv zeta. split.
  { split; [vm_compute; reflexivity|]. split; [vm_compute; reflexivity|]. split; [vm_compute; reflexivity|]. split; [vm_compute; reflexivity|].
    split; [vm_compute; reflexivity|]. split; [vm_compute; reflexivity|]. split; vm_compute; reflexivity. }
  split; [reflexivity|]. split; [vm_compute; discriminate|]. split; [vm_compute; discriminate|]. split; [vm_compute; discriminate|].
  split; vm_compute; reflexivity.
Qed.

(** ** C80: HPELM.train never selects a structure *)
Theorem C80_no_selection {K : Num} {SG : Sing} : forall e fX fT args kw istart icount, at_most_one_of selections args ->
  let r := hp_train e fX fT args kw istart icount in
  let r' := hp_train e fX fT (filter keeps args) kw istart icount in
  snd r = snd r' /\ (snd r = Ok tt -> unrank (fst r) = fst r').
Proof. exact hp_train_plain. Qed.
Example C80_hyps {SG : @Sing NumQ} : let args := ["LOO"; "c"; "op"] in
  at_most_one_of selections args /\ filter keeps args = ["c"] /\
  snd (hp_train (@demo NumQ None "" None) (SFile (Some (2, demo_X))) (SArr (Arr2 2 demo_T)) args no_kw None None) = Ok tt.
Proof.
  cbv zeta. split; [|split; [reflexivity|vm_compute; reflexivity]].
  intros k k' Hk Hk' (a & Ha & <-) (b & Hb & <-). cbn in Ha, Hb. unfold selections in *. cbn in Hk, Hk'.
  destruct Ha as [<-|[<-|[<-|[]]]], Hb as [<-|[<-|[<-|[]]]]; try reflexivity; vm_compute in Hk, Hk'; intuition discriminate.
Qed.

Section Reals.
#[local] Existing Instance NumR.
Local Open Scope R_scope.

(** ** C77: training does not depend on the order of the samples *)
Theorem C77_order {SG : Sing} {BR : Brent} {SH : Shuffle} : forall e X T X' T' H args kw e1 ws,
  wf_net (e_net e) -> 0 < s_norm (e_net e) -> parse_args e args kw = (e1, Ok tt) ->
  smem "V" args = false -> smem "CV" args = false -> smem "LOO" args = false -> (0 < e_batch e1)%Z ->
  X <> [] -> length X = length T -> length X' = length T' -> Permutation (combine X T) (combine X' T') ->
  wide (s_outputs (e_net e)) T -> weighting e1 T ws -> elm_project e (Arr2 (s_inputs (e_net e)) X) = Ok H ->
  exists t t', train e (Arr2 (s_inputs (e_net e)) X) (Arr2 (s_outputs (e_net e)) T) args kw = (t, Ok None) /\
    train e (Arr2 (s_inputs (e_net e)) X') (Arr2 (s_outputs (e_net e)) T') args kw = (t', Ok None) /\
    s_B (e_net t) <> None /\ s_B (e_net t') = s_B (e_net t) /\ e_wc t' = e_wc t /\
    forall X0, elm_predict t' X0 = elm_predict t X0.
Proof. exact sample_order. Qed.
Example C77_hyps : forall args, args = [] \/ args = ["wc"] -> let e := demo_p 2 1 in let ks := [0; 1; 0]%nat in exists e1 ws,
  wf_net (e_net e) /\ 0 < s_norm (e_net e) /\ parse_args e args no_kw = (e1, Ok tt) /\ (0 < e_batch e1)%Z /\
  Permutation (combine X3 T3) (combine (rev X3) (rev T3)) /\ wide (s_outputs (e_net e)) T3 /\ weighting e1 T3 ws /\
  exists H, elm_project e (Arr2 (s_inputs (e_net e)) X3) = Ok H.
Proof.
  intros args Ha e ks. pose (ws := match args with [] => repeat 1 3 | _ => map (auto_weight ks) ks end).
  assert (Forall2 (has_class 2) T3 ks) as HK.
  { constructor; [|constructor; [|constructor; [|constructor]]].
    - split; [reflexivity|]. split; [lia|]. intros [|[|j]] Hj; try reflexivity; lia.
    - split; [reflexivity|]. split; [lia|]. intros [|[|j]] Hj; try reflexivity; lia.
    - split; [reflexivity|]. split; [lia|]. intros [|[|j]] Hj; try reflexivity; lia. }
  destruct (run_ok (parse_args e args no_kw) tt (fun e1 => (0 < e_batch e1)%Z /\ weighting e1 T3 ws)) as (e1 & E & Hb & Hw).
  - destruct Ha as [->| ->]; reflexivity.
  - split; [destruct Ha as [->| ->]; reflexivity|].
    destruct Ha as [->| ->]; [apply (W_plain _ T3); reflexivity|apply W_auto; [reflexivity|reflexivity|exact HK]].
  - exists e1, ws. split; [apply demo_p_wf|]. split; [exact Rlt_0_1|]. split; [exact E|]. split; [exact Hb|].
    split. { change (combine (rev X3) (rev T3)) with (rev (combine X3 T3)). apply Permutation_rev. }
    split; [repeat constructor|]. split; [exact Hw|]. apply demo_p_proj. repeat constructor.
Qed.

(** ** C78: range, zero and order of the errors *)
Theorem C78_elm : forall e c (T Y : list (list R)),
  ErrThms.plain (e_class e) -> s_outputs (e_net e) = c -> (0 < c)%nat -> wide c T -> wide c Y -> length T = length Y -> T <> [] ->
  exists r, @elm_error NumR e (Arr2 c T) (Arr2 c Y) = Ok (@Fin NumR r) /\
    0 <= r /\ (e_class e <> None -> r <= 1) /\ (r = 0 <-> Forall2 (right (e_class e) c) T Y).
Proof. exact error_range. Qed.
Theorem C78_hpelm : forall e dT dY c (T Y : list (list R)) istart icount,
  ErrThms.plain (e_class e) -> s_outputs (e_net e) = c -> (0 < c)%nat -> (0 < e_batch e)%Z ->
  holds_data dT c T -> holds_data dY c Y -> wide c T -> wide c Y -> length T = length Y ->
  (istart <= length T)%nat -> range_of T istart icount <> [] ->
  exists r, @hp_error NumR e dT dY (Z.of_nat istart) (zcount icount) = Ok (@Fin NumR r) /\
    0 <= r /\ (e_class e <> None -> r <= 1) /\
    (r = 0 <-> Forall2 (right (e_class e) c) (range_of T istart icount) (range_of Y istart icount)).
Proof. exact hp_error_range. Qed.
Theorem C78_weighted : forall e ws c (T Y : list (list R)) ks,
  e_class e = Some "wc" -> e_wc e = Some (fin_all ws) -> s_outputs (e_net e) = c -> length ws = c -> (0 < c)%nat ->
  (forall w, In w ws -> 0 < w) -> Forall2 (has_class c) T ks -> wide c Y -> length T = length Y ->
  exists r, @elm_error NumR e (Arr2 c T) (Arr2 c Y) = Ok (@Fin NumR r) /\ 0 <= r <= 1 /\ (r = 0 <-> Forall2 (fun y k => class_of y = k) Y ks).
Proof. exact error_weighted_range. Qed.
Theorem C78_order : forall e c (T Y T' Y' : list (list R)),
  ErrThms.plain (e_class e) -> s_outputs (e_net e) = c -> (0 < c)%nat -> wide c T -> wide c Y -> length T = length Y ->
  length T' = length Y' -> Permutation (combine T Y) (combine T' Y') ->
  @elm_error NumR e (Arr2 c T) (Arr2 c Y) = @elm_error NumR e (Arr2 c T') (Arr2 c Y').
Proof. exact error_order. Qed.
Example C78_hyps : forall cls, cls = "" \/ cls = "c" \/ cls = "ml" -> let e := @demo NumR None cls None in
  ErrThms.plain (e_class e) /\ s_outputs (e_net e) = 2%nat /\ (0 < e_batch e)%Z /\ wide 2 T3 /\ wide 2 X3 /\ length T3 = length X3 /\
  holds_data (SFile (Some (2%nat, T3))) 2 T3 /\ range_of T3 1 (Some 2%nat) <> [] /\
  Permutation (combine T3 X3) (combine (rev T3) (rev X3)).
Proof.
  intros cls Hc e. split; [destruct Hc as [->|[->| ->]]; cbn; [left|right; left|right; right]; reflexivity|].
  split; [destruct Hc as [->|[->| ->]]; reflexivity|]. split; [destruct Hc as [->|[->| ->]]; reflexivity|].
  split; [repeat constructor|]. split; [repeat constructor|]. split; [reflexivity|]. split; [right; reflexivity|]. split; [discriminate|].
  change (combine (rev T3) (rev X3)) with (rev (combine T3 X3)). apply Permutation_rev.
Qed.
Example C78_weighted_hyps : let e := @demo NumR None "wc" (Some [1; 2]) in
  e_class e = Some "wc" /\ e_wc e = Some (fin_all [1; 2]) /\ s_outputs (e_net e) = 2%nat /\ (forall w, In w [1; 2] -> 0 < w) /\
  Forall2 (has_class 2) T3 [0; 1; 0]%nat.
Proof.
  cbv zeta. split; [reflexivity|]. split; [reflexivity|]. split; [reflexivity|].
  split; [intros w [<-|[<-|[]]]; lra|].
  constructor; [|constructor; [|constructor; [|constructor]]].
  - split; [reflexivity|]. split; [lia|]. intros [|[|j]] Hj; try reflexivity; lia.
  - split; [reflexivity|]. split; [lia|]. intros [|[|j]] Hj; try reflexivity; lia.
  - split; [reflexivity|]. split; [lia|]. intros [|[|j]] Hj; try reflexivity; lia.
Qed.

(** ** C79: the sizes tried by validation_corr *)
Theorem C79_sizes_partial {SG : @Sing NumR} : forall (e : @elm NumR) fs ss dX dT (X T H : list (list R)) steps,
  let s := e_net e in let L := getL s in let c := s_outputs s in
  wf_net s -> ErrThms.plain (e_class e) -> (0 < c)%nat -> (0 < e_batch e)%Z -> 0 < s_norm s ->
  f_HH fs = Some (L, spec_HH L (s_norm s) ss) -> f_HT fs = Some (c, spec_HT L c ss) -> good L ss ->
  data_ok e dX dT X T -> X <> [] -> elm_project e (Arr2 (s_inputs s) X) = Ok H -> (1 <= steps)%nat ->
  exists e' Ls errs confs, validation_corr e fs dX dT (vc_sizes L steps) = (e', Ok (Ls, errs, confs)) /\
    In 3%nat Ls /\ length errs = length Ls /\
    ((3 <= L)%nat -> (2 <= steps)%nat -> StronglySorted lt Ls /\ (length Ls <= steps)%nat /\ In L Ls /\ forall l, In l Ls -> (3 <= l <= L)%nat).
Proof. exact validation_steps. Qed.
Example C79_sizes_hyps {SG : @Sing NumR} : exists (e : @elm NumR) fs ss dX dT X T H,
  let s := e_net e in let L := getL s in let c := s_outputs s in
  wf_net s /\ ErrThms.plain (e_class e) /\ (0 < c)%nat /\ (0 < e_batch e)%Z /\ 0 < s_norm s /\
  f_HH fs = Some (L, spec_HH L (s_norm s) ss) /\ f_HT fs = Some (c, spec_HT L c ss) /\ good L ss /\
  data_ok e dX dT X T /\ X <> [] /\ elm_project e (Arr2 (s_inputs s) X) = Ok H /\ L = 3%nat.
Proof.
  destruct (C47_hyps "c" (or_intror (or_introl eq_refl))) as (H1 & H2 & H3 & H4 & H5 & H6 & H7 & H8 & H9 & H10 & (H & H11)).
  exists (demo None "c" None), vc_files, vc_samples, (SFile (Some (2%nat, demo_X))), (SArr (Arr2 2 demo_T)), demo_X, demo_T, H.
  do 10 (split; [assumption|]). split; [exact H11|reflexivity].
Qed.
(** computed with relative error d *)
Theorem C79_rounded : forall L steps (vs : list R) d, (3 <= L)%nat -> (2 <= steps)%nat -> 0 <= d -> d * INR L < 1 -> 3 * d < 1 ->
  Forall2 (fun v i => Rabs (v - logspace L steps i) <= d * logspace L steps i) vs (seq 0 steps) ->
  (length (sizes_of vs) <= steps)%nat /\ forall l, In l (sizes_of vs) -> (3 <= l <= S L)%nat.
Proof. exact sizes_rounded. Qed.
Example C79_hyps : exists vs, Forall2 (fun v i => Rabs (v - logspace 10 4 i) <= (1 / 100) * logspace 10 4 i) vs (seq 0 4) /\ 1 / 100 * INR 10 < 1.
Proof.
  exists (map (logspace 10 4) (seq 0 4)). split; [|cbn; lra].
  assert (forall i, Rabs (logspace 10 4 i - logspace 10 4 i) <= 1 / 100 * logspace 10 4 i) as H.
  { intros i. unfold Rminus. rewrite Rplus_opp_r, Rabs_R0. rewrite logspace_exp. pose proof (exp_pos (ln 3 + INR i * ((ln (INR 10) - ln 3) / INR (4 - 1)))). lra. }
  cbn [seq map]. repeat (apply Forall2_cons; [apply H|]). apply Forall2_nil.
Qed.
(** refuted: two neurons, and a model of three is reported *)
Theorem C79_refuted {SG : @Sing NumR} : forall steps, (1 <= steps)%nat -> exists (e : @elm NumR) fs dX dT e' Ls errs confs,
  getL (e_net e) = 2%nat /\ validation_corr e fs dX dT (vc_sizes 2 steps) = (e', Ok (Ls, errs, confs)) /\ In 3%nat Ls.
Proof. exact validation_two. Qed.
(** refuted: ten neurons; e, log 10 and the power correctly rounded to binary64; a model of eleven is tried *)
Theorem C79_binary64_refuted : exists e y v,
  round64 (exp 1) e /\ round64 (ln (INR 10)) y /\ round64 (Rpower e y) v /\ forall vs, In v vs -> In 11%nat (sizes_of vs).
Proof. exact sizes_ten. Qed.
End Reals.

Print Assumptions C76_train.
Print Assumptions C76_hpelm.
Print Assumptions C80_no_selection.
Print Assumptions C77_order.
Print Assumptions C78_elm.
Print Assumptions C78_hpelm.
Print Assumptions C78_weighted.
Print Assumptions C78_order.
Print Assumptions C79_sizes_partial.
Print Assumptions C79_rounded.
Print Assumptions C79_refuted.
Print Assumptions C79_binary64_refuted.
