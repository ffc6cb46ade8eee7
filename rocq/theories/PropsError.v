(** Property theorems: errors and confusion matrices (C18-C22).  Proofs are in
    the other files. *)
From Coq Require Import Reals QArith Lra Permutation.
From Verif Require Import Base Num Mat LinAlg Slfn Strs Elm Mrsr Search Mss Hpelm MatFacts Spec ElmFacts RangeThms
  ErrThms Demo Refute1 Refute3.
Local Open Scope nat_scope.

Section Reals.
#[local] Existing Instance NumR.
Local Open Scope R_scope.
Context {SG : Sing}.

(** three targets and predictions, used in the Examples *)
Definition err_T : list (list R) := [[1; 0]; [0; 1]; [1; 0]].
Definition err_Y : list (list R) := [[0; 2]; [0; 1]; [3; 1]].
Example err_wide : wide 2 err_T /\ wide 2 err_Y.
Proof. split; repeat constructor. Qed.

(** ** C18 *)
Theorem C18_hpelm_mean : forall e dT dY c (T Y : list (list R)) istart icount,
  plain (e_class e) -> s_outputs (e_net e) = c -> (0 < c)%nat -> (0 < e_batch e)%Z ->
  holds_data dT c T -> holds_data dY c Y -> wide c T -> wide c Y -> length T = length Y ->
  (istart <= length T)%nat -> range_of T istart icount <> [] ->
  hp_error e dT dY (Z.of_nat istart) (zcount icount) =
    Ok (Fin (mean (errs (e_class e) c (range_of T istart icount) (range_of Y istart icount)))).
Proof. exact hp_error_mean. Qed.

Theorem C18_elm_mean : forall e c (T Y : list (list R)),
  plain (e_class e) -> s_outputs (e_net e) = c -> (0 < c)%nat ->
  wide c T -> wide c Y -> length T = length Y -> T <> [] ->
  elm_error e (Arr2 c T) (Arr2 c Y) = Ok (Fin (mean (errs (e_class e) c T Y))).
Proof. exact elm_error_mean. Qed.

Theorem C18_agree : forall e dT dY c (T Y : list (list R)) istart icount,
  plain (e_class e) -> s_outputs (e_net e) = c -> (0 < c)%nat -> (0 < e_batch e)%Z ->
  holds_data dT c T -> holds_data dY c Y -> wide c T -> wide c Y -> length T = length Y ->
  (istart <= length T)%nat -> range_of T istart icount <> [] ->
  hp_error e dT dY (Z.of_nat istart) (zcount icount) =
    elm_error e (Arr2 c (range_of T istart icount)) (Arr2 c (range_of Y istart icount)).
Proof. exact hp_elm_error. Qed.

Example C18_hyps : forall cls, In cls [""; "c"; "ml"]%string -> let e := demo None cls None in
  plain (e_class e) /\ s_outputs (e_net e) = 2%nat /\ (0 < e_batch e)%Z /\ holds_data (SArr (Arr2 2 err_T)) 2 err_T /\
  holds_data (SFile (Some (2%nat, err_Y))) 2 err_Y /\ wide 2 err_T /\ wide 2 err_Y /\ range_of err_T 1 (Some 2%nat) = [[0; 1]; [1; 0]].
Proof.
  intros cls H e. destruct err_wide as [H1 H2]. unfold holds_data, plain.
  destruct H as [<-|[<-|[<-|[]]]]; (split; [cbn; auto|]); repeat split; auto.
Qed.

(** ** C19 *)
Theorem C19_elm : forall e ws c (T Y : list (list R)),
  e_class e = Some "wc"%string -> e_wc e = Some (fin_all ws) -> s_outputs (e_net e) = c -> length ws = c -> Rsum ws <> 0 ->
  wide c T -> wide c Y -> length T = length Y ->
  elm_error e (Arr2 c T) (Arr2 c Y) = Ok (Fin (weighted_err ws T Y)).
Proof. exact elm_error_wc. Qed.

Theorem C19_hpelm_partial : forall e ws dT dY c (T Y : list (list R)) istart icount,
  e_class e = Some "wc"%string -> e_wc e = Some (fin_all ws) -> s_outputs (e_net e) = c -> length ws = c -> Rsum ws <> 0 -> (0 < e_batch e)%Z ->
  holds_data dT c T -> holds_data dY c Y -> wide c T -> wide c Y -> length T = length Y -> (istart <= length T)%nat ->
  (forall k, (k < c)%nat -> members (range_of T istart icount) (range_of Y istart icount) k <> []) ->
  hp_error e dT dY (Z.of_nat istart) (zcount icount) =
    Ok (Fin (weighted_err ws (range_of T istart icount) (range_of Y istart icount))).
Proof. exact hp_error_wc. Qed.

Theorem C19_hpelm_absent_class : forall e ws dT dY c (T Y : list (list R)) istart icount k,
  e_class e = Some "wc"%string -> e_wc e = Some (fin_all ws) -> s_outputs (e_net e) = c -> length ws = c -> (0 < e_batch e)%Z ->
  holds_data dT c T -> holds_data dY c Y -> wide c T -> wide c Y -> length T = length Y -> (istart <= length T)%nat ->
  (k < c)%nat -> members (range_of T istart icount) (range_of Y istart icount) k = [] ->
  hp_error e dT dY (Z.of_nat istart) (zcount icount) = Ok XNaN.
Proof. exact hp_error_wc_absent. Qed.

Example C19_hyps : let e := demo None "wc" (Some [1; 2]) in
  e_class e = Some "wc"%string /\ e_wc e = Some (fin_all [1; 2]) /\ s_outputs (e_net e) = 2%nat /\ Rsum [1; 2] <> 0 /\ (0 < e_batch e)%Z /\
  (forall k, (k < 2)%nat -> members (range_of err_T 0 None) (range_of err_Y 0 None) k <> []) /\
  members (range_of err_T 2 None) (range_of err_Y 2 None) 1 = [].
Proof.
  intros e. split; [reflexivity|]. split; [reflexivity|]. split; [reflexivity|]. split; [cbn; lra|]. split; [reflexivity|]. split.
  - intros k Hk. unfold members, range_of, err_T, err_Y. cbn [skipn combine filter fst]. unfold in_class.
    destruct k as [|[|k]]; [| |lia]; cbn [entry nth].
    + destruct (Req_EM_T 1 1); [discriminate|congruence].
    + destruct (Req_EM_T 0 1); [lra|]. destruct (Req_EM_T 1 1); [discriminate|congruence].
  - unfold members, range_of, err_T, err_Y. cbn [skipn combine filter fst]. unfold in_class. cbn [entry nth].
    destruct (Req_EM_T 0 1); [lra|reflexivity].
Qed.

(** ** C20 *)
Theorem C20_elm_rejects_partial : forall e c (T Y : list (list R)),
  plain (e_class e) -> s_outputs (e_net e) = c -> T = [] -> Y = [] ->
  elm_error e (Arr2 c T) (Arr2 c Y) = Err AssertionError.
Proof. exact elm_error_empty. Qed.

(** the opposite of what is wanted, for every empty range *)
Theorem C20_hpelm_returns_zero : forall e dT dY c (T Y : list (list R)) istart icount,
  plain (e_class e) -> s_outputs (e_net e) = c -> (0 < e_batch e)%Z ->
  holds_data dT c T -> holds_data dY c Y -> (clip_count icount (length T) istart <= 0)%Z ->
  hp_error e dT dY istart icount = Ok (Fin 0).
Proof. exact hp_error_empty. Qed.

Example C20_hyps : let e := demo None "c" None in
  plain (e_class e) /\ s_outputs (e_net e) = 2%nat /\ (0 < e_batch e)%Z /\ holds_data (SArr (Arr2 2 err_T)) 2 err_T /\
  (clip_count None (length err_T) 4 <= 0)%Z.
Proof. unfold plain, holds_data. cbn. repeat split; auto; lia. Qed.

(** ** C21 *)
Theorem C21_counts : forall e cls c (T Y : list (list R)),
  e_class e = Some cls -> In cls ["c"; "wc"]%string -> s_outputs (e_net e) = c -> (0 < e_batch e)%Z ->
  length T = length Y ->
  exists M, confusion e (Arr2 c T) (Arr2 c Y) = Ok M /\ is_mat c c M /\
    forall i j, (i < c)%nat -> (j < c)%nat -> cell M i j = INR (tally (both_classes i j) T Y).
Proof. exact confusion_classes. Qed.

Theorem C21_totals : forall e cls c (T Y : list (list R)) M,
  e_class e = Some cls -> In cls ["c"; "wc"]%string -> s_outputs (e_net e) = c -> (0 < c)%nat -> (0 < e_batch e)%Z ->
  wide c T -> wide c Y -> length T = length Y -> confusion e (Arr2 c T) (Arr2 c Y) = Ok M ->
  Rsum (map (fun i => Rsum (map (cell M i) (seq 0 c))) (seq 0 c)) = INR (length T) /\
  (T <> [] -> mean (map2 cls_err T Y) = 1 - Rsum (map (fun i => cell M i i) (seq 0 c)) / INR (length T)).
Proof. exact confusion_totals. Qed.

(** ** C22 *)
Theorem C22_counts : forall e c (T Y : list (list R)),
  e_class e = Some "ml"%string -> s_outputs (e_net e) = c -> (0 < e_batch e)%Z -> length T = length Y ->
  exists M, confusion e (Arr2 c T) (Arr2 c Y) = Ok M /\ is_mat c c M /\
    forall i j, (i < c)%nat -> (j < c)%nat -> cell M i j = INR (tally (both_labels i j) T Y).
Proof. exact confusion_labels. Qed.

Example C21_C22_hyps : forall cls, In cls ["c"; "wc"; "ml"]%string -> let e := demo None cls None in
  e_class e = Some cls /\ s_outputs (e_net e) = 2%nat /\ (0 < e_batch e)%Z /\ length err_T = length err_Y /\
  tally (both_labels 0 0) err_T err_Y = 1%nat.
Proof.
  intros cls H e. assert (tally (both_labels 0 0) err_T err_Y = 1%nat) as E.
  { unfold tally, err_T, err_Y. cbn [combine filter fst snd]. unfold both_labels, has_label. cbn [entry nth].
    destruct (Rlt_dec (1 / 2) 1); [|lra]. destruct (Rlt_dec (1 / 2) 0); [lra|]. destruct (Rlt_dec (1 / 2) 3); [reflexivity|lra]. }
  destruct H as [<-|[<-|[<-|[]]]]; repeat split; exact E.
Qed.
End Reals.

Section Rationals.
#[local] Existing Instance NumQ.
Local Open Scope Q_scope.

Theorem C19_refuted {SG : @Sing NumQ} : exists T Y : list (list Q),
  elm_error wc_model (Arr2 2 T) (Arr2 2 Y) = Ok (Fin (1 # 6)) /\
  hp_error wc_model (SArr (Arr2 2 T)) (SArr (Arr2 2 Y)) 0 None = Ok XNaN.
Proof. exact (ex_intro _ [[1; 0]; [1; 0]] (ex_intro _ [[1; 0]; [0; 1]] wc_differ)). Qed.

Theorem C20_refuted {SG : @Sing NumQ} :
  hp_error (demo None "" None) (SArr (Arr2 2 [[1; 0]])) (SArr (Arr2 2 [[0; 3]])) 1 None = Ok (Fin 0) /\
  hp_error (demo None "c" None) (SArr (Arr2 2 [[1; 0]])) (SArr (Arr2 2 [[0; 3]])) 0 (Some 0%Z) = Ok (Fin 0) /\
  hp_error (demo None "ml" None) (SArr (Arr2 2 [[1; 0]])) (SArr (Arr2 2 [[0; 3]])) 5 None = Ok (Fin 0) /\
  elm_error wc_model (Arr2 2 []) (Arr2 2 []) = Ok (Fin 0).
Proof. exact empty_perfect. Qed.
End Rationals.

Print Assumptions C18_hpelm_mean.
Print Assumptions C18_elm_mean.
Print Assumptions C18_agree.
Print Assumptions C19_elm.
Print Assumptions C19_hpelm_partial.
Print Assumptions C19_hpelm_absent_class.
Print Assumptions C20_elm_rejects_partial.
Print Assumptions C20_hpelm_returns_zero.
Print Assumptions C21_counts.
Print Assumptions C21_totals.
Print Assumptions C22_counts.
Print Assumptions C19_refuted.
Print Assumptions C20_refuted.
