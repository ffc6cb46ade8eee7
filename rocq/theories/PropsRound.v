(** Properties C72-C75: floating-point rounding.  [rounded K] says that the
    arithmetic of K rounds with relative error [r_u] and absolute (underflow)
    error [r_eta]; the format examples below give the numbers for IEEE double
    and single precision, computed with the standard library's SpecFloat.
    The bound [bnd RD k A m] is ((1+u)^k - 1) A + (1+u)^k m eta. *)
From Coq Require Import ZArith Reals Lra Permutation Floats.SpecFloat.
From Verif Require Import Base Num Mat LinAlg Slfn Strs Elm Hpelm MatFacts ElmFacts TrainThms RangeThms ErrThms Demo SumOf Float Rounding RoundThms Spec.
Local Open Scope string_scope.
Local Open Scope list_scope.
Local Open Scope R_scope.

(** ** The arithmetics covered *)
Theorem C73_formats : forall fe ft,
  (exists RD : rounded (Num64 fe ft), r_u _ RD = / 2 ^ 53 /\ r_eta _ RD = / 2 ^ 1075 /\ r_int _ RD = (2 ^ 53)%Z /\
     (forall s m e, r_fin _ RD (S754_finite s m e)) /\ r_val _ RD (S754_finite false 3 (-1)) = 3 / 2) /\
  (exists RD : rounded (Num32 fe ft), r_u _ RD = / 2 ^ 24 /\ r_eta _ RD = / 2 ^ 150 /\ r_int _ RD = (2 ^ 24)%Z /\
     (forall s m e, r_fin _ RD (S754_finite s m e)) /\ r_val _ RD (S754_finite false 3 (-1)) = 3 / 2).
Proof. exact formats. Qed.

Section Any.
Context {K : Num} {SG : Sing}.

(** ** C72: every sample is counted exactly once *)
Theorem C72_once : forall e ps H, no_data (e_net e) -> is_wc e = false -> (0 < e_batch e)%Z -> ps <> [] ->
  (forall X T, In (X, T) ps -> X <> [] /\ length X = length T /\ wide (s_outputs (e_net e)) T) ->
  elm_project e (Arr2 (s_inputs (e_net e)) (rows_of ps)) = Ok H ->
  exists e' HH HT, run_all (fun e p => add_data e (fst p) (snd p)) e ps = (e', Ok tt) /\
    get_corr (e_net e') = Ok (Some (HH, HT)) /\
    is_mat (getL (e_net e)) (getL (e_net e)) HH /\ is_mat (getL (e_net e)) (s_outputs (e_net e)) HT /\
    (forall i j, (i < getL (e_net e))%nat -> (j < getL (e_net e))%nat ->
       sum_of (HH_term (s_norm (e_net e)) i j) (HH_index i j H) (mget HH i j) \/
       sum_of (HH_term (s_norm (e_net e)) j i) (HH_index i j H) (mget HH i j)) /\
    (forall i k, (i < getL (e_net e))%nat -> (k < s_outputs (e_net e))%nat ->
       sum_of (HT_term i k) (combine H (targets_of ps)) (mget HT i k)).
Proof. exact trained_sums. Qed.

Context (RD : rounded K).

(** ** C73: rounding error of the accumulated matrices *)
Theorem C73_accumulated : forall e ps H, no_data (e_net e) -> is_wc e = false -> (0 < e_batch e)%Z -> ps <> [] ->
  (forall X T, In (X, T) ps -> X <> [] /\ length X = length T /\ wide (s_outputs (e_net e)) T) ->
  elm_project e (Arr2 (s_inputs (e_net e)) (rows_of ps)) = Ok H ->
  let L := getL (e_net e) in let c := s_outputs (e_net e) in let N := length H in let norm := r_val K RD (s_norm (e_net e)) in
  exists e' HH HT, run_all (fun e p => add_data e (fst p) (snd p)) e ps = (e', Ok tt) /\
    get_corr (e_net e') = Ok (Some (HH, HT)) /\
    (forall i j, (i < L)%nat -> (j < L)%nat -> r_fin K RD (mget HH i j) ->
       Rabs (r_val K RD (mget HH i j) - entry (nth i (spec_HH L norm (Spec.plain (vals RD H) (vals RD (targets_of ps)))) []) j) <=
       bnd RD (N + 1) (entry (nth i (spec_HH L (Rabs norm) (Spec.plain (mags RD H) (mags RD (targets_of ps)))) []) j) (2 * INR N)) /\
    (forall i k, (i < L)%nat -> (k < c)%nat -> r_fin K RD (mget HT i k) ->
       Rabs (r_val K RD (mget HT i k) - entry (nth i (spec_HT L c (Spec.plain (vals RD H) (vals RD (targets_of ps)))) []) k) <=
       bnd RD (N + 1) (entry (nth i (spec_HT L c (Spec.plain (mags RD H) (mags RD (targets_of ps)))) []) k) (2 * INR N)).
Proof. exact (trained_rounding RD). Qed.

Theorem C73_splits : forall e1 e2 ps1 ps2 H,
  no_data (e_net e1) -> no_data (e_net e2) -> is_wc e1 = false -> is_wc e2 = false -> (0 < e_batch e1)%Z -> (0 < e_batch e2)%Z ->
  getL (e_net e1) = getL (e_net e2) -> s_outputs (e_net e1) = s_outputs (e_net e2) -> s_norm (e_net e1) = s_norm (e_net e2) ->
  (forall X T, In (X, T) ps1 -> X <> [] /\ length X = length T /\ wide (s_outputs (e_net e1)) T) ->
  (forall X T, In (X, T) ps2 -> X <> [] /\ length X = length T /\ wide (s_outputs (e_net e2)) T) ->
  ps1 <> [] -> ps2 <> [] -> targets_of ps1 = targets_of ps2 ->
  elm_project e1 (Arr2 (s_inputs (e_net e1)) (rows_of ps1)) = Ok H -> elm_project e2 (Arr2 (s_inputs (e_net e2)) (rows_of ps2)) = Ok H ->
  let L := getL (e_net e1) in let c := s_outputs (e_net e1) in let N := length H in
  exists e1' e2' HH1 HT1 HH2 HT2,
    run_all (fun e p => add_data e (fst p) (snd p)) e1 ps1 = (e1', Ok tt) /\ get_corr (e_net e1') = Ok (Some (HH1, HT1)) /\
    run_all (fun e p => add_data e (fst p) (snd p)) e2 ps2 = (e2', Ok tt) /\ get_corr (e_net e2') = Ok (Some (HH2, HT2)) /\
    (forall i j, (i < L)%nat -> (j < L)%nat -> r_fin K RD (mget HH1 i j) -> r_fin K RD (mget HH2 i j) ->
       Rabs (r_val K RD (mget HH1 i j) - r_val K RD (mget HH2 i j)) <=
       2 * bnd RD (N + 1) (entry (nth i (spec_HH L (Rabs (r_val K RD (s_norm (e_net e1)))) (Spec.plain (mags RD H) (mags RD (targets_of ps1)))) []) j) (2 * INR N)) /\
    (forall i k, (i < L)%nat -> (k < c)%nat -> r_fin K RD (mget HT1 i k) -> r_fin K RD (mget HT2 i k) ->
       Rabs (r_val K RD (mget HT1 i k) - r_val K RD (mget HT2 i k)) <=
       2 * bnd RD (N + 1) (entry (nth i (spec_HT L c (Spec.plain (mags RD H) (mags RD (targets_of ps1)))) []) k) (2 * INR N)).
Proof. exact (splits_rounding RD). Qed.

(** ** C74: rounding error of predict() *)
Theorem C74_predict : forall e X H B Y, elm_project e (Arr2 (s_inputs (e_net e)) X) = Ok H ->
  s_B (e_net e) = Some B -> elm_predict e (Arr2 (s_inputs (e_net e)) X) = Ok Y ->
  (forall h, In h H -> length h = length B) ->
  length Y = length X /\ forall r k, (r < length X)%nat -> (k < s_outputs (e_net e))%nat -> r_fin K RD (mget Y r k) ->
    Rabs (r_val K RD (mget Y r k) - predict1 (vals RD B) (nth r (vals RD H) []) k) <=
    bnd RD (length B) (predict1 (mags RD B) (nth r (mags RD H) []) k) (2 * INR (length B)).
Proof. exact (predict_rounding RD). Qed.

(** ** C75: rounding error of the mean squared error *)
Theorem C75_elm : forall e c T Y x, e_class e = None -> s_outputs (e_net e) = c -> (0 < c)%nat ->
  wide c T -> wide c Y -> length T = length Y -> Forall (Forall (r_rep K RD)) T -> Forall (Forall (r_rep K RD)) Y ->
  (Z.of_nat (length T * c) < r_int K RD)%Z ->
  elm_error e (Arr2 c T) (Arr2 c Y) = Ok (Fin x) -> r_fin K RD x ->
  let mse := mean (errs None c (vals RD T) (vals RD Y)) in
  Rabs (r_val K RD x - mse) <= bnd RD (length T * c + 3) mse 3.
Proof. exact (elm_error_rounding RD). Qed.

Theorem C75_hpelm : forall e dT dY c T Y istart icount x,
  e_class e = None -> s_outputs (e_net e) = c -> (0 < c)%nat -> (0 < e_batch e)%Z ->
  holds_data dT c T -> holds_data dY c Y -> wide c T -> wide c Y -> length T = length Y ->
  Forall (Forall (r_rep K RD)) T -> Forall (Forall (r_rep K RD)) Y ->
  (istart <= length T)%nat -> let N := length (range_of T istart icount) in (0 < N)%nat ->
  (Z.of_nat (N * c) < r_int K RD)%Z ->
  hp_error e dT dY (Z.of_nat istart) (zcount icount) = Ok (Fin x) -> r_fin K RD x ->
  let mse := mean (errs None c (vals RD (range_of T istart icount)) (vals RD (range_of Y istart icount))) in
  Rabs (r_val K RD x - mse) <= bnd RD (N * c + N + 4) mse (2 * INR N + 3).
Proof. exact (hp_error_rounding RD). Qed.
End Any.

(** ** Concrete cases in double precision; 1/10 and 1/5 are not representable *)
Section Double.
Definition no_fun (x : spec_float) : spec_float := S754_nan.
Notation K64 := (Num64 no_fun no_fun).
#[local] Instance Num64_inst : Num := K64.
Context {SG : Sing}.

Definition d_tenth : spec_float := SFdiv 53 1024 n1 (nof_nat 10).
Definition d_fifth : spec_float := SFdiv 53 1024 n1 (nof_nat 5).
Definition d_model (accel : option string) (batch : Z) : elm := lin_model 2 1 "" None batch accel d_tenth 2 [[d_fifth; n1]; [n1; n0]] [d_tenth; n1].
Definition d_data : list (mat * mat) := [([[n1; d_tenth]; [d_fifth; n1]; [n1; n1]], [[n1]; [d_tenth]; [d_fifth]]); ([[d_tenth; d_tenth]], [[n1]])].
Definition d_parts : list (mat * mat) := [([[n1; d_tenth]; [d_fifth; n1]], [[n1]; [d_tenth]]); ([[n1; n1]; [d_tenth; d_tenth]], [[d_fifth]; [n1]])].

Example C72_C73_hyps : exists H,
  Forall (fun e => no_data (e_net e) /\ is_wc e = false /\ (0 < e_batch e)%Z /\ getL (e_net e) = 2%nat /\ s_outputs (e_net e) = 1%nat)
    [d_model None 2; d_model (Some "basic") 1] /\
  s_norm (e_net (d_model None 2)) = s_norm (e_net (d_model (Some "basic") 1)) /\
  (forall X T, In (X, T) (d_data ++ d_parts) -> X <> [] /\ length X = length T /\ wide 1 T) /\
  targets_of d_data = targets_of d_parts /\
  elm_project (d_model None 2) (Arr2 2 (rows_of d_data)) = Ok H /\
  elm_project (d_model (Some "basic") 1) (Arr2 2 (rows_of d_parts)) = Ok H /\
  match get_corr (e_net (fst (run_all (fun e p => add_data e (fst p) (snd p)) (d_model None 2) d_data))),
        get_corr (e_net (fst (run_all (fun e p => add_data e (fst p) (snd p)) (d_model (Some "basic") 1) d_parts))) with
  | Ok (Some (HH1, HT1)), Ok (Some (HH2, HT2)) => HH1 <> HH2 /\
      (forall i j, (i < 2)%nat -> (j < 2)%nat -> sf_fin (mget HH1 i j) /\ sf_fin (mget HH2 i j))
  | _, _ => False end.
Proof.
  eexists. split; [repeat constructor|]. split; [vm_compute; reflexivity|].
  split. { intros X T H. repeat (destruct H as [E|H]; [injection E as <- <-; split; [discriminate|]; split; [reflexivity|repeat constructor]|]). destruct H. }
  split; [reflexivity|]. split; [vm_compute; reflexivity|]. split; [vm_compute; reflexivity|].
  vm_compute get_corr. vm_compute. split; [discriminate|].
  intros i j Hi Hj. do 2 (destruct i as [|i]; [do 2 (destruct j as [|j]; [split; exact I|]); exfalso; lia|]); exfalso; lia.
Qed.

(** trained weights set through nnet.set_B *)
Definition d_trained : elm := with_net (d_model None 2) (fst (set_B (e_net (d_model None 2)) 2 1 [[d_tenth]; [d_fifth]])).
Example C74_hyps : exists H B Y, elm_project d_trained (Arr2 2 (rows_of d_data)) = Ok H /\ s_B (e_net d_trained) = Some B /\
  elm_predict d_trained (Arr2 2 (rows_of d_data)) = Ok Y /\ (forall h, In h H -> length h = length B) /\
  (forall r, (r < 4)%nat -> sf_fin (mget Y r 0)) /\
  (* the first prediction, near 0.44 *)
  mget Y 0 0 = S754_finite false 7926335344172074 (-54).
Proof.
  eexists. eexists. eexists. split; [vm_compute; reflexivity|]. split; [vm_compute; reflexivity|]. split; [vm_compute; reflexivity|].
  split. { intros h Hh. repeat (destruct Hh as [<-|Hh]; [reflexivity|]). destruct Hh. }
  split. { intros r Hr. do 4 (destruct r as [|r]; [exact I|]). lia. }
  reflexivity.
Qed.

Lemma fin_result : forall r : res xnum, (match r with Ok (Fin x) => sf_fin x | _ => False end) -> exists x, r = Ok (Fin x) /\ sf_fin x.
Proof. intros [[x| | |]|] H; try destruct H. exists x. split; [reflexivity|exact H]. Qed.
Example C75_hyps : let T := [[n1]; [d_tenth]; [d_fifth]] in let Y := [[d_fifth]; [n1]; [d_tenth]] in
  e_class d_trained = None /\ s_outputs (e_net d_trained) = 1%nat /\ (0 < e_batch d_trained)%Z /\
  wide 1 T /\ wide 1 Y /\ Forall (Forall (sf_rep 53 1024)) T /\ Forall (Forall (sf_rep 53 1024)) Y /\
  range_of T 0 None = T /\ (Z.of_nat (3 * 1) < 2 ^ 53)%Z /\
  (exists x, elm_error d_trained (Arr2 1 T) (Arr2 1 Y) = Ok (Fin x) /\ sf_fin x) /\
  (exists x, hp_error d_trained (SArr (Arr2 1 T)) (SArr (Arr2 1 Y)) (Z.of_nat 0) (zcount None) = Ok (Fin x) /\ sf_fin x).
Proof.
  intros T Y. split; [vm_compute; reflexivity|]. split; [vm_compute; reflexivity|]. split; [vm_compute; reflexivity|].
  split; [repeat constructor|]. split; [repeat constructor|].
  assert (sf_rep 53 1024 n1 /\ sf_rep 53 1024 d_tenth /\ sf_rep 53 1024 d_fifth) as (R1 & R2 & R3)
    by (split; [|split]; vm_compute; discriminate).
  split. { exact (Forall_cons _ (Forall_cons _ R1 (Forall_nil _)) (Forall_cons _ (Forall_cons _ R2 (Forall_nil _)) (Forall_cons _ (Forall_cons _ R3 (Forall_nil _)) (Forall_nil _)))). }
  split. { exact (Forall_cons _ (Forall_cons _ R3 (Forall_nil _)) (Forall_cons _ (Forall_cons _ R1 (Forall_nil _)) (Forall_cons _ (Forall_cons _ R2 (Forall_nil _)) (Forall_nil _)))). }
  split; [reflexivity|]. split; [vm_compute; reflexivity|]. split; apply fin_result; vm_compute; exact I.
Qed.
End Double.

Print Assumptions C73_formats.
Print Assumptions C72_once.
Print Assumptions C73_accumulated.
Print Assumptions C73_splits.
Print Assumptions C74_predict.
Print Assumptions C75_elm.
Print Assumptions C75_hpelm.
