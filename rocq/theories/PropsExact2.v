(** Exact characterisations for C25 and C32; shapes of given parameters: C94. *)
From Coq Require Import QArith.
From Verif Require Import Base Num Mat LinAlg Slfn Strs Elm Hpelm MatFacts Network Async WfProofs LoadThms RangeThms AsyncThms AsyncApi AsyncExact Accept Demo Refute5 Refute6 PropsState PropsAsync.
Local Open Scope nat_scope.

Section Any.
Context {K : Num} {SG : Sing}.

(** ** C25: which calls of predict_async return, for every schedule (positive batch size).
    A file: the call returns with the predictions of predict if every batch can be stored;
    it hangs if a batch before the last one cannot; if only the last one cannot, it
    returns with zeros in these rows where predict raises *)
Theorem C25_predict_async_file : forall e w X P istart icount pc N c,
  (0 < e_batch e)%Z -> (forall q, 0 < pc q) -> predict (e_net e) X = Ok P ->
  predict_async e (SFile (Some (w, X))) istart icount pc = Ok (N, c) ->
  let cnt := selected icount (Z.of_nat (length X)) istart in
  let nb := ceil_div cnt (e_batch e) in
  let bad := misread (length X) (e_batch e) istart cnt in
  ((forall b, (0 <= b < nb)%Z -> ~ bad b) -> exists Y, hp_predict e (SFile (Some (w, X))) DFile istart icount = Ok Y /\
     all_runs N c (fun g => predict_finish g = Some (Ok Y))) /\
  ((exists b, (0 <= b < nb - 1)%Z /\ bad b) -> all_runs N c (fun g => predict_finish g = None)) /\
  ((forall b, (0 <= b < nb - 1)%Z -> ~ bad b) -> (0 < nb)%Z -> bad (nb - 1)%Z -> exists Y,
     hp_predict e (SFile (Some (w, X))) DFile istart icount = Err ValueError /\
     hp_predict e (SFile (Some (w, X))) DFile istart (Some ((nb - 1) * e_batch e)%Z) = Ok Y /\
     all_runs N c (fun g => predict_finish g = Some (Ok (Y ++ zero_mat (Z.to_nat (cnt - (nb - 1) * e_batch e)) (s_outputs (e_net e)))))).
Proof. exact predict_async_exact. Qed.
(** an array: the call hangs unless nothing is selected *)
Theorem C25_predict_async_array : forall e a istart icount pc N c X,
  (0 < e_batch e)%Z -> (forall q, 0 < pc q) -> check_src (SArr a) (s_inputs (e_net e)) = Ok X ->
  predict_async e (SArr a) istart icount pc = Ok (N, c) ->
  ((0 < selected icount (Z.of_nat (length X)) istart)%Z -> all_runs N c (fun g => predict_finish g = None)) /\
  (selected icount (Z.of_nat (length X)) istart = 0%Z -> all_runs N c (fun g => predict_finish g = Some (Ok [])) /\ hp_predict e (SArr a) DFile istart icount = Ok []).
Proof. exact predict_async_array_exact. Qed.
(** the three cases, with three samples and batches of two: samples -3 and -2; from sample
    -2 on (five rows); samples -2 and -1 *)
Example C25_file_hyps : is_ok (predict (e_net async_demo) demo_X) = true /\ length demo_X = 3 /\ e_batch async_demo = 2%Z /\
  is_ok (predict_async async_demo (SFile (Some (2, demo_X))) (-3) (Some 2%Z) (fun _ => 1)) = true /\
  (forall b, (0 <= b < ceil_div 2 2)%Z -> ~ misread 3 2 (-3) 2 b) /\
  is_ok (predict_async async_demo (SFile (Some (2, demo_X))) (-2) None (fun _ => 1)) = true /\
  (exists b, (0 <= b < ceil_div 5 2 - 1)%Z /\ misread 3 2 (-2) 5 b) /\
  is_ok (predict_async async_demo (SFile (Some (2, demo_X))) (-2) (Some 2%Z) (fun _ => 1)) = true /\
  misread 3 2 (-2) 2 (ceil_div 2 2 - 1).
Proof.
  split; [vm_compute; reflexivity|]. split; [reflexivity|]. split; [reflexivity|]. split; [vm_compute; reflexivity|]. split.
  { change (ceil_div 2 2) with 1%Z. intros b H. assert (b = 0)%Z as -> by lia. vm_compute. intuition. }
  split; [vm_compute; reflexivity|]. split; [exists 0%Z; split; [vm_compute; intuition discriminate|vm_compute; intuition discriminate]|].
  split; [vm_compute; reflexivity|]. vm_compute; intuition discriminate.
Qed.
Example C25_array_hyps : is_ok (predict_async async_demo (SArr (Arr2 2 demo_X)) 0 None (fun _ => 1)) = true /\
  selected None 3 0 = 3%Z /\ is_ok (predict_async async_demo (SArr (Arr2 2 demo_X)) 3 None (fun _ => 1)) = true /\ selected None 3 3 = 0%Z.
Proof. repeat split; vm_compute; reflexivity. Qed.

(** ** C32: loading a trained model into an object with an accelerator.  The neurons the
    object has are kept.  The call raises ValueError if the weights of a type differ in
    height, AssertionError if the object has neurons or another number of outputs, and
    works otherwise *)
Theorem C32_accelerated_exact : forall e a m, e_accel e = Some a -> wf_net (e_net e) ->
  NoDup (map n_func (sv_neurons m)) -> sv_neurons m <> [] ->
  let old := s_neurons (e_net e) in
  (~ same_height old (sv_neurons m) -> snd (update_from e m) = Err ValueError) /\
  (same_height old (sv_neurons m) ->
     (forall B, sv_B m = Some B -> length B = nneurons (sv_neurons m) ->
        snd (update_from e m) = if ((nneurons old =? 0) && (sv_outputs m =? s_outputs (e_net e)))%nat then Ok tt else Err AssertionError) /\
     (sv_B m = None -> snd (update_from e m) = Ok tt) /\
     let e' := fst (update_from e m) in
     joined old (sv_neurons m) (s_neurons (e_net e')) /\ s_norm (e_net e') = sv_norm m /\
     s_inputs (e_net e') = s_inputs (e_net e) /\ s_outputs (e_net e') = s_outputs (e_net e) /\
     s_B (e_net e') = (if is_ok (snd (update_from e m)) then sv_B m else None) /\ s_HH (e_net e') = None /\ s_HT (e_net e') = None).
Proof. exact load_accelerated. Qed.
(** weights of another height; neurons of the same type; an object without neurons *)
Example C32_exact_hyps : let e := demo (Some "GPU"%string) "" None in let m := output_format async_demo in
  wf_net (e_net e) /\ NoDup (map n_func (sv_neurons m)) /\ length (sv_neurons m) = 2 /\ (exists B, sv_B m = Some B /\ length B = nneurons (sv_neurons m)) /\
  same_height (s_neurons (e_net e)) (sv_neurons m) /\ nneurons (s_neurons (e_net e)) = 3 /\
  (let e3 := lin_model 3 2 "" None 2 (Some "GPU"%string) n1 1 [[n1]; [n1]; [n1]] [n0] in wf_net (e_net e3) /\ ~ same_height (s_neurons (e_net e3)) (sv_neurons m)) /\
  (exists e0, elm_init 2 2 "" None 10 (Some "GPU"%string) PF64 None = Ok e0 /\ wf_net (e_net e0) /\ snd (update_from e0 m) = Ok tt).
Proof.
  cbv zeta. split; [apply demo_wf; cbn; auto|]. split; [cbn; repeat constructor; cbn; intuition discriminate|]. split; [reflexivity|].
  split; [eexists; split; reflexivity|]. split.
  { intros a b Ha Hb E. cbn in Ha, Hb. destruct Ha as [<-|[<-|[]]], Hb as [<-|[<-|[]]]; reflexivity. }
  split; [reflexivity|]. split; [split|].
  - constructor; cbn; try exact I; repeat constructor; cbn; auto; intuition discriminate.
  - intros H. specialize (H _ _ (or_introl eq_refl) (or_introl eq_refl) eq_refl). discriminate H.
  - eexists. split; [reflexivity|]. split; [apply wf_init|]. vm_compute. reflexivity.
Qed.

(** ** C94: shapes *)
Theorem C94_set_B : forall s r c B, wf_net s -> s_neurons s <> [] ->
  (set_B s r c B = (with_B s (Some B), Ok tt) /\ r = nneurons (s_neurons s) /\ c = s_outputs s) \/
  (set_B s r c B = (s, Err AssertionError) /\ ~ (r = nneurons (s_neurons s) /\ c = s_outputs s)).
Proof. exact set_B_iff. Qed.
Theorem C94_set_corr : forall s r0 r1 HH t0 t1 HT, wf_net s -> s_neurons s <> [] ->
  let L := nneurons (s_neurons s) in
  (set_corr s r0 r1 HH t0 t1 HT = (with_corr s (Some HH) (Some HT), Ok tt) /\ r0 = L /\ r1 = L /\ t0 = L /\ t1 = s_outputs s) \/
  (set_corr s r0 r1 HH t0 t1 HT = (s, Err AssertionError) /\ ~ (r0 = L /\ r1 = L /\ t0 = L /\ t1 = s_outputs s)).
Proof. exact set_corr_iff. Qed.
Theorem C94_without_neurons : forall s r c B r0 r1 HH t0 t1 HT, wf_net s -> s_neurons s = [] -> s_L s = None ->
  set_B s r c B = (s, Err TypeError) /\ set_corr s r0 r1 HH t0 t1 HT = (s, Err TypeError).
Proof. exact set_without_neurons. Qed.
Theorem C94_add_neurons : forall e n func c W B rW rB, wf_net (e_net e) ->
  (exists f, parse_func func = Some f /\ (0 <= n)%Z /\ length W = s_inputs (e_net e) /\ c = Z.to_nat n /\ length B = Z.to_nat n) <->
  snd (add_neurons e n func (Some (c, W)) (Some B) rW rB) = Ok tt.
Proof. exact add_neurons_iff. Qed.
Theorem C94_add_neurons_default : forall e n func rW rB, wf_net (e_net e) -> rand_shapes (s_inputs (e_net e)) rW rB ->
  snd (add_neurons e n func None None rW rB) = Ok tt <-> (0 <= n)%Z /\ exists f, parse_func func = Some f.
Proof. exact add_neurons_default_iff. Qed.
Example C94_hyps : let e := demo None "" None in wf_net (e_net e) /\ s_neurons (e_net e) <> [] /\ nneurons (s_neurons (e_net e)) = 3 /\ s_outputs (e_net e) = 2 /\
  rand_shapes (s_inputs (e_net e)) (fun n => mk 2 n (fun _ _ => n1)) (fun n => mkv n (fun _ => n1)) /\
  (exists e0, elm_init 2 2 "" None 10 None PF64 None = Ok e0 /\ wf_net (e_net e0) /\ s_neurons (e_net e0) = [] /\ s_L (e_net e0) = None).
Proof.
  cbv zeta. split; [apply demo_wf; cbn; auto|]. split; [discriminate|]. split; [reflexivity|]. split; [reflexivity|]. split.
  - intros n. split; [apply is_mat_mk|apply mkv_length].
  - eexists. split; [reflexivity|]. split; [apply wf_init|]. split; reflexivity.
Qed.
End Any.

Print Assumptions C25_predict_async_file.
Print Assumptions C25_predict_async_array.
Print Assumptions C32_accelerated_exact.
Print Assumptions C94_set_B.
Print Assumptions C94_set_corr.
Print Assumptions C94_without_neurons.
Print Assumptions C94_add_neurons.
Print Assumptions C94_add_neurons_default.
