(** Property theorems: asynchronous reading and writing (C23-C25).  [all_runs N c P]
    (Network.v): no schedule of the processes goes on for ever, and wherever all of
    them stop or are blocked, P holds.  Proofs are in the other files. *)
From Coq Require Import QArith.
From Verif Require Import Base Num Mat LinAlg Slfn Strs Elm Hpelm Network Async RangeThms AsyncThms AsyncApi Demo Refute6.
Local Open Scope nat_scope.

Section Any.
Context {K : Num} {SG : Sing}.

(** ** C23: predict_async writes what predict computes (istart >= 0, a file, a positive
    batch size; see the refutations for the others) *)
Theorem C23_predict_async_partial : forall e f istart icount pc N c,
  (0 < e_batch e)%Z -> (0 <= istart)%Z -> (forall q, 0 < pc q) ->
  predict_async e (SFile f) istart icount pc = Ok (N, c) ->
  all_runs N c (fun g => predict_finish g = Some (hp_predict e (SFile f) DFile istart icount)).
Proof. exact predict_async_all. Qed.
Theorem C23_predict_async_raises : forall e fX istart icount pc x,
  predict_async e fX istart icount pc = Err x -> hp_predict e fX DFile istart icount = Err x.
Proof. exact predict_async_err. Qed.

Definition async_demo : elm :=
  let e := demo None "" None in with_net e (with_B (e_net e) (Some [[n1; n0]; [n0; n1]; [n1; n1]])).
Example C23_hyps : (0 < e_batch async_demo)%Z /\
  exists N c Y, predict_async async_demo (SFile (Some (2, demo_X))) 1 None (fun _ => 1) = Ok (N, c) /\
    hp_predict async_demo (SFile (Some (2, demo_X))) DFile 1 None = Ok Y /\ length Y = 2.
Proof.
  split; [reflexivity|].
  assert (E : is_ok (predict_async async_demo (SFile (Some (2, demo_X))) 1 None (fun _ => 1)) = true) by (vm_compute; reflexivity).
  assert (F : match hp_predict async_demo (SFile (Some (2, demo_X))) DFile 1 None with Ok Y => length Y | Err _ => 0 end = 2)
    by (vm_compute; reflexivity).
  destruct (predict_async _ _ _ _ _) as [[N c]|x]; [|discriminate E].
  destruct (hp_predict _ _ _ _ _) as [Y|x]; [|discriminate F].
  exists N, c, Y. auto.
Qed.

(** ** C24: add_data_async ends in the state add_data ends in *)
Theorem C24_add_data_async : forall e f g istart icount fs opened pc e1 fs1 N c X T,
  (0 < e_batch e)%Z -> (forall q, 0 < pc q) -> hp_check e (SFile f) (SFile g) = Ok (X, T) ->
  add_data_async e (SFile f) (SFile g) istart icount fs opened pc = (e1, fs1, Ok (N, c)) ->
  (istart <= Z.of_nat (length X))%Z -> (forall n, icount = Some n -> (0 <= n)%Z) ->
  all_runs N c (fun h => add_data_finish e1 fs1 h = Some (hp_add_data e (SFile f) (SFile g) istart icount fs)).
Proof. exact add_async_files. Qed.
Theorem C24_add_data_async_raises : forall e f g istart icount fs opened pc e1 fs1 x,
  add_data_async e (SFile f) (SFile g) istart icount fs opened pc = (e1, fs1, Err x) ->
  hp_add_data e (SFile f) (SFile g) istart icount fs = (e1, fs1, Err x).
Proof. exact add_async_files_err. Qed.
(** train_async and train *)
Theorem C24_train_async : forall e f g args kw istart icount opened pc e1 N c X T,
  (forall q, 0 < pc q) -> hp_check e (SFile f) (SFile g) = Ok (X, T) ->
  train_async e (SFile f) (SFile g) args kw istart icount opened pc = (e1, Ok (N, c)) -> (0 < e_batch e1)%Z ->
  (- e_batch e1 < selected icount (Z.of_nat (length X)) (match istart with Some i => Z.max 0 i | None => 0 end))%Z ->
  all_runs N c (fun h => train_finish e1 h = Some (hp_train e (SFile f) (SFile g) args kw istart icount)).
Proof. exact train_async_all. Qed.
Theorem C24_train_async_raises : forall e f g args kw istart icount opened pc e1 x,
  train_async e (SFile f) (SFile g) args kw istart icount opened pc = (e1, Err x) ->
  hp_train e (SFile f) (SFile g) args kw istart icount = (e1, Err x).
Proof. exact train_async_err. Qed.
Example C24_hyps : exists e1 fs1 N c,
  add_data_async async_demo (SFile (Some (2, demo_X))) (SFile (Some (2, demo_T))) 1 None (Some (mkFs None None)) 0 (fun _ => 1) = (e1, fs1, Ok (N, c)) /\
  hp_check async_demo (SFile (Some (2, demo_X))) (SFile (Some (2, demo_T))) = Ok (demo_X, demo_T) /\
  snd (hp_add_data async_demo (SFile (Some (2, demo_X))) (SFile (Some (2, demo_T))) 1 None (Some (mkFs None None))) = Ok tt.
Proof.
  assert (E : is_ok (snd (add_data_async async_demo (SFile (Some (2, demo_X))) (SFile (Some (2, demo_T))) 1 None
    (Some (mkFs None None)) 0 (fun _ => 1))) = true) by (vm_compute; reflexivity).
  assert (F : snd (hp_add_data async_demo (SFile (Some (2, demo_X))) (SFile (Some (2, demo_T))) 1 None
    (Some (mkFs None None))) = Ok tt) by (vm_compute; reflexivity).
  assert (G : hp_check async_demo (SFile (Some (2, demo_X))) (SFile (Some (2, demo_T))) = Ok (demo_X, demo_T)) by reflexivity.
  destruct (add_data_async _ _ _ _ _ _ _ _) as [[e1 fs1] [[N c]|x]]; [|discriminate E].
  exists e1, fs1, N, c. auto.
Qed.

(** ** C25: which calls of add_data_async hang (positive batch size): exactly those
    described by [add_hangs]; every other call returns or raises as add_data does *)
Theorem C25_add_data_async_partial : forall e fX fT istart icount fs opened pc e1 fs1 N c X T,
  (0 < e_batch e)%Z -> (forall q, 0 < pc q) -> hp_check e fX fT = Ok (X, T) ->
  add_data_async e fX fT istart icount fs opened pc = (e1, fs1, Ok (N, c)) ->
  (add_hangs fX fT (selected icount (Z.of_nat (length X)) istart) (e_batch e) -> all_runs N c (fun f => add_data_finish e1 fs1 f = None)) /\
  (~ add_hangs fX fT (selected icount (Z.of_nat (length X)) istart) (e_batch e) ->
     all_runs N c (fun f => add_data_finish e1 fs1 f = Some (hp_add_data e fX fT istart icount fs))).
Proof. exact add_async_all. Qed.
End Any.

Section Rationals.
#[local] Existing Instance NumQ.
Local Open Scope Q_scope.
(** a range starting one batch after the end; arrays while other files are open;
    predict_async of an array; predict_async from a negative index *)
Theorem C25_refuted {SG : @Sing NumQ} :
  (forall pc, (forall q, (0 < pc q)%nat) -> exists e1 N c,
     add_data_async (one_model 2) (SFile (Some (1%nat, [[5]; [6]; [7]]))) (SFile (Some (1%nat, [[5]; [6]; [7]]))) 5 None None 0 pc = (e1, None, Ok (N, c)) /\
     all_runs N c (fun f => add_data_finish e1 None f = None)) /\
  (forall pc, (forall q, (0 < pc q)%nat) -> exists e1 N c,
     add_data_async (one_model 2) (SArr (Arr2 1 [[5]; [6]; [7]])) (SArr (Arr2 1 [[5]; [6]; [7]])) 0 None None 2 pc = (e1, None, Ok (N, c)) /\
     all_runs N c (fun f => add_data_finish e1 None f = None)) /\
  (forall pc, (forall q, (0 < pc q)%nat) -> exists N c,
     predict_async (one_model 2) (SArr (Arr2 1 [[5]; [6]; [7]])) 0 None pc = Ok (N, c) /\
     all_runs N c (fun f => predict_finish f = None)) /\
  (exists N c, predict_async (one_model 1) (SFile (Some (1%nat, [[5]; [6]; [7]]))) (-1) None two = Ok (N, c) /\
     all_runs N c (fun f => predict_finish f = None)).
Proof. exact (conj add_hang_range (conj add_hang_array (conj predict_hang_array predict_hang_negative))). Qed.

(** from a negative index predict_async can also return normally with nothing
    written, where predict raises *)
Theorem C23_refuted {SG : @Sing NumQ} : exists N c,
  predict_async (one_model 10) (SFile (Some (1%nat, [[5]; [6]; [7]]))) (-2) None two = Ok (N, c) /\
  all_runs N c (fun f => predict_finish f = Some (Ok [[0]; [0]; [0]; [0]; [0]])) /\
  hp_predict (one_model 10) (SFile (Some (1%nat, [[5]; [6]; [7]]))) DFile (-2) None = Err ValueError.
Proof. exact predict_silent_negative. Qed.
End Rationals.
Print Assumptions C23_predict_async_partial.
Print Assumptions C23_predict_async_raises.
Print Assumptions C24_add_data_async.
Print Assumptions C24_add_data_async_raises.
Print Assumptions C24_train_async.
Print Assumptions C24_train_async_raises.
Print Assumptions C25_add_data_async_partial.
Print Assumptions C25_refuted.
Print Assumptions C23_refuted.
