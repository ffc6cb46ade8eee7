(** Witnesses for C85 and C87: repeated calls with file names (exact rationals). *)
From Coq Require Import QArith.
From Verif Require Import Base Num Mat LinAlg Slfn Strs Elm Mrsr Search Mss Hpelm Files Demo Refute10.
Local Open Scope Q_scope.
Local Open Scope string_scope.
Local Open Scope list_scope.
#[local] Existing Instance NumQ.

Section Refute.
Context {SG : Sing}.

(** two data files of two samples *)
Definition two_files : proc :=
  mkProc (fun n => if (n =? "x.h5")%string then Some (1%nat, [[1]; [2]])
                   else if (n =? "t.h5")%string then Some (1%nat, [[3]; [5]]) else None) [] [].
Definition cx : fsrc := GName "x.h5".
Definition ct : fsrc := GName "t.h5".
Definition train_xt : fcall := FCTrain cx ct [] no_kw None None.

(** train, predict into a file, error of that file, predict into it again *)
Lemma predict_twice : snd (f_run None [train_xt; FCPredict cx (GFile "y.h5") 0 None; FCError ct (GName "y.h5") 0 None;
    FCPredict cx (GFile "y.h5") 0 None] one_lin two_files) = [Ok tt; Ok tt; Ok tt; Err ValueError].
Proof. vm_compute. reflexivity. Qed.
(** normalize_hdf5 of the training data before and after train *)
Lemma normalize_late : let nrm := FCNormalize "x.h5" (fun v => v) in
  snd (f_run None [nrm; train_xt; nrm] one_lin two_files) = [Ok tt; Ok tt; Err ValueError].
Proof. vm_compute. reflexivity. Qed.
(** a predict that raises leaves its output open: the file can no longer be read *)
Lemma left_open : snd (f_run None [train_xt; FCPredict cx (GFile "y.h5") (-2) None;
    FCMake "y.h5" (1%nat, [[0]])] one_lin two_files) = [Ok tt; Err ValueError; Err ValueError].
Proof. vm_compute. reflexivity. Qed.
(** asynchronous training with two arrays closes two files opened before *)
Lemma async_pops : p_opened (snd (fst (f_run None [train_xt; FCAsync (GArr (Arr2 1 [[1]])) (GArr (Arr2 1 [[1]]))] one_lin two_files))) = [] /\
  snd (f_run None [FCAsync (GArr (Arr2 1 [[1]])) (GArr (Arr2 1 [[1]]))] one_lin two_files) = [Err IndexError].
Proof. split; vm_compute; reflexivity. Qed.

(** one name for fHH and fHT with as many neurons as outputs: HH = 1 + 4 and
    HT = 3 + 10 are both added to the one file, next to norm = 1 *)
Lemma one_name : forall r2,
  f_add_data one_lin two_files cx ct 0 None (Some ("h.h5", "g.h5")) = r2 ->
  p_store (snd (fst r2)) "h.h5" = Some (1%nat, [[6]]) /\ p_store (snd (fst r2)) "g.h5" = Some (1%nat, [[13]]) /\
  let r1 := f_add_data one_lin two_files cx ct 0 None (Some ("h.h5", "h.h5")) in
  snd r1 = Ok tt /\ p_store (snd (fst r1)) "h.h5" = Some (1%nat, [[19]]).
Proof.
  intros r2 <-. split; [vm_compute; reflexivity|]. split; [vm_compute; reflexivity|].
  split; vm_compute; reflexivity.
Qed.
End Refute.
