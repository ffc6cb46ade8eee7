(** Witnesses for processes that share the files of HH and HT (exact rationals). *)
From Coq Require Import QArith.
From Verif Require Import Base Num Mat LinAlg Slfn Strs Elm Hpelm Network Parallel ParLink Demo Refute6.
Local Open Scope Q_scope.
#[local] Existing Instance NumQ.

Section Refute.
Context {SG : Sing}.

Lemma opt_ok : forall {A} (o : option A) (P : A -> Prop), match o with Some g => P g | None => False end -> exists g, o = Some g /\ P g.
Proof. intros A [g|] P H; [|contradiction]. exists g. auto. Qed.

(** two processes, each with a part of the file *)
Definition job_a : pjob := mkJob (one_model 2) f3 f3 0 (Some 2%Z).
Definition job_b : pjob := mkJob (one_model 2) f3 f3 2 None.
Definition two_work (p : nat) : res (mat * mat) := local_work (if (p =? 0)%nat then job_a else job_b).
Definition no_files : pst := mkPst FNone FNone None None [CheckH; CheckH].
Definition old_files : pst := mkPst (FData 1 [[1]]) (FData 1 [[0]]) None None [CheckH; CheckH].

Lemma two_work_ok : two_work 0 = Ok ([[61]], [[61]]) /\ two_work 1 = Ok ([[49]], [[49]]).
Proof. split; vm_compute; reflexivity. Qed.

(** both see that fHH does not exist; the first runs to the end; the second creates fHH again *)
Definition lost_evs : list pevent := Run 0 :: Run 1 :: repeat (Run 0) 14 ++ repeat (Run 1) 12.
Lemma lost_update : exists g, pexec 1 1 (scaled_eye 1 1) two_work no_files lost_evs = Some g /\
  pcs g = [Done; Done] /\ gH g = FData 1 [[50]] /\ gT g = FData 1 [[110]].
Proof. apply opt_ok. vm_compute. auto. Qed.

(** the second looks between the truncation and the first data *)
Lemma creation_raises : exists g, pexec 1 1 (scaled_eye 1 1) two_work no_files [Run 0; Run 0; Run 1] = Some g /\
  nth_error (pcs g) 1 = Some (Raised IOError).
Proof. apply opt_ok. vm_compute. reflexivity. Qed.

(** a process dies between its two writes *)
Definition crash_evs : list pevent := repeat (Run 0) 7 ++ [Crash 0] ++ repeat (Run 1) 11.
Lemma crash_between : exists g, pexec 1 1 (scaled_eye 1 1) two_work old_files crash_evs = Some g /\
  pcs g = [Dead true false; Done] /\ gH g = FData 1 [[111]] /\ gT g = FData 1 [[49]].
Proof. apply opt_ok. vm_compute. auto. Qed.
End Refute.
