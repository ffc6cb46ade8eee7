(** Witnesses for C108 (exact rationals): batch 2, three samples, istart = -2. *)
From Coq Require Import QArith.
From Verif Require Import Base Num Mat LinAlg Slfn Strs Elm Hpelm Demo RangeThms.
Local Open Scope Q_scope.
Local Open Scope string_scope.
#[local] Existing Instance NumQ.

Definition n_model : elm := let e := lin_model 1 1 "" None 2 None 1 1 [[1]] [0] in with_net e (fst (set_B (e_net e) 1 1 [[1]])).
Definition n_x : src := SArr (Arr2 1 [[1]; [2]; [4]]).
Definition corr_after (p : elm * option corrfs * res unit) := get_corr (e_net (fst (fst p))).
Lemma negative_differs : let call i c := hp_add_data n_model n_x n_x i c None in
  (* the last two samples *)
  snd (call 1%Z None) = Ok tt /\ corr_after (call 1%Z None) = Ok (Some ([[21]], [[20]])) /\
  (* istart = -2: the first sample is used as well *)
  snd (call (-2)%Z None) = Ok tt /\ corr_after (call (-2)%Z None) = Ok (Some ([[22]], [[21]])) /\
  (* istart = -2, icount = 2: no sample is used *)
  snd (call (-2)%Z (Some 2%Z)) = Ok tt /\ corr_after (call (-2)%Z (Some 2%Z)) = Ok (Some ([[1]], [[0]])) /\
  hp_predict n_model n_x DNew 1%Z None = Ok [[2]; [4]] /\ hp_predict n_model n_x DNew (-2)%Z None = Err ValueError /\ hp_predict n_model n_x DNew (-2)%Z (Some 2%Z) = Err ValueError.
Proof. vm_compute. repeat split; reflexivity. Qed.
Lemma negative_refuted : exists (e : @elm NumQ) (d : @src NumQ) (Y : list (list QArith_base.Q)), exists C1 C2 : (list (list QArith_base.Q) * list (list QArith_base.Q)),
  corr_after (hp_add_data e d d 1%Z None None) = Ok (Some C1) /\ corr_after (hp_add_data e d d (-2)%Z None None) = Ok (Some C2) /\
  corr_after (hp_add_data e d d (-2)%Z (Some 2%Z) None) <> Ok (Some C1) /\ C1 <> C2 /\ (exists X, holds_data d 1 X /\ length X = 3%nat) /\
  hp_predict e d DNew 1%Z None = Ok Y /\ hp_predict e d DNew (-2)%Z None = Err ValueError.
Proof.
  destruct negative_differs as (_ & A & _ & B & _ & C & D & E & _). exists n_model, n_x. do 3 eexists. split; [exact A|]. split; [exact B|].
  split; [change (corr_after (hp_add_data n_model n_x n_x (-2)%Z (Some 2%Z) None) <> Ok (Some ([[21]], [[20]]))); rewrite C; discriminate|].
  split; [discriminate|]. split; [eexists; split; [left; reflexivity|reflexivity]|]. split; [exact D|exact E].
Qed.
