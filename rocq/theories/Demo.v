(** A small concrete model, built through the API, used in the Examples that show
    that the hypotheses of the theorems can be met. *)
From Verif Require Import Base Num Mat LinAlg Slfn Strs Elm.
Local Open Scope string_scope.

(** Evaluate a state-passing call; the goals left are closed, for [vm_compute]. *)
Lemma run_ok {A B} (p : A * res B) (b : B) (P : A -> Prop) :
  snd p = Ok b -> P (fst p) -> exists a, p = (a, Ok b) /\ P a.
Proof. destruct p as [a r]. cbn. intros -> H. exists a. auto. Qed.
Lemma run_err {A B} (p : A * res B) x (P : A -> Prop) :
  snd p = Err x -> P (fst p) -> exists a, p = (a, Err x) /\ P a.
Proof. destruct p as [a r]. cbn. intros -> H. exists a. auto. Qed.

Lemma get_ok {A} (r : res A) : is_ok r = true -> exists a, r = Ok a.
Proof. destruct r; cbn; [eauto|discriminate]. Qed.

Section Demo.
Context {K : Num} {SG : Sing}.

Definition dead : elm := mkElm (slfn_init Fast 0 0 n0) 0 true None None None false None.

(** model with [cols] linear neurons of weights W (inputs x cols) and biases B *)
Definition lin_model (inputs outputs : nat) (cls : string) (w : option (list num)) (batch : Z)
    (accel : option string) (norm : num) (cols : nat) (W : mat) (B : vec) : elm :=
  match elm_init inputs outputs cls w batch accel PF64 (Some norm) with
  | Ok e => fst (add_neurons e (Z.of_nat cols) (FName "lin") (Some (cols, W)) (Some B) (fun _ => []) (fun _ => []))
  | Err _ => dead
  end.

Definition n2 : num := nadd n1 n1.
Definition n3 : num := nadd n1 n2.

(** 2 inputs, 2 outputs; neurons: two linear (identity weights, biases 0 and 1), then one tanh *)
Definition demo (accel : option string) (cls : string) (w : option (list num)) : elm :=
  fst (add_neurons (lin_model 2 2 cls w 2 accel n1 2 [[n1; n0]; [n0; n1]] [n0; n1])
         1 (FName "tanh") (Some (1%nat, [[n1]; [n1]])) (Some [n0]) (fun _ => []) (fun _ => [])).

Definition demo_X : mat := [[n1; n0]; [n2; n1]; [n0; n3]].
Definition demo_T : mat := [[n1; n0]; [n0; n1]; [n1; n0]].
End Demo.
