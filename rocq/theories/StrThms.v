(** str(model) shows the structure of the model and determines it. *)
From Coq Require Import Decimal DecimalNat DecimalString Ascii.
From Verif Require Import Base Num Mat LinAlg Slfn Strs Elm Str.
Local Open Scope string_scope.

Lemma sapp_assoc a b c : (a ++ b) ++ c = a ++ b ++ c.
Proof. induction a; cbn; congruence. Qed.
Lemma sapp_nil a : a ++ "" = a.
Proof. induction a; cbn; congruence. Qed.
Lemma slen_app a b : String.length (a ++ b) = String.length a + String.length b.
Proof. induction a; cbn; congruence. Qed.
Lemma sub_app a b : substring 0 (String.length a) (a ++ b) = a.
Proof. induction a as [|c a IH]; cbn; [destruct b; reflexivity|congruence]. Qed.
Lemma cut2_app a x y : cut2 (a ++ String x (String y "")) = a.
Proof. unfold cut2. rewrite slen_app. cbn. replace (_ + 2 - 2) with (String.length a) by lia. apply sub_app. Qed.

(** characters satisfying P up to the first that does not *)
Fixpoint sall (P : ascii -> bool) (s : string) : bool :=
  match s with EmptyString => true | String c r => P c && sall P r end.
Definition stops (P : ascii -> bool) (s : string) : bool :=
  match s with EmptyString => true | String c _ => negb (P c) end.
Lemma split_unique P : forall a b s t, sall P a = true -> sall P b = true -> stops P s = true -> stops P t = true ->
  a ++ s = b ++ t -> a = b /\ s = t.
Proof.
  induction a as [|c a IH]; intros [|d b] s t A B S T; cbn in *.
  - auto.
  - intros ->. cbn in S. apply andb_true_iff in B as [B _]. rewrite B in S. discriminate.
  - intros <-. cbn in T. apply andb_true_iff in A as [A _]. rewrite A in T. discriminate.
  - intros [= <- E]. apply andb_true_iff in A as [_ A], B as [_ B]. destruct (IH b s t A B S T E). subst. auto.
Qed.

Definition digit (c : ascii) : bool := let n := nat_of_ascii c in (48 <=? n)%nat && (n <=? 57)%nat.
Definition nocomma (c : ascii) : bool := negb (Ascii.eqb c ",").
Lemma dec_digits n : sall digit (dec n) = true.
Proof. unfold dec. induction (Nat.to_uint n); cbn; auto. Qed.
Lemma dec_inj m n : dec m = dec n -> m = n.
Proof.
  unfold dec. intros H. apply (f_equal NilEmpty.uint_of_string) in H. rewrite !NilEmpty.usu in H. injection H as H.
  apply DecimalNat.Unsigned.to_uint_inj. exact H.
Qed.

Section Any.
Context {K : Num}.
Context (uname : nat -> string).

(** ** Specification: a line for the sizes, a line for the groups *)
Definition group (n : neuron) : string := dec (n_num n) ++ " " ++ fname uname (n_func n).
Fixpoint commas (l : list string) : string :=
  match l with [] => "" | [x] => x | x :: r => x ++ ", " ++ commas r end.
Definition first_line (e : elm) : string :=
  "ELM with " ++ dec (s_inputs (e_net e)) ++ " inputs and " ++ dec (s_outputs (e_net e)) ++ " outputs".
Definition second_line (e : elm) : string :=
  match s_neurons (e_net e) with
  | [] => "Hidden layer neurons"
  | l => "Hidden layer neurons: " ++ commas (map group l)
  end.

Lemma fold_groups : forall l s, l <> [] ->
  fold_left (fun s n => s ++ dec (n_num n) ++ " " ++ fname uname (n_func n) ++ ", ") l s = (s ++ commas (map group l)) ++ ", ".
Proof.
  induction l as [|n l IH]; intros s H; [congruence|]. cbn [fold_left]. destruct l as [|m l].
  - cbn. unfold group. rewrite !sapp_assoc. reflexivity.
  - rewrite IH by discriminate. change (commas (map group (n :: m :: l))) with (group n ++ ", " ++ commas (map group (m :: l))).
    set (k := commas (map group (m :: l))). unfold group. rewrite !sapp_assoc. reflexivity.
Qed.

Theorem str_format : forall e, elm_str uname e = first_line e ++ newline ++ second_line e.
Proof.
  intros e. unfold elm_str, second_line. destruct (s_neurons (e_net e)) as [|n l].
  - cbn [fold_left]. change ("Hidden layer neurons: ") with ("Hidden layer neurons" ++ ": ").
    rewrite <- (sapp_assoc _ "Hidden layer neurons" ": "), cut2_app. unfold first_line. rewrite !sapp_assoc. reflexivity.
  - rewrite fold_groups by discriminate. rewrite cut2_app. unfold first_line. rewrite !sapp_assoc. reflexivity.
Qed.

Definition plain_type (f : ftype) : bool := negb (is_ufunc f).
Lemma fname_inj f g : plain_type f = true -> plain_type g = true -> fname uname f = fname uname g -> f = g.
Proof. destruct f, g; cbn; intros A B H; try reflexivity; try discriminate. Qed.
Lemma fname_nocomma f : plain_type f = true -> sall nocomma (fname uname f) = true.
Proof. destruct f; cbn; intros H; try reflexivity; discriminate. Qed.
Lemma sall_app P a b : sall P (a ++ b) = sall P a && sall P b.
Proof. induction a; cbn; [reflexivity|]. rewrite IHa. apply andb_assoc. Qed.
Lemma sall_weaken (P Q : ascii -> bool) s : (forall c, P c = true -> Q c = true) -> sall P s = true -> sall Q s = true.
Proof.
  intros H. induction s; cbn; [auto|]. rewrite !andb_true_iff. intros [A B]. auto.
Qed.
Lemma digit_nocomma c : digit c = true -> nocomma c = true.
Proof. unfold nocomma. destruct (Ascii.eqb_spec c ",") as [->|]; [vm_compute; discriminate|reflexivity]. Qed.
Lemma group_nocomma n : plain_type (n_func n) = true -> sall nocomma (group n) = true.
Proof.
  intros H. unfold group. rewrite !sall_app, fname_nocomma by exact H.
  rewrite (sall_weaken digit nocomma _ digit_nocomma (dec_digits _)). reflexivity.
Qed.
Lemma group_inj n m : plain_type (n_func n) = true -> plain_type (n_func m) = true -> group n = group m ->
  n_num n = n_num m /\ n_func n = n_func m.
Proof.
  intros A B H. unfold group in H. apply (split_unique digit) in H as [H1 H2]; try apply dec_digits; try reflexivity.
  injection H2 as H2. split; [apply dec_inj, H1|apply fname_inj; assumption].
Qed.
Definition pure (l : list neuron) : Prop := forallb (fun n => plain_type (n_func n)) l = true.
Definition sizes (l : list neuron) : list (nat * ftype) := map (fun n => (n_num n, n_func n)) l.
Lemma commas_cons n l : commas (map group (n :: l)) = group n ++ match l with [] => "" | _ => ", " ++ commas (map group l) end.
Proof. destruct l; cbn; [rewrite sapp_nil|]; reflexivity. Qed.
Lemma group_nonempty n s : group n ++ s <> "".
Proof. unfold group. destruct (dec (n_num n)); cbn; discriminate. Qed.
Lemma commas_inj : forall l k, pure l -> pure k -> commas (map group l) = commas (map group k) -> sizes l = sizes k.
Proof.
  unfold pure. induction l as [|n l IH]; intros [|m k] A B H.
  - reflexivity.
  - rewrite commas_cons in H. symmetry in H. destruct (group_nonempty _ _ H).
  - rewrite commas_cons in H. destruct (group_nonempty _ _ H).
  - rewrite !commas_cons in H. cbn in A, B. apply andb_true_iff in A as [A1 A2], B as [B1 B2].
    apply (split_unique nocomma) in H as [H1 H2]; try (apply group_nocomma; assumption);
      [|destruct l; reflexivity|destruct k; reflexivity].
    destruct (group_inj n m A1 B1 H1) as (E1 & E2). cbn. f_equal; [congruence|].
    destruct l as [|n2 l], k as [|m2 k]; try discriminate H2; [reflexivity|].
    injection H2 as H2. apply IH; assumption.
Qed.

Theorem str_determines : forall e e', pure (s_neurons (e_net e)) -> pure (s_neurons (e_net e')) ->
  (elm_str uname e = elm_str uname e' <->
   s_inputs (e_net e) = s_inputs (e_net e') /\ s_outputs (e_net e) = s_outputs (e_net e') /\
   sizes (s_neurons (e_net e)) = sizes (s_neurons (e_net e'))).
Proof.
  intros e e' P P'. rewrite !str_format. unfold first_line. rewrite !sapp_assoc. split.
  - intros H. cbn in H. injection H as H.
    apply (split_unique digit) in H as [H1 H]; try apply dec_digits; try reflexivity. cbn in H. injection H as H.
    apply (split_unique digit) in H as [H2 H]; try apply dec_digits; try reflexivity. cbn in H. injection H as H.
    split; [apply dec_inj, H1|]. split; [apply dec_inj, H2|].
    unfold second_line in H. destruct (s_neurons (e_net e)) as [|n l], (s_neurons (e_net e')) as [|m k]; try discriminate H; [reflexivity|].
    cbn [append] in H. injection H as H. apply commas_inj; assumption.
  - intros (-> & -> & H). unfold second_line. f_equal.
    assert (G : map group (s_neurons (e_net e)) = map group (s_neurons (e_net e'))).
    { revert H. generalize (s_neurons (e_net e)) (s_neurons (e_net e')). induction l as [|n l IH]; intros [|m k] H; try discriminate H; [reflexivity|].
      injection H as H1 H2 H3. cbn. f_equal; [unfold group; congruence|auto]. }
    destruct (s_neurons (e_net e)) as [|n l], (s_neurons (e_net e')) as [|m k]; try discriminate H; [reflexivity|].
    rewrite G. reflexivity.
Qed.
End Any.
