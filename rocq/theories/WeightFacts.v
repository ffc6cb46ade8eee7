(** C05: which batches weighted training accepts. *)
From Verif Require Import Base Num Mat LinAlg Slfn Strs Elm MatFacts SplitProofs Spec ElmFacts.

Section WeightFacts.
Context {K : Num} {SG : Sing}.

(** number of entries equal to one in a batch of targets *)
Definition ones (T : mat) : nat := list_sum (map (fun row => length (filter (fun x => neqb x n1) row)) T).

Lemma where1_row_len : forall row j, length (where1_row j row) = length (filter (fun x => neqb x n1) row).
Proof. induction row as [|x r IH]; intros j; cbn; auto. destruct (neqb x n1); cbn; auto. Qed.
Lemma where1_len : forall T, length (where1 T) = ones T.
Proof.
  unfold where1, ones. induction T as [|t T IH]; cbn; auto. rewrite app_length, where1_row_len. f_equal. exact IH.
Qed.
Lemma mapM_len : forall {A B} (f : A -> res B) l l', mapM f l = Ok l' -> length l' = length l.
Proof.
  induction l as [|a l IH]; cbn; intros l' E; [injection E as <-; auto|].
  destruct (f a); cbn in E; [|discriminate]. destruct (mapM f l); cbn in E; [|discriminate].
  injection E as <-. cbn. f_equal. auto.
Qed.
Lemma wc_index_len : forall wc ix v, wc_index wc ix = Ok v -> length v = length ix.
Proof. intros. unfold wc_index in H. now apply mapM_len in H. Qed.

Lemma add_batch_weights_len : forall s X T v s', add_batch s X T (Some v) = (s', Ok tt) ->
  length v = length X \/ length v = 1%nat.
Proof.
  intros s X T v s' E. unfold add_batch in E. destruct (project s X) as [H|x] eqn:EP; cbn [rbind] in E; [|discriminate].
  apply project_inv in EP. destruct EP as (_ & _ & ->). rewrite map_length in E.
  destruct (Nat.eqb_spec (length v) (length X)); auto. destruct (Nat.eqb_spec (length v) 1); auto.
  cbn in E. discriminate.
Qed.

Lemma run_all_all : forall {St P} (f : St -> P -> St * res unit) ps s s', run_all f s ps = (s', Ok tt) ->
  forall p, In p ps -> exists s0 s1, f s0 p = (s1, Ok tt).
Proof.
  induction ps as [|q ps IH]; intros s s' E p Hp; [contradiction|]. cbn in E.
  destruct (f s q) as [s1 [[]|x]] eqn:Ef; [|discriminate]. destruct Hp as [<-|Hp]; [eauto|]. eauto.
Qed.

(** Weighted training that succeeds has cut the data into batches each of which
    contains exactly as many ones as rows, or exactly one 1. *)
Theorem wc_accepts : forall e (X T : mat) e', is_wc e = true -> (0 < e_batch e)%Z -> X <> [] -> length X = length T ->
  add_data e X T = (e', Ok tt) ->
  exists parts : list (mat * mat),
    concat (map fst parts) = X /\ concat (map snd parts) = T /\
    forall x t, In (x, t) parts -> length x = length t /\ (Z.of_nat (length x) <= e_batch e)%Z /\
      (ones t = length t \/ ones t = 1%nat).
Proof.
  intros e X T e' Hw Hb HX HL E.
  destruct (add_data_chunks_wc e X T Hw Hb HX HL) as (parts & wc & _ & _ & A & B & C & _ & D).
  rewrite E in D. cbn [fst snd] in D. symmetry in D.
  exists parts. split; auto. split; auto. intros x t Hin. destruct (C x t Hin) as (L1 & L2 & L3).
  split; auto. split; auto.
  destruct (run_all_all _ _ _ _ D _ Hin) as (s0 & s1 & F). cbn [fst snd] in F.
  destruct (wc_index wc (where1 t)) as [v|] eqn:Ev; [|discriminate].
  apply wc_index_len in Ev. rewrite where1_len in Ev.
  destruct (add_batch_weights_len _ _ _ _ _ F); [left|right]; congruence.
Qed.
End WeightFacts.
