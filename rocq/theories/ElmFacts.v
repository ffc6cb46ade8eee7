(** Facts about class ELM that hold for every scalar type. *)
From Verif Require Import Base Num Mat LinAlg Slfn Elm MatFacts SplitProofs Spec.

Section ElmFacts.
Context {K : Num} {SG : Sing}.

(** the network can project *)
Definition usable (s : slfn) : Prop :=
  s_neurons s <> [] /\ existsb (bad_group (s_inputs s)) (s_neurons s) = false.
Lemma usable_ufunc : forall d ns, existsb (bad_group d) ns = false -> existsb (fun n => is_ufunc (n_func n)) ns = false.
Proof.
  intros d ns. unfold bad_group. induction ns as [|n r IH]; cbn [existsb]; intros H; auto. apply orb_false_elim in H as [H1 H2].
  apply orb_false_elim in H1 as [-> _]. auto.
Qed.
Lemma usable_wide : forall s n, usable s -> In n (s_neurons s) -> is_ufunc (n_func n) = false /\ length (n_W n) = s_inputs s.
Proof.
  intros s n [_ H] Hin. unfold bad_group in H. destruct (is_ufunc (n_func n) || negb (length (n_W n) =? s_inputs s)) eqn:E.
  - assert (existsb (fun n => is_ufunc (n_func n) || negb (length (n_W n) =? s_inputs s)) (s_neurons s) = true) as C by (apply existsb_exists; eauto). congruence.
  - apply orb_false_elim in E as [-> E]. split; auto. apply negb_false_iff, Nat.eqb_eq in E. exact E.
Qed.
Lemma usable_of : forall s, s_neurons s <> [] -> (forall n, In n (s_neurons s) -> is_ufunc (n_func n) = false /\ length (n_W n) = s_inputs s) -> usable s.
Proof.
  intros s Hn H. split; [exact Hn|]. destruct (existsb _ _) eqn:E; [|reflexivity]. apply existsb_exists in E as (n & Hin & C).
  destruct (H n Hin) as [A B]. unfold bad_group in C. rewrite A, B, Nat.eqb_refl in C. discriminate.
Qed.
Definition wide (c : nat) (X : mat) : Prop := Forall (fun x => length x = c) X.

Lemma project_ok : forall s X, usable s -> wide (s_inputs s) X ->
  project s X = Ok (map (hrow (s_neurons s)) X).
Proof.
  intros s X [H1 H2] H3. unfold project. destruct (s_neurons s) eqn:E; [congruence|]. rewrite <- E in *.
  rewrite (usable_ufunc _ _ H2), H2. replace (forallb _ X) with true; auto. symmetry. apply forallb_forall.
  intros x Hx. apply Nat.eqb_eq. unfold wide in H3. rewrite Forall_forall in H3. auto.
Qed.
Lemma project_inv : forall s X H, project s X = Ok H ->
  usable s /\ wide (s_inputs s) X /\ H = map (hrow (s_neurons s)) X.
Proof.
  intros s X H E. unfold project in E. unfold usable. destruct (s_neurons s) eqn:En; [discriminate|].
  rewrite <- En in *. destruct (existsb _ (s_neurons s)); [discriminate|].
  destruct (existsb _ (s_neurons s)) eqn:Eb; [discriminate|].
  destruct (forallb _ X) eqn:Ef; [|discriminate]. apply Ok_inj in E. split; [split; [congruence|auto]|].
  split; auto. apply Forall_forall. intros x Hx. rewrite forallb_forall in Ef. apply Nat.eqb_eq; auto.
Qed.

Lemma wide_app : forall c X Y, wide c (X ++ Y) <-> wide c X /\ wide c Y.
Proof. intros; unfold wide; apply Forall_app. Qed.
Lemma wide_concat : forall c Xs, wide c (concat Xs) <-> Forall (wide c) Xs.
Proof.
  induction Xs; cbn [concat]; [split; constructor|]. rewrite wide_app, IHXs.
  split; [intros []; constructor; auto|intros H; inversion H; auto].
Qed.

(** the chunks of ELM.add_data *)
Definition chunks {A B} (X : list A) (T : list B) (k : nat) : list (list A * list B) :=
  combine (cut (split_sizes (length X) k) X) (cut (split_sizes (length T) k) T).

Lemma combine_sizes : forall {A B} (l : list (list A)) (m : list (list B)), map (@length A) l = map (@length B) m ->
  Forall (fun p => length (fst p) = length (snd p)) (combine l m).
Proof.
  induction l as [|a l IH]; intros [|b m] E; cbn in *; try discriminate; constructor.
  - cbn. congruence.
  - apply IH. congruence.
Qed.

Lemma chunks_spec : forall {A B} (X : list A) (T : list B) k, (0 < k)%nat -> length X = length T ->
  concat (map fst (chunks X T k)) = X /\ concat (map snd (chunks X T k)) = T /\
  length (chunks X T k) = k /\ Forall (fun p => length (fst p) = length (snd p)) (chunks X T k) /\
  Forall (fun p => In (length (fst p)) (split_sizes (length X) k)) (chunks X T k).
Proof.
  intros A B X T k Hk HL. unfold chunks.
  assert (length (cut (split_sizes (length X) k) X) = length (cut (split_sizes (length T) k) T)) as El.
  { rewrite !cut_length, HL. reflexivity. }
  rewrite combine_fst, combine_snd by auto.
  split; [apply cut_concat, split_sizes_sum; auto|].
  split; [apply cut_concat, split_sizes_sum; auto|].
  split; [rewrite combine_length, !cut_length, !split_sizes_length by auto; lia|].
  split.
  - apply combine_sizes. rewrite !cut_sizes by (apply split_sizes_sum; auto). now rewrite HL.
  - apply Forall_forall. intros [a b] Hin. apply in_combine_l in Hin. cbn.
    apply (in_map (@length A)) in Hin.
    rewrite cut_sizes in Hin by (apply split_sizes_sum; auto). exact Hin.
Qed.

Lemma add_data_eq : forall e X T, (0 < e_batch e)%Z -> X <> [] -> length X = length T ->
  add_data e X T =
  (let e1 := fill_wc e T in
   let (s, r) := add_batches e1 (e_net e1)
                   (chunks X T (Z.to_nat (ceil_div (Z.of_nat (length X)) (e_batch e)))) in
   (with_net e1 s, r)).
Proof.
  intros e X T Hb HX HL. unfold add_data. rewrite nbatches_pos by auto.
  assert (0 < length X)%nat by (destruct X; [congruence|cbn; lia]).
  pose proof (ceil_div_pos (Z.of_nat (length X)) (e_batch e) Hb ltac:(lia)).
  destruct (Z.leb_spec (ceil_div (Z.of_nat (length X)) (e_batch e)) 0); [lia|].
  unfold array_split, chunks. destruct (Nat.eqb_spec (Z.to_nat (ceil_div (Z.of_nat (length X)) (e_batch e))) 0); [lia|].
  reflexivity.
Qed.

Lemma fill_wc_net : forall e T, e_net (fill_wc e T) = e_net e.
Proof. intros. unfold fill_wc. destruct (is_wc e); auto. destruct (e_wc e); auto. Qed.
Lemma fill_wc_is_wc : forall e T, is_wc (fill_wc e T) = is_wc e.
Proof. intros. unfold fill_wc. destruct (is_wc e) eqn:E; auto. destruct (e_wc e); auto. Qed.


(** ** batches *)
Lemma add_batches_run : forall e parts s, add_batches e s parts =
  run_all (fun s p =>
    match (if is_wc e
           then match e_wc e with
                | Some wc => let? v := wc_index wc (where1 (snd p)) in Ok (Some v)
                | None => Err TypeError
                end
           else Ok None) with
    | Ok w => add_batch s (fst p) (snd p) w
    | Err x => (s, Err x)
    end) s parts.
Proof.
  induction parts as [|[X T] r IH]; intros s; cbn [add_batches run_all fst snd]; auto.
  match goal with |- context [match ?p with Ok _ => _ | Err _ => _ end] => destruct p as [w|x] end; auto.
  destruct (add_batch s X T w) as [s1 [u|x]]; auto.
Qed.

Lemma run_all_ext : forall {St P} (f g : St -> P -> St * res unit) ps s, (forall s p, f s p = g s p) ->
  run_all f s ps = run_all g s ps.
Proof.
  induction ps as [|p r IH]; intros s H; cbn; auto. rewrite H. destruct (g s p) as [s1 [|]]; auto.
Qed.

Lemma add_data_chunks_gen : forall e (X T : mat), (0 < e_batch e)%Z -> X <> [] -> length X = length T ->
  exists parts : list (mat * mat),
    concat (map fst parts) = X /\ concat (map snd parts) = T /\
    (forall x t, In (x, t) parts -> length x = length t /\ 1 <= length x /\ (Z.of_nat (length x) <= e_batch e)%Z) /\
    ((Z.of_nat (length parts) - 1) * e_batch e < Z.of_nat (length X) <= Z.of_nat (length parts) * e_batch e)%Z /\
    add_data e X T = (let (s, r) := add_batches (fill_wc e T) (e_net e) parts in (with_net (fill_wc e T) s, r)).
Proof.
  intros e X T Hb HX HL. set (N := Z.of_nat (length X)).
  assert (0 < length X) as HN by (destruct X; [congruence|cbn; lia]).
  pose proof (ceil_div_pos N (e_batch e) Hb ltac:(lia)) as Hc.
  pose proof (ceil_div_spec N (e_batch e) Hb) as Hs.
  set (q := ceil_div N (e_batch e)) in *. set (k := Z.to_nat q).
  assert (0 < k) as Hk by lia.
  destruct (chunks_spec X T k Hk HL) as (E1 & E2 & E3 & E4 & E5).
  exists (chunks X T k). split; [auto|]. split; [auto|]. split; [|split].
  - intros x t Hin. rewrite Forall_forall in E4, E5. pose proof (E4 _ Hin) as A1. pose proof (E5 _ Hin) as A2. cbn in A1, A2.
    split; auto. split.
    + assert (q <= N)%Z as HqN by nia. apply (split_sizes_ge1 (length X) k Hk); auto. unfold k, N in *. clearbody q. lia.
    + pose proof (split_sizes_le (length X) k (Z.to_nat (e_batch e)) Hk) as A3.
      specialize (A3 ltac:(nia) _ A2). lia.
  - rewrite E3. unfold k. rewrite Z2Nat.id by lia. exact Hs.
  - rewrite add_data_eq by auto. fold N q k. cbv zeta. rewrite fill_wc_net. reflexivity.
Qed.

Theorem add_data_chunks : forall e (X T : mat), is_wc e = false -> (0 < e_batch e)%Z -> X <> [] -> length X = length T ->
  exists parts : list (mat * mat),
    concat (map fst parts) = X /\ concat (map snd parts) = T /\
    (forall x t, In (x, t) parts -> length x = length t /\ 1 <= length x /\ (Z.of_nat (length x) <= e_batch e)%Z) /\
    ((Z.of_nat (length parts) - 1) * e_batch e < Z.of_nat (length X) <= Z.of_nat (length parts) * e_batch e)%Z /\
    (e_net (fst (add_data e X T)), snd (add_data e X T)) =
      run_all (fun s p => add_batch s (fst p) (snd p) None) (e_net e) parts.
Proof.
  intros e X T Hw Hb HX HL. destruct (add_data_chunks_gen e X T Hb HX HL) as (parts & A & B & C & D & E).
  exists parts. do 4 (split; auto). rewrite E. unfold fill_wc. rewrite Hw. rewrite add_batches_run, Hw.
  destruct (run_all _ _ _); reflexivity.
Qed.

Theorem add_data_chunks_wc : forall e (X T : mat), is_wc e = true -> (0 < e_batch e)%Z -> X <> [] -> length X = length T ->
  exists (parts : list (mat * mat)) wc, e_wc (fst (add_data e X T)) = Some wc /\
    (forall w, e_wc e = Some w -> wc = w) /\
    concat (map fst parts) = X /\ concat (map snd parts) = T /\
    (forall x t, In (x, t) parts -> length x = length t /\ 1 <= length x /\ (Z.of_nat (length x) <= e_batch e)%Z) /\
    ((Z.of_nat (length parts) - 1) * e_batch e < Z.of_nat (length X) <= Z.of_nat (length parts) * e_batch e)%Z /\
    (e_net (fst (add_data e X T)), snd (add_data e X T)) =
      run_all (fun s p => match wc_index wc (where1 (snd p)) with
                          | Ok v => add_batch s (fst p) (snd p) (Some v)
                          | Err x => (s, Err x)
                          end) (e_net e) parts.
Proof.
  intros e X T Hw Hb HX HL. destruct (add_data_chunks_gen e X T Hb HX HL) as (parts & A & B & C & D & E).
  assert (exists wc, e_wc (fill_wc e T) = Some wc /\ (forall w, e_wc e = Some w -> wc = w)) as (wc & W1 & W2).
  { unfold fill_wc. rewrite Hw. destruct (e_wc e) as [w|] eqn:Ew; cbn.
    - exists w. split; auto. congruence.
    - eexists; split; eauto. congruence. }
  exists parts, wc. rewrite E.
  split. { destruct (add_batches _ _ _); exact W1. }
  do 5 (split; auto).
  rewrite add_batches_run, fill_wc_is_wc, Hw, W1.
  rewrite (run_all_ext _ (fun s p => match wc_index wc (where1 (snd p)) with
                          | Ok v => add_batch s (fst p) (snd p) (Some v) | Err x => (s, Err x) end)).
  - destruct (run_all _ _ _); reflexivity.
  - intros s p. destruct (wc_index _ _); reflexivity.
Qed.

Theorem add_data_empty : forall e (T : mat), (0 < e_batch e)%Z ->
  snd (add_data e [] T) = Err ValueError /\ e_net (fst (add_data e [] T)) = e_net e.
Proof.
  intros e T Hb. unfold add_data. cbn [length]. rewrite nbatches_pos by auto. cbn. split; auto. apply fill_wc_net.
Qed.
End ElmFacts.
