(** Errors and rankings under multiplication of the targets. *)
From Coq Require Import Reals Lra.
From Verif Require Import Base Num Mat LinAlg Slfn Strs Elm Mrsr Search Mss MatFacts RLin SelectThms Scale ScaleSearch.
Local Open Scope string_scope.
Local Open Scope list_scope.
Local Open Scope R_scope.
#[local] Existing Instance NumR.

Definition rmap {A B} (g : A -> B) (r : res A) : res B := let? x := r in Ok (g x).
Lemma rmap_bind : forall {A A' B B'} (g : A -> A') (h : B -> B') (r : res A) (k : A -> res B) (k' : A' -> res B'),
  (forall a, k' (g a) = rmap h (k a)) -> rbind (rmap g r) k' = rmap h (rbind r k).
Proof. intros A A' B B' g h [a|x] k k' H; cbn; auto. Qed.
Lemma rmap_id : forall {A} (r : res A), rmap (fun a => a) r = r.
Proof. intros A [a|x]; reflexivity. Qed.
Lemma rmap_ok : forall {A B} (g : A -> B) a, rmap g (Ok a) = Ok (g a).
Proof. reflexivity. Qed.
Lemma bcast_map : forall {A A' B B'} (g : A -> A') (h : B -> B') l m, bcast (map g l) (map h m) = rmap (map (fun p => (g (fst p), h (snd p)))) (bcast l m).
Proof.
  intros A A' B B' g h l m. unfold bcast. rewrite !map_length. destruct (length l =? length m)%nat.
  - cbn. f_equal. revert m. induction l as [|a l IH]; intros [|b m]; cbn; auto. now rewrite IH.
  - destruct l as [|a [|a2 l]], m as [|b [|b2 m]]; cbn; auto; rewrite ?map_map; auto.
Qed.

(** a value in the new unit *)
Definition xs (f : R) (x : @xnum NumR) : @xnum NumR := match x with Fin a => @Fin NumR (f * a) | _ => x end.
Section F.
Variable f : R.
Hypothesis Hf : 0 < f.
Lemma xs_add : forall x y, @xadd NumR (xs f x) (xs f y) = xs f (@xadd NumR x y).
Proof. intros [a| | |] [b| | |]; cbn; auto. f_equal. rring. Qed.
Lemma xs_sum : forall l, @xsum NumR (map (xs f) l) = xs f (@xsum NumR l).
Proof. induction l as [|x l IH]; cbn; [f_equal; rring|]. unfold xsum in IH. rewrite <- xs_add. f_equal. exact IH. Qed.
Lemma xs_div : forall x b, @xdiv NumR (xs f x) (@Fin NumR b) = xs f (@xdiv NumR x (@Fin NumR b)).
Proof.
  intros [a| | |] b; cbn [xs xdiv]; auto; try (unfold xinf; destruct (nltb _ _); reflexivity).
  unfold np_div. destruct (@neqb NumR b n0) eqn:E.
  - assert (@neqb NumR (f * a) n0 = @neqb NumR a n0) as ->.
    { cbn. destruct (Reqb a 0) eqn:F; [apply Reqb_spec in F; apply Reqb_spec; subst; ring|]. apply Reqb_false in F. apply Reqb_false. apply Rmult_integral_contrapositive. split; [lra|auto]. }
    destruct (neqb a n0); auto. assert (@nltb NumR n0 (f * a) = @nltb NumR n0 a) as ->.
    { cbn. destruct (Rltb 0 a) eqn:F; [apply Rltb_spec in F; apply Rltb_spec; nra|apply Rltb_false in F; apply Rltb_false; nra]. }
    unfold xinf. destruct (nltb n0 a); reflexivity.
  - cbn [xs]. f_equal. cbn. unfold Rdiv. ring.
Qed.
Lemma xs_mean : forall l, @xmean NumR (map (xs f) l) = xs f (@xmean NumR l).
Proof. intros [|x l]; [reflexivity|]. unfold xmean at 2. rewrite <- xs_div, <- xs_sum, <- (map_length (xs f)). reflexivity. Qed.
Lemma xs_nan : forall x, @assert_not_nan NumR (xs f x) = rmap (xs f) (@assert_not_nan NumR x).
Proof. intros [a| | |]; reflexivity. Qed.
Lemma xs_fin : forall x, @xfin NumR (xs f x) = rmap (Rmult f) (@xfin NumR x).
Proof. intros [a| | |]; reflexivity. Qed.
End F.

Section C.
Variable c : R.
Hypothesis Hc : c <> 0.
Lemma sq_pos : 0 < c * c.
Proof. apply Rsqr_pos_lt in Hc. exact Hc. Qed.
Lemma sqdiff_sv : forall y t, map2 (fun y t => @Fin NumR (@nsq NumR (@nsub NumR y t))) (sv c y) (sv c t) = map (xs (c * c)) (map2 (fun y t => @Fin NumR (@nsq NumR (@nsub NumR y t))) y t).
Proof. induction y as [|a y IH]; intros [|b t]; cbn; auto. unfold sv in *. rewrite IH. f_equal. f_equal. unfold nsq. rring. Qed.
Lemma press_sv : forall (r : R) y t, map2 (fun y t => @xsq NumR (@np_div NumR (@nsub NumR y t) r)) (sv c y) (sv c t) = map (xs (c * c)) (map2 (fun y t => @xsq NumR (@np_div NumR (@nsub NumR y t) r)) y t).
Proof.
  intros r. induction y as [|a y IH]; intros [|b t]; cbn; auto. unfold sv in *. rewrite IH. f_equal. replace (c * a - c * b) with (c * (a - b)) by ring.
  generalize (a - b). intros d. unfold np_div. cbn. destruct (Reqb r 0) eqn:E.
  - destruct (Reqb d 0) eqn:F.
    + apply Reqb_spec in F. subst. rewrite Rmult_0_r, Reqb_refl. reflexivity.
    + apply Reqb_false in F. assert (Reqb (c * d) 0 = false) as -> by (apply Reqb_false; apply Rmult_integral_contrapositive; auto).
      unfold xinf, xsq. destruct (Rltb _ _), (Rltb 0 d); reflexivity.
  - unfold xsq, xmul, xs. f_equal. cbn. unfold Rdiv. ring.
Qed.
Lemma concat_xs : forall {A} (g : A -> A) (k : A -> list (@xnum NumR)) f l, (forall a, k (g a) = map (xs f) (k a)) -> concat (map k (map g l)) = map (xs f) (concat (map k l)).
Proof. intros A g k f l H. rewrite map_map, concat_map, map_map. f_equal. apply map_ext. exact H. Qed.

Lemma argmax_sv : 0 < c -> forall v, @argmax NumR (sv c v) = @argmax NumR v.
Proof.
  intros Hp. assert (forall v b bi i, @argmax_from NumR (c * b) bi i (sv c v) = @argmax_from NumR b bi i v) as G.
  { induction v as [|x v IH]; intros b bi i; cbn [argmax_from sv map]; [reflexivity|].
    assert (@nltb NumR (c * b) (c * x) = @nltb NumR b x) as ->.
    { cbn. destruct (Rltb b x) eqn:F; [apply Rltb_spec in F; apply Rltb_spec; nra|apply Rltb_false in F; apply Rltb_false; nra]. }
    destruct (@nltb NumR b x); apply IH. }
  intros [|x v]; [reflexivity|]. apply G.
Qed.

(** how errors change: squared errors with the square, misclassifications not at all *)
Definition fac (cls : option string) : R := match cls with Some _ => 1 | None => c * c end.
Definition task_ok (cls : option string) : Prop := cls = None \/ (cls = Some "c" /\ 0 < c).
Lemma fac_pos : forall cls, 0 < fac cls.
Proof. intros [x|]; cbn; [lra|apply sq_pos]. Qed.
Lemma xs_1 : forall x, xs 1 x = x.
Proof. intros [a| | |]; cbn; auto. f_equal. rring. Qed.
Lemma raw_error_sc : forall cls wc T Y n, task_ok cls -> @raw_error NumR cls wc (sc c T) (sc c Y) n = rmap (xs (fac cls)) (@raw_error NumR cls wc T Y n).
Proof.
  intros cls wc T Y n [->|[-> Hp]]; unfold raw_error, zip_rows; pose proof (bcast_map (sv c) (sv c) Y T) as Q; unfold sc; cbn [num NumR] in *; rewrite Q.
  - apply rmap_bind. intros l. cbn [rmap rbind]. f_equal. cbn [fac]. rewrite <- xs_mean by apply sq_pos. f_equal.
    apply (concat_xs (fun p : list R * list R => (sv c (fst p), sv c (snd p)))). intros [y t]. apply sqdiff_sv.
  - apply rmap_bind. intros l. cbn [rmap rbind]. f_equal. cbn [fac]. rewrite xs_1. f_equal. rewrite map_map. apply map_ext. intros [y t]. cbn [fst snd]. unfold neq_arg. now rewrite !argmax_sv.
Qed.
Lemma raw_press_sc : forall cls wc T Y r n, task_ok cls -> @raw_press NumR cls wc (sc c T) (sc c Y) r n = rmap (xs (fac cls)) (@raw_press NumR cls wc T Y r n).
Proof.
  intros cls wc T Y r n [->|[-> Hp]]; unfold raw_press, zip_rows; pose proof (bcast_map (sv c) (sv c) Y T) as Q; unfold sc; cbn [num NumR] in *; rewrite Q.
  - apply rmap_bind. intros l. pose proof (bcast_map (fun p : list R * list R => (sv c (fst p), sv c (snd p))) (fun x : R => x) l r) as Q2. rewrite map_id in Q2. cbn [num NumR] in *. rewrite Q2.
    apply rmap_bind. intros q. cbn [rmap rbind]. f_equal. cbn [fac]. rewrite <- xs_mean by apply sq_pos. f_equal.
    apply (concat_xs (fun p : list R * list R * R => (sv c (fst (fst p)), sv c (snd (fst p)), snd p))). intros [[y t] x]. apply press_sv.
  - apply rmap_bind. intros l. pose proof (bcast_map (fun p : list R * list R => (sv c (fst p), sv c (snd p))) (fun x : R => x) l r) as Q2. rewrite map_id in Q2. cbn [num NumR] in *. rewrite Q2.
    apply rmap_bind. intros q. cbn [rmap rbind]. f_equal. cbn [fac]. rewrite xs_1. f_equal. rewrite map_map. apply map_ext. intros [[y t] x]. cbn [fst snd]. unfold neq_arg. now rewrite !argmax_sv.
Qed.
Lemma error_sc : forall e T Y, task_ok (e_class e) -> @error_ NumR e (sc c T) (sc c Y) = rmap (xs (fac (e_class e))) (@error_ NumR e T Y).
Proof. intros e T Y H. unfold error_. rewrite raw_error_sc by auto. apply rmap_bind. intros x. apply xs_nan. Qed.
Lemma press_sc : forall e T Y r, task_ok (e_class e) -> @press_ NumR e (sc c T) (sc c Y) r = rmap (xs (fac (e_class e))) (@press_ NumR e T Y r).
Proof. intros e T Y r H. unfold press_. rewrite raw_press_sc by auto. apply rmap_bind. intros x. apply xs_nan. Qed.
End C.
