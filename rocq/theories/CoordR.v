(** Four changes of the inputs compensated in the neurons (C105; reals). *)
From Coq Require Import Reals Lra Permutation.
From Verif Require Import Base Num Mat LinAlg Slfn Strs Elm Mrsr Search Mss MatFacts RLin ErrMore ScaleErr Perm Demo ElmFacts Coord.
Local Open Scope list_scope.
Local Open Scope R_scope.
#[local] Existing Instance NumR.

(** neurons that see the sample only through its product with the weights (a ufunc is never evaluated) *)
Definition dotted (f : ftype) : bool := match f with RbfL1 | RbfL2 | RbfLinf => false | _ => true end.

Lemma act_dot : forall f (x w x' w' : list R) b b', dotted f = true -> @dotv NumR x w + b = @dotv NumR x' w' + b' -> @act NumR f x w b = @act NumR f x' w' b'.
Proof.
  intros f x w x' w' b b' Hf H. unfold act. assert (@nadd NumR (dotv x w) b = @nadd NumR (dotv x' w') b') as Q by exact H.
  destruct f; try discriminate Hf; try (rewrite Q; reflexivity). reflexivity.
Qed.
Definition maxl (l : list R) : R := fold_right (@nmax NumR) (@n0 NumR) l.
Lemma act_dist : forall f (x w x' w' : list R) b, dotted f = false ->
  @nsum NumR (map2 (fun a c => @nabs NumR (nsub a c)) x w) = @nsum NumR (map2 (fun a c => @nabs NumR (nsub a c)) x' w') ->
  @nsum NumR (map2 (fun a c => @nsq NumR (nsub a c)) x w) = @nsum NumR (map2 (fun a c => @nsq NumR (nsub a c)) x' w') ->
  maxl (map2 (fun a c => @nabs NumR (nsub a c)) x w) = maxl (map2 (fun a c => @nabs NumR (nsub a c)) x' w') ->
  @act NumR f x w b = @act NumR f x' w' b.
Proof. intros f x w x' w' b Hf H1 H2 H3. unfold act, maxl in *. destruct f; try discriminate Hf; [rewrite H1|rewrite H2|rewrite H3]; reflexivity. Qed.

(** the samples of [d] numbers, the models with [d] inputs *)
Definition kw_wide (d : nat) (kw : @kwargs NumR) : Prop := match kw_Xv kw with None => True | Some a => exists X, a = Arr2 d X /\ wide d X end.
Definition shaped (d : nat) (e : @elm NumR) : Prop := s_inputs (e_net e) = d /\ Forall (fun n => length (n_B n) = n_num n /\ length (n_W n) = d) (s_neurons (e_net e)).
Definition all_dotted (e : @elm NumR) : Prop := Forall (fun n => dotted (n_func n) = true) (s_neurons (e_net e)).

Section G.
Context {SG : @Sing NumR} {BR : @Brent NumR} {SH : Shuffle}.
(** the same outcome on the changed samples [psi x] with the changed model [mv e] *)
Definition equivalent (d d' : nat) (psi : list R -> list R) (mv : @elm NumR -> @elm NumR) (e : @elm NumR) : Prop :=
  (forall X, wide d X -> elm_project (mv e) (Arr2 d' (map psi X)) = elm_project e (Arr2 d X) /\ elm_predict (mv e) (Arr2 d' (map psi X)) = elm_predict e (Arr2 d X)) /\
  forall X T args kw, wide d X -> kw_wide d kw ->
    let p := train e (Arr2 d X) T args kw in
    let q := train (mv e) (Arr2 d' (map psi X)) T args (@move_kw NumR d' psi kw) in
    snd q = snd p /\ fst q = mv (fst p) /\ forall Z, wide d Z -> elm_predict (fst q) (Arr2 d' (map psi Z)) = elm_predict (fst p) (Arr2 d Z).

Lemma equivalent_from : forall d d' psi gw gb e, (forall x, length x = d -> length (psi x) = d') -> (forall f w b, length w = d -> length (gw f w b) = d') ->
  shaped d e -> (forall n x j, In n (s_neurons (e_net e)) -> length x = d -> (j < n_num n)%nat -> length (@mcol NumR (n_W n) j) = d ->
     @act NumR (n_func n) (psi x) (gw (n_func n) (mcol (n_W n) j) (vget (n_B n) j)) (gb (n_func n) (mcol (n_W n) j) (vget (n_B n) j)) = @act NumR (n_func n) x (mcol (n_W n) j) (vget (n_B n) j)) ->
  equivalent d d' psi (@move NumR d' gw gb) e.
Proof.
  intros d d' psi gw gb e Hp Hg [HS1 HS2] HA.
  assert (@ok NumR d psi gw gb (fun x => length x = d) e) as HO.
  { split; [exact HS1|]. rewrite Forall_forall in *. intros n Hn. split; [apply HS2; exact Hn|]. intros x j Hx Hj. apply HA; auto. rewrite mcol_length. now apply HS2. }
  split.
  - intros X HX. split; [apply (elm_project_move d d' psi gw gb Hp Hg (fun x => length x = d)); auto|apply (predict_move d d' psi gw gb Hp Hg (fun x => length x = d)); auto].
  - intros X T args kw HX HK p q. destruct (train_move d d' psi gw gb Hp Hg (fun x => length x = d) (fun x H => H) e X T args kw HO HX HK) as [Q1 Q2].
    fold p in Q1, Q2. change (q = (@move NumR d' gw gb (fst p), snd p)) in Q1. rewrite Q1. cbn [fst snd]. split; [reflexivity|]. split; [reflexivity|]. intros Z HZ. apply (predict_move d d' psi gw gb Hp Hg (fun x => length x = d)); auto.
Qed.

(** ** another order of the features *)
Definition reorder_w (q : list nat) (f : ftype) (w : list R) (b : R) : list R := @vsel NumR w q.
Definition same_b (f : ftype) (w : list R) (b : R) : R := b.
Definition reorder (q : list nat) (e : @elm NumR) : @elm NumR := @move NumR (length q) (reorder_w q) same_b e.
Lemma nmaxR : forall a b : R, @nmax NumR a b = Rmax a b.
Proof. intros a b. unfold nmax. change (@nltb NumR a b) with (Rltb a b). unfold Rltb. destruct (Rlt_dec a b); [rewrite Rmax_right; lra|rewrite Rmax_left; lra]. Qed.
Lemma nmax_comm3 : forall a b c : R, @nmax NumR a (nmax b c) = @nmax NumR b (nmax a c).
Proof. intros a b c. rewrite !nmaxR. now rewrite !Rmax_assoc, (Rmax_comm a b). Qed.
Lemma maxl_perm : forall l l', Permutation l l' -> maxl l = maxl l'.
Proof. intros l l' H. unfold maxl. induction H; cbn [fold_right]; [reflexivity|now rewrite IHPermutation|apply nmax_comm3|congruence]. Qed.
Lemma equivalent_reorder : forall d q e, Permutation q (seq 0 d) -> shaped d e -> equivalent d d (fun x => @vsel NumR x q) (reorder q) e.
Proof.
  intros d q e Hq HS. assert (length q = d) as HL by exact (ix_len d q Hq).
  assert (forall (h : R -> R -> R) x w, length x = d -> length w = d -> Permutation (map2 h (@vsel NumR x q) (@vsel NumR w q)) (map2 h x w)) as G.
  { intros h x w Hx Hw. change (@vsel NumR x q) with (pr q 0 x). change (@vsel NumR w q) with (pr q 0 w). rewrite (pr_map2 d q Hq h 0 0 0 x w Hx Hw). apply (pr_perm d q Hq). now apply map2_length_eq. }
  unfold reorder. rewrite HL. apply equivalent_from; [intros x _; unfold vsel; rewrite map_length; exact HL|intros f w b _; unfold reorder_w, vsel; rewrite map_length; exact HL|exact HS|].
  intros n x j _ Hx _ Hw. unfold reorder_w, same_b. destruct (dotted (n_func n)) eqn:E.
  - apply act_dot; [exact E|]. f_equal. unfold dotv. apply nsum_permR. now apply G.
  - apply act_dist; [exact E|apply nsum_permR|apply nsum_permR|apply maxl_perm]; now apply G.
Qed.

(** ** shifted features *)
Definition shift_x (a x : list R) : list R := map2 Rplus x a.
Definition shift_w (a : list R) (f : ftype) (w : list R) (b : R) : list R := if dotted f then w else map2 Rplus w a.
Definition shift_b (a : list R) (f : ftype) (w : list R) (b : R) : R := if dotted f then b - @dotv NumR a w else b.
Definition shift (a : list R) (e : @elm NumR) : @elm NumR := @move NumR (length a) (shift_w a) (shift_b a) e.
Lemma dot_shift : forall a x w, length x = length w -> length a = length w -> @dotv NumR (map2 Rplus x a) w = @dotv NumR x w + @dotv NumR a w.
Proof.
  unfold dotv. induction a as [|a0 a IH]; intros [|x0 x] [|w0 w] H1 H2; try discriminate H1; try discriminate H2; cbn [map2 nsum fold_right]; [cbn; lra|].
  specialize (IH x w ltac:(now injection H1) ltac:(now injection H2)). unfold nsum in *. cbn [num NumR nadd nmul] in *. rewrite IH. lra.
Qed.
Lemma map2_shift : forall (h : R -> R -> R) (a x w : list R), (forall u v c, h (u + c) (v + c) = h u v) -> length x = length w -> length a = length w -> map2 h (map2 Rplus x a) (map2 Rplus w a) = map2 h x w.
Proof.
  intros h a. induction a as [|a0 a IH]; intros [|x0 x] [|w0 w] Hh H1 H2; try discriminate H1; try discriminate H2; cbn [map2]; [reflexivity|]. rewrite Hh. f_equal. apply IH; auto.
Qed.
Lemma equivalent_shift : forall d a e, length a = d -> shaped d e -> equivalent d d (shift_x a) (shift a) e.
Proof.
  intros d a e Ha HS. unfold shift. rewrite Ha. apply equivalent_from; [intros x Hx; now apply map2_length_eq|intros f w b Hw; unfold shift_w; destruct (dotted f); [exact Hw|now apply map2_length_eq]|exact HS|].
  intros n x j _ Hx _ Hw. pose proof (eq_trans Hx (eq_sym Hw) : @length R x = @length R (@mcol NumR (n_W n) j)) as L1. pose proof (eq_trans Ha (eq_sym Hw) : @length R a = @length R (@mcol NumR (n_W n) j)) as L2. unfold shift_w, shift_b, shift_x. destruct (dotted (n_func n)) eqn:E.
  - apply act_dot; [exact E|]. pose proof (dot_shift a x _ L1 L2) as Q. cbn [num NumR] in *. rewrite Q. lra.
  - assert (forall u v c : R, @nsub NumR (u + c) (v + c) = @nsub NumR u v) as Q by (intros; cbn; lra).
    apply act_dist; [exact E|..]; f_equal; apply map2_shift; auto; intros u v c; now rewrite Q.
Qed.

(** ** features in other units *)
Definition rescale_w (s : list R) (f : ftype) (w : list R) (b : R) : list R := map2 Rdiv w s.
Definition rescale (s : list R) (e : @elm NumR) : @elm NumR := @move NumR (length s) (rescale_w s) same_b e.
Lemma dot_scale : forall s x w, Forall (fun c => c <> 0) s -> length x = length w -> length s = length w -> @dotv NumR (map2 Rmult x s) (map2 Rdiv w s) = @dotv NumR x w.
Proof.
  unfold dotv. induction s as [|a0 a IH]; intros [|x0 x] [|w0 w] HF H1 H2; try discriminate H1; try discriminate H2; cbn [map2]; [reflexivity|]. inversion HF; subst.
  specialize (IH x w ltac:(assumption) ltac:(now injection H1) ltac:(now injection H2)). unfold nsum in *. cbn [fold_right]. rewrite IH. cbn [num NumR nadd nmul] in *. f_equal. now field.
Qed.
Lemma equivalent_rescale : forall d s e, length s = d -> Forall (fun c => c <> 0) s -> shaped d e -> all_dotted e -> equivalent d d (fun x => map2 Rmult x s) (rescale s) e.
Proof.
  intros d s e Hs HF HS HD. unfold rescale. rewrite Hs. apply equivalent_from; [intros x Hx; now apply map2_length_eq|intros f w b Hw; now apply map2_length_eq|exact HS|].
  intros n x j Hn Hx _ Hw. pose proof (eq_trans Hx (eq_sym Hw) : @length R x = @length R (@mcol NumR (n_W n) j)) as L1. pose proof (eq_trans Hs (eq_sym Hw) : @length R s = @length R (@mcol NumR (n_W n) j)) as L2. unfold rescale_w, same_b. unfold all_dotted in HD. rewrite Forall_forall in HD. apply act_dot; [now apply HD|]. f_equal. now apply dot_scale.
Qed.

(** ** constant features added *)
Definition extend_w (c v : list R) (f : ftype) (w : list R) (b : R) : list R := if dotted f then w ++ v else w ++ c.
Definition extend_b (c v : list R) (f : ftype) (w : list R) (b : R) : R := if dotted f then b - @dotv NumR c v else b.
Definition extend (d : nat) (c v : list R) (e : @elm NumR) : @elm NumR := @move NumR (d + length c) (extend_w c v) (extend_b c v) e.
Lemma map2_appl : forall {A B C} (h : A -> B -> C) x c w v, length x = length w -> map2 h (x ++ c) (w ++ v) = map2 h x w ++ map2 h c v.
Proof. intros A B C h. induction x as [|x0 x IH]; intros c [|w0 w] v H; try discriminate H; cbn [map2 app]; [reflexivity|]. f_equal. apply IH. now injection H. Qed.
Lemma nsum_app : forall l m, @nsum NumR (l ++ m) = @nsum NumR l + @nsum NumR m.
Proof. induction l as [|a l IH]; intros m; unfold nsum in *; cbn [app fold_right]; [cbn; lra|]. rewrite IH. cbn. lra. Qed.
Lemma dot_app : forall x c w v, length x = length w -> @dotv NumR (x ++ c) (w ++ v) = @dotv NumR x w + @dotv NumR c v.
Proof. intros x c w v H. unfold dotv. rewrite map2_appl by exact H. apply nsum_app. Qed.
Lemma zeros : forall (h : R -> R -> R) c, (forall a, h a a = 0) -> Forall (fun z => z = 0) (map2 h c c).
Proof. intros h c H. induction c; cbn [map2]; constructor; auto. Qed.
Lemma nsum_zeros : forall l, Forall (fun z => z = 0) l -> @nsum NumR l = 0.
Proof. intros l H. induction H; [reflexivity|]. unfold nsum in *. cbn [fold_right]. rewrite IHForall. subst. cbn. lra. Qed.
Lemma maxl_zeros : forall l, Forall (fun z => z = 0) l -> maxl l = 0.
Proof. intros l H. unfold maxl. induction H; [reflexivity|]. cbn [fold_right]. rewrite IHForall. subst. unfold nmax. destruct (nltb _ _); reflexivity. Qed.
Lemma len_app : forall (x c : list R) d, length x = d -> length (x ++ c) = (d + length c)%nat.
Proof. intros x c d <-. apply app_length. Qed.
Lemma equivalent_extend : forall d c v e, length v = length c -> shaped d e -> equivalent d (d + length c) (fun x => x ++ c) (extend d c v) e.
Proof.
  intros d c v e Hv HS. unfold extend. apply equivalent_from; [intros x Hx; now apply len_app|intros f w b Hw; unfold extend_w; destruct (dotted f); [rewrite <- Hv|]; now apply len_app|exact HS|].
  intros n x j _ Hx _ Hw. pose proof (eq_trans Hx (eq_sym Hw) : @length R x = @length R (@mcol NumR (n_W n) j)) as L1. unfold extend_w, extend_b. destruct (dotted (n_func n)) eqn:E.
  - apply act_dot; [exact E|]. pose proof (dot_app x c _ v L1) as Q. cbn [num NumR] in *. rewrite Q. lra.
  - assert (forall h : R -> R -> R, (forall a, h a a = 0) -> @nsum NumR (map2 h (x ++ c) (mcol (n_W n) j ++ c)) = @nsum NumR (map2 h x (mcol (n_W n) j))) as Q.
    { intros h Hh. rewrite map2_appl by exact L1. rewrite nsum_app, (nsum_zeros (map2 h c c)) by now apply zeros. lra. }
    apply act_dist; [exact E|apply Q|apply Q|].
    + intros a. cbn. unfold Rminus. rewrite Rplus_opp_r. apply Rabs_R0.
    + intros a. cbn. unfold nsq. cbn. lra.
    + rewrite map2_appl by exact L1. unfold maxl. rewrite fold_right_app. f_equal. apply maxl_zeros. apply zeros. intros a. cbn. unfold Rminus. rewrite Rplus_opp_r. apply Rabs_R0.
Qed.
End G.

Lemma neurons_case : forall d d' gw gb e func f W B rW rB, s_inputs (e_net e) = d -> Forall (@rect NumR d) (s_neurons (e_net e)) -> parse_func func = Some f -> length W = d ->
  let old := add_neurons e (Z.of_nat (length B)) func (Some (length B, W)) (Some B) rW rB in
  add_neurons (move d' gw gb e) (Z.of_nat (length B)) func
    (Some (length B, mk d' (length B) (fun i j => vget (gw f (mcol W j) (vget B j)) i))) (Some (mkv (length B) (fun j => gb f (mcol W j) (vget B j)))) rW rB
  = (move d' gw gb (fst old), Ok tt) /\ snd old = Ok tt.
Proof. intros d d' gw gb e func f W B rW rB H1 H2 H3 H4 old. destruct (add_neurons_move d d' gw gb e func f W B rW rB H1 H2 H3 H4) as (Q1 & Q2 & _). split; [exact Q1|exact Q2]. Qed.
Local Open Scope string_scope.
Definition rbf_demo : @elm NumR := fst (add_neurons (demo None "" None) 1 (FName "rbf_l2") (Some (1%nat, [[1]; [2]])) (Some [1]) (fun _ => []) (fun _ => [])).
Lemma coord_case : let e := rbf_demo in shaped 2 e /\ Forall (@rect NumR 2) (s_neurons (e_net e)) /\ all_dotted (demo None "" None) /\ shaped 2 (demo None "" None) /\ wide 2 demo_X /\ kw_wide 2 no_kw /\
  Permutation [1; 0]%nat (seq 0 2) /\
  map n_func (s_neurons (e_net e)) = [Lin; Tanh; RbfL2] /\ map n_W (s_neurons (e_net e)) = [[[1; 0]; [0; 1]]; [[1]; [1]]; [[1]; [2]]] /\
  map n_W (s_neurons (e_net (reorder [1; 0]%nat e))) = [[[0; 1]; [1; 0]]; [[1]; [1]]; [[2]; [1]]] /\
  map n_W (s_neurons (e_net (shift [5; 7] e))) = [[[1; 0]; [0; 1]]; [[1]; [1]]; [[6]; [9]]] /\
  map n_B (s_neurons (e_net (shift [5; 7] e))) = [[-5; -6]; [-12]; [1]] /\
  map n_W (s_neurons (e_net (extend 2 [3] [4] e))) = [[[1; 0]; [0; 1]; [4; 4]]; [[1]; [1]; [4]]; [[1]; [2]; [3]]].
Proof.
  cbn zeta. split; [split; [reflexivity|]; repeat constructor|]. split; [repeat constructor|]. split; [repeat constructor|]. split; [split; [reflexivity|]; repeat constructor|]. split; [repeat constructor|]. split; [exact I|].
  split; [apply perm_swap|]. split; [reflexivity|]. split; [reflexivity|]. split; [reflexivity|].
  assert (s_neurons (e_net rbf_demo) = [mkNeuron 2 Lin [[1; 0]; [0; 1]] [0; 1]; mkNeuron 1 Tanh [[1]; [1]] [0]; mkNeuron 1 RbfL2 [[1]; [2]] [1]]) as E by reflexivity.
  unfold shift, extend, move, move_net. cbn [with_net e_net s_neurons]. rewrite E. unfold move_group, shift_w, shift_b, extend_w, dotv, vget, mcol. cbn.
  repeat split; repeat f_equal; lra.
Qed.
