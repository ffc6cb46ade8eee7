(** Multiplying the targets by a number multiplies everything that training computes from them. *)
From Coq Require Import Reals Lra.
From Verif Require Import Base Num Mat LinAlg Slfn Strs Elm Mrsr Search Mss MatFacts RLin SelectThms.
Local Open Scope list_scope.
Local Open Scope R_scope.
#[local] Existing Instance NumR.

Section Scale.
Variable c : R.
Definition sv (v : list R) : list R := map (Rmult c) v.
Definition sc (M : list (list R)) : list (list R) := map sv M.

Lemma vget_sv : forall v j, @vget NumR (sv v) j = c * @vget NumR v j.
Proof. intros v j. unfold vget, sv. cbn [num NumR n0]. replace 0 with (c * 0) at 1 by ring. exact (map_nth (Rmult c) v 0 j). Qed.
Lemma nth_sc : forall M i, nth i (sc M) [] = sv (nth i M []).
Proof. intros M i. exact (map_nth sv M [] i). Qed.
Lemma mget_sc : forall M i j, @mget NumR (sc M) i j = c * @mget NumR M i j.
Proof. intros M i j. unfold mget. pose proof (nth_sc M i) as Q. cbn [num NumR] in *. rewrite Q. apply vget_sv. Qed.
Lemma mkv_sv : forall n (f : nat -> R), @mkv NumR n (fun j => c * f j) = sv (@mkv NumR n f).
Proof. intros n f. unfold mkv, sv. cbn [num NumR]. now rewrite map_map. Qed.
Lemma mk_sc : forall n m (f : nat -> nat -> R), @mk NumR n m (fun i j => c * f i j) = sc (@mk NumR n m f).
Proof. intros n m f. unfold mk, sc. cbn [num NumR]. rewrite map_map. apply map_ext. intros i. exact (mkv_sv m (f i)). Qed.
Lemma mcol_sc : forall M j, @mcol NumR (sc M) j = sv (@mcol NumR M j).
Proof. intros M j. unfold mcol, sc, sv at 2. cbn [num NumR]. rewrite !map_map. apply map_ext. intros r. apply vget_sv. Qed.
Lemma nsum_sv : forall l, @nsum NumR (sv l) = c * @nsum NumR l.
Proof. induction l as [|a l IH]; cbn; [rring|]. unfold nsum, sv in IH. cbn in IH. rewrite IH. rring. Qed.
Lemma dotv_sv_r : forall x y, @dotv NumR x (sv y) = c * @dotv NumR x y.
Proof. intros x y. unfold dotv. rewrite <- nsum_sv. f_equal. revert y. induction x as [|a x IH]; intros [|b y]; cbn; auto. unfold sv in *. rewrite IH. f_equal. rring. Qed.
Lemma dotv_sv_l : forall x y, @dotv NumR (sv x) y = c * @dotv NumR x y.
Proof. intros x y. unfold dotv. rewrite <- nsum_sv. f_equal. revert y. induction x as [|a x IH]; intros [|b y]; cbn; auto. unfold sv in *. cbn. rewrite IH. f_equal. rring. Qed.
Lemma mmul_sc : forall p A B, @mmul NumR p A (sc B) = sc (@mmul NumR p A B).
Proof. intros p A B. unfold mmul, sc at 2. cbn [num NumR]. rewrite map_map. apply map_ext. intros ra. rewrite <- mkv_sv. apply (@mkv_ext NumR). intros j _. rewrite mcol_sc. apply dotv_sv_r. Qed.
Lemma tdot_sc_r : forall p q A B, @tdot NumR p q A (sc B) = sc (@tdot NumR p q A B).
Proof.
  intros p q A B. unfold tdot. rewrite <- mk_sc. apply (@mk_ext NumR). intros i j _ _. rewrite <- nsum_sv. f_equal. revert B.
  induction A as [|a A IH]; intros [|b B]; cbn; auto. unfold sv, sc in *. cbn. rewrite IH. f_equal. pose proof (vget_sv b j) as Q. unfold sv in Q. cbn in *. rewrite Q. rring.
Qed.
Lemma tdot_sc_l : forall p q A B, @tdot NumR p q (sc A) B = sc (@tdot NumR p q A B).
Proof.
  intros p q A B. unfold tdot. rewrite <- mk_sc. apply (@mk_ext NumR). intros i j _ _. rewrite <- nsum_sv. f_equal. revert B.
  induction A as [|a A IH]; intros [|b B]; cbn; auto. unfold sv, sc in *. cbn. rewrite IH. f_equal. pose proof (vget_sv a i) as Q. unfold sv in Q. cbn in *. rewrite Q. rring.
Qed.
Lemma rsel_sc : forall M ix, @rsel NumR (sc M) ix = sc (@rsel NumR M ix).
Proof. intros M ix. unfold rsel, sc at 2. cbn [num NumR]. rewrite map_map. apply map_ext. intros i. apply nth_sc. Qed.
Lemma vadd_sv : forall x y, @vadd NumR (sv x) (sv y) = sv (@vadd NumR x y).
Proof. induction x as [|a x IH]; intros [|b y]; cbn; auto. unfold vadd, sv in *. cbn in IH. rewrite IH. f_equal. rring. Qed.
Lemma madd_sc : forall A B, @madd NumR (sc A) (sc B) = sc (@madd NumR A B).
Proof. induction A as [|a A IH]; intros [|b B]; cbn; auto. unfold madd, sc in *. cbn in IH. rewrite IH. f_equal. apply vadd_sv. Qed.
Lemma vsub_sv : forall x y, map2 Rminus (sv x) (sv y) = sv (map2 Rminus x y).
Proof. induction x as [|a x IH]; intros [|b y]; cbn; auto. unfold sv in *. rewrite IH. f_equal. rring. Qed.
Lemma msubm_sc : forall A B, @msubm NumR (sc A) (sc B) = sc (@msubm NumR A B).
Proof. induction A as [|a A IH]; intros [|b B]; cbn; auto. unfold msubm, sc in *. cbn in IH. rewrite IH. f_equal. apply vsub_sv. Qed.
Lemma mscale_sc : forall a M, @mscale NumR a (sc M) = sc (@mscale NumR a M).
Proof. intros a M. unfold mscale, sc, sv. cbn [num NumR nmul]. rewrite !map_map. apply map_ext. intros r. rewrite !map_map. apply map_ext. intros x. rring. Qed.
Lemma sc_length : forall M, length (sc M) = length M.
Proof. intros. apply map_length. Qed.
Lemma sv_length : forall M, length (sv M) = length M.
Proof. intros. apply map_length. Qed.
Lemma zero_sc : forall n m, sc (@zero_mat NumR n m) = @zero_mat NumR n m.
Proof. intros n m. unfold zero_mat. rewrite <- mk_sc. apply (@mk_ext NumR). intros. cbn. ring. Qed.
Lemma sum_mult : forall (f : nat -> R) l, @nsum NumR (map (fun j => c * f j) l) = c * @nsum NumR (map f l).
Proof. intros f l. rewrite <- nsum_sv. unfold sv. cbn [num NumR]. now rewrite map_map. Qed.

Lemma posv_sc : forall n p A Y, @posv NumR n p A (sc Y) = option_map sc (@posv NumR n p A Y).
Proof.
  induction n as [|n IH]; intros p A Y; cbn [posv]; [reflexivity|]. destruct (nltb _ _); [|reflexivity].
  match goal with |- context [posv n p ?A' (mk n p ?f)] => assert (mk n p f = sc (mk n p (fun i k => @nsub NumR (mget Y (S i) k) (ndiv (nmul (mget A 0 (S i)) (mget Y 0 k)) (mget A 0 0))))) as -> end.
  { rewrite <- mk_sc. apply (@mk_ext NumR). intros i j _ _. rewrite !mget_sc. cbn. unfold Rdiv. ring. }
  rewrite IH. destruct (posv n p _ _) as [Z|]; cbn [option_map]; [|reflexivity]. f_equal.
  match goal with |- _ = sc (?a :: Z) => change (sc (a :: Z)) with (sv a :: sc Z) end. f_equal.
  etransitivity; [|apply mkv_sv]. apply (@mkv_ext NumR). intros k _. rewrite mget_sc. unfold sumn.
  assert (@nsum NumR (map (fun j => nmul (mget A 0 (S j)) (mget (sc Z) j k)) (seq 0 n)) = c * @nsum NumR (map (fun j => nmul (mget A 0 (S j)) (mget Z j k)) (seq 0 n))) as ->.
  { rewrite <- (sum_mult (fun j => @nmul NumR (mget A 0 (S j)) (mget Z j k))). f_equal. apply map_ext. intros j. rewrite mget_sc. cbn. ring. }
  cbn. unfold Rdiv. ring.
Qed.
Section S.
Context {SG : @Sing NumR}.
(** numpy's answers to singular systems are linear in the right-hand side *)
Definition lstsq_linear : Prop := forall A Y, @lstsq_sing NumR SG A (sc Y) = sc (@lstsq_sing NumR SG A Y).
Definition lu_linear : Prop := forall A Y, @lu_sing NumR SG A (sc Y) = sc (@lu_sing NumR SG A Y).
Lemma lstsq_sc : lstsq_linear -> forall n p A Y, @lstsq NumR SG n p A (sc Y) = sc (@lstsq NumR SG n p A Y).
Proof. intros HS n p A Y. unfold lstsq. rewrite tdot_sc_r, posv_sc. destruct (posv n p _ _); cbn [option_map]; auto. Qed.
Lemma lu_sc : lu_linear -> forall n p A Y, @lu_solve NumR SG n p A (sc Y) = sc (@lu_solve NumR SG n p A Y).
Proof. intros HS n p A Y. unfold lu_solve. rewrite tdot_sc_r, posv_sc. destruct (posv n p _ _); cbn [option_map]; auto. Qed.
Lemma solve_corr_sc : lstsq_linear -> forall s n A Y, @solve_corr NumR SG s n A (sc Y) = sc (@solve_corr NumR SG s n A Y).
Proof.
  intros HS s n A Y. unfold solve_corr. destruct (s_kind s); [apply mmul_sc| | |]; rewrite posv_sc; (destruct (posv _ _ _ _); cbn [option_map]; [reflexivity|now apply lstsq_sc]).
Qed.
End S.
End Scale.
