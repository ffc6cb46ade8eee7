(** Which neuron mrsr2 takes and how far it goes (C101; reals, brentq returns exact roots). *)
From Coq Require Import Reals Lra Permutation Sorted.
From Verif Require Import Base Num Mat LinAlg Mrsr MatFacts RankThms RLin ErrThms WfProofs RidgeProofs RankMore MrsrSpec MrsrPath Mrsr2Path Spec.
Local Open Scope R_scope.
#[local] Existing Instance NumR.

(** ---- specification ---- *)
(** length of a vector *)
Definition enorm (v : list R) : R := sqrt (Rsum (map (fun a => a * a) v)).
Definition along (a b : list R) (t : R) : list R := map2 (fun x y => x - t * y) a b.
(** brentq finds a root between 0 and y if there is one *)
Definition exact_roots (BR : @Brent NumR) : Prop := forall y c a b, 0 <= y <= 1 -> length a = length b -> (1 - y) * c < enorm (along a b y) ->
  match @brentq NumR BR y c a b with Some t => 0 <= t <= y /\ (1 - t) * c = enorm (along a b t) | None => c < enorm a end.
(** the output on the way from Y to the fit Yo *)
Definition blend (y : R) (Y Yo : nat -> nat -> R) (i o : nat) : R := (1 - y) * Y i o + y * Yo i o.
(** Y: present output; Yo: fit of the chosen neurons ks; the step y ends where the correlation of the new neuron j has
    reached that of the neuron chosen last; the remaining neurons that were below it are still below it *)
Definition choice2 (n m p : nat) (H T : list (list R)) (ks : list nat) (Y Yo : nat -> nat -> R) (j : nat) (y : R) : Prop :=
  let c := strength2 n p H T Y (last ks O) in
  0 <= y <= 1 /\ (j < m)%nat /\ ~ In j ks /\
  (y = 1 /\ (forall k, (k < m)%nat -> ~ In k ks -> (k <= j)%nat) \/ strength2 n p H T (blend y Y Yo) j = (1 - y) * c) /\
  forall k, (k < m)%nat -> ~ In k ks -> strength2 n p H T Y k <= c -> strength2 n p H T (blend y Y Yo) k <= (1 - y) * c.
Inductive mrsr2_rule (n m p : nat) (H T : list (list R)) : list nat -> (nat -> nat -> R) -> (nat -> nat -> R) -> Prop :=
| Rule2_first : forall j Y Yo, (j < m)%nat -> (forall i o, (i < n)%nat -> (o < p)%nat -> Y i o = 0) ->
    (forall k, (k < m)%nat -> strength2 n p H T Y k <= strength2 n p H T Y j) -> best_fit n p H T [j] Yo ->
    mrsr2_rule n m p H T [j] Y Yo
| Rule2_step : forall ks Y Yo j y Yls Y', mrsr2_rule n m p H T ks Y Yo -> choice2 n m p H T ks Y Yo j y ->
    best_fit n p H T (ks ++ [j]) Yls -> (forall i o, (i < n)%nat -> (o < p)%nat -> Y' i o = blend y Y Yls i o) ->
    mrsr2_rule n m p H T (ks ++ [j]) Y' Yls.

(** ---- lengths are convex ---- *)
Lemma cauchy : forall p (f g : nat -> R), S_ p (fun o => f o * g o) * S_ p (fun o => f o * g o) <= S_ p (fun o => f o * f o) * S_ p (fun o => g o * g o).
Proof.
  intros p f g. set (A := S_ p (fun o => f o * f o)). set (B := S_ p (fun o => f o * g o)). set (C := S_ p (fun o => g o * g o)).
  assert (forall t, 0 <= A - 2 * t * B + t * t * C) as Q.
  { intros t. assert (0 <= S_ p (fun o => (f o - t * g o) * (f o - t * g o))) as Q by (apply sum_nonneg; intros; apply Rle_0_sqr).
    assert (S_ p (fun o => (f o - t * g o) * (f o - t * g o)) = A - 2 * t * B + t * t * C) as E.
    { unfold A, B, C. rewrite <- !sum_scal, <- sum_sub, <- sum_add. apply sum_ext. intros. rring. }
    rewrite E in Q. exact Q. }
  assert (0 <= C) as HC by (apply sum_nonneg; intros; apply Rle_0_sqr). clearbody A B C. cbn [num NumR] in *.
  destruct (Req_dec C 0) as [Z|Z].
  - destruct (Req_dec B 0) as [ZB|ZB]; [rewrite Z, ZB; lra|]. specialize (Q ((A + 1) / (2 * B))). rewrite Z in Q. replace (A - 2 * ((A + 1) / (2 * B)) * B + (A + 1) / (2 * B) * ((A + 1) / (2 * B)) * 0) with (- 1) in Q by (field; exact ZB). lra.
  - specialize (Q (B / C)). assert (A - 2 * (B / C) * B + B / C * (B / C) * C = (A * C - B * B) / C) as E by (field; exact Z). rewrite E in Q.
    assert (0 < C) as HC' by lra. apply (Rmult_le_compat_r C) in Q; [|lra]. replace ((A * C - B * B) / C * C) with (A * C - B * B) in Q by (field; exact Z). lra.
Qed.
Definition len (p : nat) (f : nat -> R) : R := sqrt (S_ p (fun o => f o * f o)).
Lemma len_nn : forall p f, 0 <= len p f.
Proof. intros. apply sqrt_pos. Qed.
Lemma len_sq : forall p f, len p f * len p f = S_ p (fun o => f o * f o).
Proof. intros p f. apply sqrt_sqrt. apply sum_nonneg. intros. apply Rle_0_sqr. Qed.
Lemma len_scal : forall p f s, 0 <= s -> len p (fun o => s * f o) = s * len p f.
Proof.
  intros p f s Hs. unfold len. transitivity (sqrt (s * s) * sqrt (S_ p (fun o => f o * f o))); [|now rewrite (sqrt_square s Hs)]. rewrite <- sqrt_mult_alt by (apply Rle_0_sqr). f_equal. rewrite <- sum_scal. apply sum_ext. intros. rring.
Qed.
Lemma len_add : forall p f g, len p (fun o => f o + g o) <= len p f + len p g.
Proof.
  intros p f g. apply Rsqr_incr_0_var; [|pose proof (len_nn p f); pose proof (len_nn p g); lra]. unfold Rsqr. rewrite len_sq.
  assert (S_ p (fun o => (f o + g o) * (f o + g o)) = len p f * len p f + 2 * S_ p (fun o => f o * g o) + len p g * len p g) as E.
  { rewrite !len_sq. rewrite <- sum_scal, <- !sum_add. apply sum_ext. intros. rring. }
  cbn [num NumR] in *. rewrite E.
  assert (S_ p (fun o => f o * g o) <= len p f * len p g) as Q.
  { apply Rsqr_incr_0_var; [|apply Rmult_le_pos; apply len_nn]. unfold Rsqr. pose proof (cauchy p f g) as C. rewrite <- (len_sq p f), <- (len_sq p g) in C. cbn [num NumR] in *. lra. }
  cbn [num NumR] in *. lra.
Qed.
Lemma len_ext : forall p f g, (forall o, (o < p)%nat -> f o = g o) -> len p f = len p g.
Proof. intros p f g E. unfold len. f_equal. apply sum_ext. intros o Ho. now rewrite E. Qed.
(** below the line at both ends, below it between them *)
Lemma below_between : forall p (a b : nat -> R) c t y, 0 <= t <= y -> len p a <= c -> len p (fun o => a o - y * b o) <= (1 - y) * c -> len p (fun o => a o - t * b o) <= (1 - t) * c.
Proof.
  intros p a b c t y Ht H0 Hy. destruct (Req_dec y 0) as [Z|Z].
  - assert (t = 0) as -> by lra. rewrite (len_ext p _ a) by (intros; lra). lra.
  - set (s := t / y). assert (0 < y) as Hy0 by lra.
    assert (s * y = t) as Es by (unfold s; field; exact Z).
    assert (0 <= s) as S0 by (unfold s; apply Rmult_le_pos; [lra|apply Rlt_le, Rinv_0_lt_compat; lra]).
    assert (s <= 1) as S1 by (apply (Rmult_le_reg_r y); lra).
    assert (len p (fun o => a o - t * b o) <= (1 - s) * len p a + s * len p (fun o => a o - y * b o)) as Q.
    { rewrite <- !len_scal by lra. eapply Rle_trans; [|apply len_add]. right. apply len_ext. intros o _. rewrite <- Es. ring. }
    pose proof (Rmult_le_compat_l (1 - s) _ _ ltac:(lra) H0) as Q1. pose proof (Rmult_le_compat_l s _ _ S0 Hy) as Q2. replace ((1 - t) * c) with ((1 - s) * c + s * ((1 - y) * c)) by (rewrite <- Es; ring). lra.
Qed.
Lemma enorm_len : forall p v, length v = p -> enorm v = len p (fun o => nth o v 0).
Proof.
  intros p v <-. unfold enorm, len. f_equal. unfold sumn. change (@nsum NumR) with Rsum. f_equal. induction v as [|a v IH]; [reflexivity|]. cbn [length seq map nth]. rewrite <- seq_shift, map_map. exact (f_equal (cons (a * a)) IH).
Qed.
Lemma along_nth : forall a b t o, length a = length b -> (o < length a)%nat -> nth o (along a b t) 0 = nth o a 0 - t * nth o b 0.
Proof. unfold along. induction a as [|x a IH]; intros [|y b] t o HL Ho; try discriminate HL; [cbn in Ho; lia|]. destruct o; cbn [map2 nth]; [reflexivity|]. apply IH; [now injection HL|cbn in Ho; lia]. Qed.
Lemma along_len : forall a b t, length a = length b -> length (along a b t) = length a.
Proof. unfold along. induction a as [|x a IH]; intros [|y b] t HL; try discriminate HL; [reflexivity|]. cbn. f_equal. apply IH. now injection HL. Qed.
Lemma norm2_enorm : forall v, @norm2 NumR v = enorm v.
Proof. reflexivity. Qed.
Lemma along_model : forall a b y, @map2 R R R (@nsub NumR) a (map (@nmul NumR y) b) = along a b y.
Proof. unfold along. induction a as [|x a IH]; intros [|z b] y; cbn [map map2]; [reflexivity..|]. f_equal. apply IH. Qed.
Lemma enorm_between : forall a b c t y, length a = length b -> 0 <= t <= y -> enorm a <= c -> enorm (along a b y) <= (1 - y) * c -> enorm (along a b t) <= (1 - t) * c.
Proof.
  intros a b c t y HL Ht H0 Hy. rewrite (enorm_len (length a)) in * by (auto using along_len). 
  rewrite (len_ext _ _ (fun o => nth o a 0 - t * nth o b 0)) by (intros; now apply along_nth). rewrite (len_ext _ _ (fun o => nth o a 0 - y * nth o b 0)) in Hy by (intros; now apply along_nth).
  now apply (below_between _ _ _ c t y).
Qed.

Section Choice.
Context {SG : @Sing NumR} {BR : @Brent NumR}.
Hypothesis ROOTS : exact_roots BR.
Lemma min_new_least : forall (p1 p2 : nat -> list R) c, (forall k, length (p1 k) = length (p2 k)) -> forall js y j0 y' j', 0 <= y <= 1 ->
  @min_new NumR BR p1 p2 c js y j0 = (y', j') ->
  0 <= y' <= y /\ (y' = y /\ j' = j0 \/ exists k, In k js /\ j' = Some k /\ enorm (along (p1 k) (p2 k) y') = (1 - y') * c) /\
  forall k, In k js -> enorm (p1 k) <= c -> enorm (along (p1 k) (p2 k) y') <= (1 - y') * c.
Proof.
  intros p1 p2 c HL. induction js as [|k js IH]; intros y j0 y' j' Hy E; cbn [min_new] in E.
  { injection E as <- <-. split; [lra|]. split; [auto|]. intros k []. }
  change (@nltb NumR) with Rltb in E. unfold Rltb in E. match type of E with context [Rlt_dec ?u ?v] => assert (u = (1 - y) * c) as E1 by reflexivity; assert (v = enorm (along (p1 k) (p2 k) y)) as E2 by (rewrite <- along_model; reflexivity); rewrite E1, E2 in E; clear E1 E2 end.
  destruct (Rlt_dec _ _) as [L|L].
  - pose proof (ROOTS y c (p1 k) (p2 k) Hy (HL k) L) as Q. cbn [num NumR] in *. destruct (@brentq NumR BR y c (p1 k) (p2 k)) as [t|].
    + destruct Q as [Q1 Q2]. destruct (IH t (Some k) y' j' ltac:(lra) E) as (A & B & C). split; [lra|]. split.
      * right. destruct B as [[-> ->]|(k' & B1 & B2 & B3)]; [exists k|exists k']; repeat split; auto; [now left|now right].
      * intros k' [<-|Hk'] H0; [|auto]. apply (enorm_between _ _ c y' t); auto; lra.
    + destruct (IH y j0 y' j' Hy E) as (A & B & C). split; [exact A|]. split; [destruct B as [B|(k' & B1 & B2)]; [auto|right; exists k'; split; [now right|auto]]|].
      intros k' [<-|Hk'] H0; [lra|auto].
  - destruct (IH y j0 y' j' Hy E) as (A & B & C). split; [exact A|]. split; [destruct B as [B|(k' & B1 & B2)]; [auto|right; exists k'; split; [now right|auto]]|].
    intros k' [<-|Hk'] H0; [|auto]. apply (enorm_between _ _ c y' y); auto; lra.
Qed.

Variables n m p : nat.
Variables H T : list (list R).
Hypothesis HX : @is_mat NumR n m H.
Hypothesis HT : @is_mat NumR n p T.
Hypothesis IND : independent n m H.
Lemma nsum_map2_S : forall {A B} (f : A -> B -> R) da db l q N, length l = N -> length q = N -> @nsum NumR (map2 f l q) = S_ N (fun i => f (nth i l da) (nth i q db)).
Proof.
  intros A B f da db. induction l as [|a l IH]; intros [|b q] N H1 H2; cbn [length] in *; try lia; subst N; [reflexivity|]. rewrite sum_S. cbn [map2 nth]. unfold nsum in *. cbn [fold_right]. rewrite (IH q (length l)) by lia. reflexivity.
Qed.
Lemma tvec_nth : forall M j o, @is_mat NumR n p M -> (o < p)%nat -> nth o (@tvec NumR p M (@mcol NumR H j)) 0 = S_ n (fun i => MrsrSpec.at_ H i j * mR M i o).
Proof.
  intros M j o HM Ho. unfold tvec. change (nth o (@mkv NumR p ?f) 0) with (@vget NumR (@mkv NumR p f) o). rewrite vget_mkv by exact Ho.
  rewrite (nsum_map2_S _ [] 0 M (@mcol NumR H j) n) by (first [apply HM|unfold mcol; rewrite map_length; apply HX]).
  apply sum_ext. intros i Hi. pose proof (@vget_mcol NumR H j i) as Q. cbn beta. change (nth i (@mcol NumR H j) 0) with (@vget NumR (@mcol NumR H j) i). cbn [num NumR] in *. rewrite Q by (eapply lt_len; [apply HX|auto]).
  change (MrsrSpec.at_ H i j) with (mR H i j). change (@vget NumR (nth i M []) o) with (mR M i o). rring.
Qed.
Lemma tvec_len : forall M x, length (@tvec NumR p M x) = p.
Proof. intros. unfold tvec, mkv. now rewrite map_length, seq_length. Qed.
Lemma strength_len : forall Y j, strength2 n p H T Y j = len p (residual_corr n H T Y j).
Proof. reflexivity. Qed.
Lemma tv_strength : forall M Y j, @is_mat NumR n p M -> (forall i o, (i < n)%nat -> (o < p)%nat -> mR M i o = MrsrSpec.at_ T i o - Y i o) ->
  enorm (@tvec NumR p M (@mcol NumR H j)) = strength2 n p H T Y j.
Proof.
  intros M Y j HM E. rewrite (enorm_len p) by apply tvec_len. rewrite strength_len. apply len_ext. intros o Ho. rewrite tvec_nth by auto. unfold residual_corr. apply sum_ext. intros i Hi. now rewrite E.
Qed.
Lemma tv_along : forall M D Y Yo j t, @is_mat NumR n p M -> @is_mat NumR n p D -> (forall i o, (i < n)%nat -> (o < p)%nat -> mR M i o = MrsrSpec.at_ T i o - Y i o) ->
  (forall i o, (i < n)%nat -> (o < p)%nat -> mR D i o = Yo i o - Y i o) ->
  enorm (along (@tvec NumR p M (@mcol NumR H j)) (@tvec NumR p D (@mcol NumR H j)) t) = strength2 n p H T (blend t Y Yo) j.
Proof.
  intros M D Y Yo j t HM HD EM ED. rewrite (enorm_len p) by (rewrite along_len; rewrite !tvec_len; reflexivity). rewrite strength_len. apply len_ext. intros o Ho.
  rewrite along_nth by (rewrite !tvec_len; auto). rewrite !tvec_nth by auto. unfold residual_corr, blend. change (@MrsrSpec.total n ?f) with (S_ n f). rewrite <- sum_scal, <- sum_sub. apply sum_ext. intros i Hi. rewrite EM, ED by auto. rring.
Qed.

Lemma remove1_sorted : forall j l, StronglySorted lt l -> StronglySorted lt (remove1 j l).
Proof.
  intros j l S. induction S as [|a l S IH F]; [constructor|]. cbn [remove1]. destruct (a =? j)%nat; [exact S|]. constructor; [exact IH|]. rewrite Forall_forall in *. intros x Hx. apply F. revert Hx. clear. induction l as [|b l IH]; [intros []|]. cbn [remove1]. destruct (b =? j)%nat; [now right|]. intros [->|Hx]; [now left|right; auto].
Qed.
Lemma sorted_last : forall l d k, StronglySorted lt l -> In k l -> (k <= last l d)%nat.
Proof.
  intros l d k S. induction S as [|a l S IH F]; [intros []|]. destruct l as [|b l]; [intros [->|[]]; cbn; lia|]. change (last (a :: b :: l) d) with (last (b :: l) d). intros [->|Hk]; [|auto]. rewrite Forall_forall in F. assert (In (last (b :: l) d) (b :: l)) as Q. { clear. revert b. induction l as [|c l IH]; intros b; [now left|]. right. apply IH. } apply F in Q. lia.
Qed.
Definition on3 (st : @m2st NumR) : Prop := split_of m (rank2 st) (non2 st) /\ StronglySorted lt (non2 st) /\
  (rank2 st = [] /\ @is_mat NumR n p (Y2 st) /\ (forall i o, (i < n)%nat -> (o < p)%nat -> mR (Y2 st) i o = 0) \/
   rank2 st <> [] /\ last (rank2 st) O = jcur st /\ exists Y Yo, mrsr2_rule n m p H T (rank2 st) Y Yo /\
     (non2 st <> [] -> @is_mat NumR n p (Y2 st) /\ @is_mat NumR n p (Yk st) /\ (forall i o, (i < n)%nat -> (o < p)%nat -> mR (Y2 st) i o = Y i o) /\ (forall i o, (i < n)%nat -> (o < p)%nat -> mR (Yk st) i o = Yo i o))).
Lemma last_snoc : forall (l : list nat) a d, last (l ++ [a]) d = a.
Proof. induction l as [|x l IH]; intros a d; [reflexivity|]. cbn [app]. destruct (l ++ [a]) eqn:E; [destruct l; discriminate|]. rewrite <- E. change (last (x :: l ++ [a]) d) with (last ([x] ++ (l ++ [a])) d). rewrite E. cbn. rewrite <- (IH a d), E. reflexivity. Qed.
Lemma step_on3 : forall st st', on3 st -> @mrsr2_step NumR SG BR H T m p st = Ok st' -> on3 st' /\ rank2 st' <> [].
Proof.
  intros st st' (SP & SO & C) E.
  destruct (@mrsr2_step_split NumR SG BR H T m p st st' E SP) as (SP' & _ & NE).
  { intros E0 En. unfold mrsr2_step in E. rewrite E0, En in E. discriminate. }
  split; [|exact NE]. split; [exact SP'|].
  pose proof (proj1 (MrsrPath.split_facts m _ _ SP')) as F1. pose proof (proj1 (proj2 (MrsrPath.split_facts m _ _ SP'))) as F2. pose proof (proj2 (proj2 (MrsrPath.split_facts m _ _ SP))) as F3.
  unfold mrsr2_step in E. destruct C as [(E0 & SY & HY)|(E0 & EJ & Y & Yo & P & HY)].
  - rewrite E0 in E. destruct (first_max _ _ _ _) as [j|] eqn:Ej; cbn [rbind] in E; [|discriminate].
    assert (forall k, (k < m)%nat -> strength2 n p H T (mR (Y2 st)) k <= strength2 n p H T (mR (Y2 st)) j) as MX.
    { assert (forall k, @norm2 NumR (@tvec NumR p T (@mcol NumR H k)) = strength2 n p H T (mR (Y2 st)) k) as EN.
      { intros k. rewrite norm2_enorm. apply tv_strength; [exact HT|]. intros i o Hi Ho. rewrite HY by auto. change (MrsrSpec.at_ T i o) with (mR T i o). rring. }
      destruct (first_max_least _ _ _ _ _ Ej) as [B|(a & b & Es & _ & A & B)]; [discriminate|]. intros k Hk. rewrite <- !EN.
      assert (In k (non2 st)) as Q by (apply F3; split; [exact Hk|rewrite E0; intros []]). rewrite Es in Q. apply in_app_or in Q. destruct Q as [Q|[<-|Q]]; [apply Rlt_le, A; exact Q|apply Rle_refl|apply B; exact Q]. }
    injection E as <-. cbn [rank2 non2 Y2 Yk jcur] in *. split; [now apply remove1_sorted|]. right. split; [discriminate|]. split; [reflexivity|].
    destruct (lu_fit n m p H T HX HT IND [j] F1 F2) as (SYo & LS). cbv zeta in SYo, LS. cbn [length] in *.
    exists (mR (Y2 st)). eexists. split; [apply Rule2_first; [apply F2; now left|exact HY|exact MX|exact LS]|].
    intros _. cbn [Nat.ltb Nat.leb]. split; [exact SY|]. split; [exact SYo|]. split; reflexivity.
  - destruct (rank2 st) as [|r0 rs] eqn:Er; [congruence|]. destruct (non2 st) as [|n0' ns] eqn:En.
    + cbn [rbind] in E. injection E as <-. cbn [rank2 non2 jcur] in *. split; [constructor|]. right. split; [discriminate|]. split; [exact EJ|]. exists Y, Yo. split; [exact P|]. congruence.
    + cbv zeta in E. destruct (HY ltac:(discriminate)) as (SY & SYk & EY & EYk). clear HY. rewrite <- En in *.
      set (T2 := @msubm NumR T (Y2 st)) in *. set (Yd := @msubm NumR (Yk st) (Y2 st)) in *.
      pose proof (is_mat_msubm n p T (Y2 st) HT SY : @is_mat NumR n p T2) as ST2. pose proof (is_mat_msubm n p (Yk st) (Y2 st) SYk SY : @is_mat NumR n p Yd) as SYd.
      assert (forall i o, (i < n)%nat -> (o < p)%nat -> mR T2 i o = MrsrSpec.at_ T i o - Y i o) as E2. { intros i o Hi Ho. unfold T2. rewrite (mR_sub n p) by auto. rewrite EY by auto. reflexivity. }
      assert (forall i o, (i < n)%nat -> (o < p)%nat -> mR Yd i o = Yo i o - Y i o) as Ed. { intros i o Hi Ho. unfold Yd. rewrite (mR_sub n p) by auto. rewrite EY, EYk by auto. reflexivity. }
      destruct (min_new _ _ _ _ _ _) as [y jm] eqn:EM.
      rewrite norm2_enorm, (tv_strength T2 Y (jcur st) ST2 E2), <- EJ in EM.
      destruct (min_new_least _ _ _ (fun k => eq_trans (tvec_len _ _) (eq_sym (tvec_len _ _))) _ _ _ _ _ (conj Rle_0_1 (Rle_refl 1)) EM) as (B1 & B2 & B3).
      cbn [rbind] in E. match type of E with context [(r0 :: rs) ++ [?jj]] => set (j := jj) in * end.
      assert (choice2 n m p H T (r0 :: rs) Y Yo j y) as CH.
      { assert (In (last (non2 st) O) (non2 st)) as LI by (rewrite En; clear; generalize n0'; induction ns as [|c l IH]; intros b; [now left|right; apply IH]).
        assert (In j (non2 st)) as JI. { unfold j. destruct (neqb y n1); [exact LI|]. destruct jm as [jj|]; [|exact LI]. destruct B2 as [[_ B2]|(k & B2 & B4 & _)]; [discriminate|]. injection B4 as ->. exact B2. }
        unfold choice2. split; [exact B1|]. split; [apply F3; exact JI|]. split; [apply F3; exact JI|]. split.
        - unfold j. change (@neqb NumR y (@n1 NumR)) with (Reqb y 1). unfold Reqb. destruct (Req_EM_T y 1) as [Ey|Ny].
          + left. split; [exact Ey|]. intros k Hk Nk. apply sorted_last; [exact SO|]. apply F3. auto.
          + right. destruct B2 as [[B2 _]|(k & _ & -> & B4)]; [contradiction|]. rewrite <- (tv_along T2 Yd Y Yo k y ST2 SYd E2 Ed). exact B4.
        - intros k Hk Nk. rewrite <- (tv_along T2 Yd Y Yo k y ST2 SYd E2 Ed), <- (tv_strength T2 Y k ST2 E2). apply B3. apply F3. auto. }
      injection E as <-. cbn [rank2 non2 Y2 Yk jcur] in *. split; [now apply remove1_sorted|]. right. split; [discriminate|].
      change (r0 :: rs ++ [j]) with ((r0 :: rs) ++ [j]) in *. split; [apply last_snoc|].
      destruct (lu_fit n m p H T HX HT IND ((r0 :: rs) ++ [j]) F1 F2) as (SYo & LS). cbv zeta in SYo, LS.
      match type of LS with best_fit _ _ _ _ _ (mR ?Y0) => set (Yols := Y0) in * end.
      match goal with |- context [if ?b then _ else _] => replace b with true by (symmetry; apply Nat.ltb_lt; rewrite app_length; cbn; lia) end.
      exists (mR (@madd NumR (@mscale NumR (1 - y) (Y2 st)) (@mscale NumR y Yols))), (mR Yols). split.
      * eapply (Rule2_step n m p H T (r0 :: rs) Y Yo j y (mR Yols)); auto.
        intros i o Hi Ho. pose proof (@mget_madd NumR n p (@mscale NumR (1 - y) (Y2 st)) (@mscale NumR y Yols) i o (is_mat_mscale n p _ _ SY) (is_mat_mscale n p _ _ SYo) Hi Ho) as Q. rewrite !(mR_scale n p) in Q by auto. rewrite EY in Q by auto. exact Q.
      * intros _. split; [exact (is_mat_madd n p _ _ (is_mat_mscale n p _ _ SY) (is_mat_mscale n p _ _ SYo))|]. split; [exact SYo|]. split; reflexivity.
Qed.
Lemma loop_on3 : forall k st st', on3 st -> (k <> 0%nat \/ rank2 st <> []) -> @mrsr2_loop NumR SG BR H T m p k st = Ok st' -> on3 st' /\ rank2 st' <> [].
Proof.
  induction k as [|k IH]; intros st st' P Hk E; cbn [mrsr2_loop] in E; [injection E as <-; destruct Hk; [congruence|auto]|].
  destruct (mrsr2_step _ _ _ _ st) as [st1|] eqn:E1; cbn [rbind] in E; [|discriminate]. destruct (step_on3 _ _ P E1) as (P1 & N1). eapply IH; eauto.
Qed.
Lemma seq_sorted : forall q s, StronglySorted lt (seq s q).
Proof. induction q as [|q IH]; intros s; [constructor|]. cbn [seq]. constructor; [apply IH|]. apply Forall_forall. intros x Hx. apply in_seq in Hx. lia. Qed.
Theorem mrsr2_follows : forall kmax r, (0 < Nat.min kmax n)%nat -> @mrsr2 NumR SG BR H T m p kmax = Ok r -> exists Y Yo, mrsr2_rule n m p H T r Y Yo.
Proof.
  intros kmax r Hk E. unfold mrsr2 in E. destruct (mrsr2_loop _ _ _ _ _ _) as [st|] eqn:El; cbn [rbind] in E; [|discriminate]. injection E as <-.
  assert (length H = n) as LH by apply HX.
  destruct (fun Q1 Q2 => loop_on3 _ _ _ Q1 Q2 El) as ((_ & _ & [(Q & _)|(_ & _ & Y & Yo & P & _)]) & NE); [| |congruence|eauto].
  - split; [unfold split_of; apply Permutation_refl|]. split; [apply seq_sorted|]. left. cbn [rank2 Y2]. split; [reflexivity|]. split.
    + split; [rewrite map_length; apply HT|]. apply Forall_map. apply Forall_forall. intros x _. apply mkv_length.
    + intros i o Hi Ho. unfold mget. rewrite (nth_map_lt _ T i [] []) by (eapply lt_len; [apply HT|auto]). exact (@vget_mkv NumR p (fun _ => 0) o Ho).
  - left. cbn [num NumR] in *. rewrite LH. lia.
Qed.
End Choice.

(** ---- exact roots exist ---- *)
Lemma along_cont : forall a b, continuity (fun t => Rsum (map (fun x => x * x) (along a b t))).
Proof.
  induction a as [|x a IH]; intros [|y b]; try (apply continuity_const; intros ? ?; reflexivity). unfold along, Rsum in *. cbn [map2 map fold_right].
  apply (continuity_plus (fun t => (x - t * y) * (x - t * y)) (fun t => fold_right Rplus 0 (map (fun x => x * x) (map2 (fun u v => u - t * v) a b)))); [|apply IH].
  apply (continuity_mult (fun t => x - t * y) (fun t => x - t * y)); apply (continuity_minus (fun _ => x) (fun t => t * y)); try (apply continuity_const; intros ? ?; reflexivity); apply (continuity_mult (fun t => t) (fun _ => y)); try (apply continuity_const; intros ? ?; reflexivity); apply derivable_continuous, derivable_id.
Qed.
Lemma sq_nn : forall l, 0 <= Rsum (map (fun x => x * x) l).
Proof. unfold Rsum. induction l as [|x l IH]; cbn [map fold_right]; [lra|]. pose proof (Rle_0_sqr x) as Q. unfold Rsqr in Q. lra. Qed.
Lemma enorm_cont : forall a b, continuity (fun t => enorm (along a b t)).
Proof.
  intros a b t. unfold enorm. apply (continuity_pt_comp (fun t => Rsum (map (fun x => x * x) (along a b t))) sqrt); [apply along_cont|]. apply continuity_pt_sqrt. apply sq_nn.
Qed.
Lemma along_0 : forall a b, length a = length b -> along a b 0 = a.
Proof. unfold along. induction a as [|x a IH]; intros [|y b] E; cbn [length map2] in *; try discriminate; [reflexivity|]. rewrite IH by lia. f_equal. lra. Qed.
Lemma find_root : forall y c a b, 0 <= y -> length a = length b -> (1 - y) * c < enorm (along a b y) -> enorm a <= c -> {t | 0 <= t <= y /\ (1 - t) * c = enorm (along a b t)}.
Proof.
  intros y c a b Hy L H1 H2. destruct (IVT_cor (fun t => enorm (along a b t) - (1 - t) * c) 0 y) as (t & Ht & E).
  - apply (continuity_minus (fun t => enorm (along a b t)) (fun t => (1 - t) * c)); [apply enorm_cont|]. apply (continuity_mult (fun t => 1 - t) (fun _ => c)); try (apply continuity_const; intros ? ?; reflexivity). apply (continuity_minus (fun _ => 1) (fun t => t)); try (apply continuity_const; intros ? ?; reflexivity). apply derivable_continuous, derivable_id.
  - exact Hy.
  - rewrite along_0 by exact L. assert (enorm a - (1 - 0) * c <= 0) as A by lra. assert (0 <= enorm (along a b y) - (1 - y) * c) as B by lra. apply (Rmult_le_compat_r _ _ _ B) in A. lra.
  - exists t. split; [exact Ht|lra].
Qed.
Definition exact_brent : @Brent NumR := @Build_Brent NumR (fun y c a b =>
  match Rle_dec 0 y with left h1 => match Nat.eq_dec (length a) (length b) with left h2 => match Rlt_dec ((1 - y) * c) (enorm (along a b y)) with left h3 =>
  match Rle_dec (enorm a) c with left h4 => Some (proj1_sig (find_root y c a b h1 h2 h3 h4)) | right _ => None end | right _ => None end | right _ => None end | right _ => None end).
Lemma exact_brent_ok : exact_roots exact_brent.
Proof.
  intros y c a b Hy L H1. unfold exact_brent. cbn [brentq]. destruct (Rle_dec 0 y) as [h1|h1]; [|lra]. destruct (Nat.eq_dec _ _) as [h2|h2]; [|elim h2; exact L]. destruct (Rlt_dec _ _) as [h3|h3]; [|contradiction].
  destruct (Rle_dec (enorm a) c) as [h4|h4]; [|lra]. exact (proj2_sig (find_root y c a b h1 h2 h3 h4)).
Qed.
