(** Several processes adding to the same files (C26, C27, C28): invariant of every
    interleaving, over the reals. *)
From Coq Require Import Reals Lra Permutation.
From Verif Require Import Base Num Mat Slfn Network NetThms MatFacts Parallel.
#[local] Existing Instance NumR.
Local Open Scope R_scope.

Definition holdsH (q : @ppc NumR) : bool := match q with ReadH | WriteH _ | UnlockH => true | _ => false end.
Definition holdsT (q : @ppc NumR) : bool := match q with ReadT | WriteT _ | UnlockT => true | _ => false end.
Definition ended (q : @ppc NumR) : bool := match q with Done | Raised _ | Dead _ _ => true | _ => false end.
Definition fresh (q : @ppc NumR) : Prop := q = CheckH \/ q = CheckT \/ q = Work.

Fixpoint tot (f : @ppc NumR -> bool) (w : nat -> R) (k : nat) (l : list (@ppc NumR)) : R :=
  match l with [] => 0 | q :: r => (if f q then w k else 0) + tot f w (S k) r end.

Lemma tot_upd : forall f w l k p q q', nth_error l p = Some q ->
  tot f w k (upd l p q') = tot f w k l - (if f q then w (k + p)%nat else 0) + (if f q' then w (k + p)%nat else 0).
Proof.
  intros f w. induction l as [|a l IH]; intros k p q q' H; [destruct p; discriminate|].
  destruct p as [|p]; cbn [nth_error] in H; cbn [upd tot].
  - injection H as ->. rewrite Nat.add_0_r. destruct (f q), (f q'); lra.
  - rewrite (IH (S k) p q q' H). replace (S k + p)%nat with (k + S p)%nat by lia. lra.
Qed.
Lemma tot_same : forall f w l k p q q', nth_error l p = Some q -> f q' = f q -> tot f w k (upd l p q') = tot f w k l.
Proof. intros f w l k p q q' H E. rewrite (tot_upd f w l k p q q' H), E. destruct (f q); lra. Qed.

Lemma nth_upd : forall {A} (l : list A) p r x q, nth_error l p = Some q ->
  nth_error (upd l p x) r = if (r =? p)%nat then Some x else nth_error l r.
Proof.
  intros A. induction l as [|a l IH]; intros p r x q H; [destruct p; discriminate|].
  destruct p as [|p], r as [|r]; cbn in *; auto. now apply IH with (q := q).
Qed.
Lemma nth_ext_list : forall {A} (l l' : list A), (forall p, nth_error l p = nth_error l' p) -> l = l'.
Proof.
  intros A. induction l as [|a l IH]; intros [|b l'] H; auto.
  - specialize (H 0%nat). discriminate.
  - specialize (H 0%nat). discriminate.
  - f_equal; [specialize (H 0%nat); now injection H|]. apply IH. intros p. exact (H (S p)).
Qed.
Lemma upd_len : forall {A} (l : list A) p x, length (upd l p x) = length l.
Proof. intros A. induction l as [|a l IH]; intros [|p] x; cbn; auto. Qed.

(** ** One file *)
Definition wrH (q : @ppc NumR) : option (list (list R)) := match q with WriteH m => Some m | _ => None end.
Definition wrT (q : @ppc NumR) : option (list (list R)) := match q with WriteT m => Some m | _ => None end.

Section OneFile.
Context (L w : nat) (m0 : list (list R)) (contrib : nat -> option (list (list R))).
Context (wrote : @ppc NumR -> bool) (wr : @ppc NumR -> option (list (list R))).
Context (Hcon : forall p M, contrib p = Some M -> is_mat L w M).
Definition entry (i j p : nat) : R := match contrib p with Some M => @mget NumR M i j | None => 0 end.
Definition InvF (f : @pfile NumR) (ps : list (@ppc NumR)) : Prop :=
  exists m, f = FData w m /\ is_mat L w m /\
    (forall i j, (i < L)%nat -> (j < w)%nat -> @mget NumR m i j = @mget NumR m0 i j + tot wrote (entry i j) 0 ps) /\
    (forall p q m', nth_error ps p = Some q -> wr q = Some m' -> wrote q = false /\ exists M, contrib p = Some M /\ m' = @madd NumR m M).

Lemma F_same : forall f ps p q q', InvF f ps -> nth_error ps p = Some q -> wrote q' = wrote q ->
  (forall m', wr q' = Some m' -> wrote q' = false /\ exists m M, f = FData w m /\ contrib p = Some M /\ m' = @madd NumR m M) -> InvF f (upd ps p q').
Proof.
  intros f ps p q q' (m & E & Hm & Hs & Hw) Hq HW HN. exists m. split; [exact E|]. split; [exact Hm|]. split.
  - intros i j Hi Hj. rewrite (tot_same _ _ _ _ _ _ _ Hq HW). auto.
  - intros r s m' Hr Es. rewrite (nth_upd _ _ _ _ _ Hq) in Hr. destruct (Nat.eqb_spec r p) as [->|]; [|eauto].
    injection Hr as <-. destruct (HN m' Es) as (H1 & m1 & M & E1 & E2 & E3). split; [exact H1|]. exists M. split; [exact E2|].
    rewrite E in E1. injection E1 as <-. exact E3.
Qed.
Lemma F_write : forall f ps p q q' m', InvF f ps -> nth_error ps p = Some q -> wr q = Some m' -> wrote q' = true -> wr q' = None ->
  (forall r s, nth_error ps r = Some s -> r <> p -> wr s = None) -> InvF (FData w m') (upd ps p q').
Proof.
  intros f ps p q q' m' (m & E & Hm & Hs & Hw) Hq Eq HW HN HO. destruct (Hw p q m' Hq Eq) as (H1 & M & EC & ->).
  pose proof (Hcon p M EC) as HM. exists (@madd NumR m M). split; [reflexivity|]. split; [apply (is_mat_madd L w); auto|]. split.
  - intros i j Hi Hj. rewrite (mget_madd L w) by auto. rewrite (tot_upd _ _ _ _ _ _ _ Hq), H1, HW, Hs by auto. cbn [Nat.add].
    unfold entry at 3. rewrite EC. cbn [nadd num NumR]. lra.
  - intros r s m1 Hr Es. rewrite (nth_upd _ _ _ _ _ Hq) in Hr. destruct (Nat.eqb_spec r p) as [->|Hne]; [injection Hr as <-; congruence|].
    rewrite (HO r s Hr Hne) in Es. discriminate.
Qed.
End OneFile.

(** ** One lock *)
Section OneLock.
Context (holds : @ppc NumR -> bool).
Definition InvL (l : option nat) (ps : list (@ppc NumR)) : Prop :=
  forall p, l = Some p <-> exists q, nth_error ps p = Some q /\ holds q = true.
Lemma L_same : forall l ps p q q', InvL l ps -> nth_error ps p = Some q -> holds q' = holds q -> InvL l (upd ps p q').
Proof.
  intros l ps p q q' H Hq E r. rewrite (H r), (nth_upd _ _ _ _ _ Hq). destruct (Nat.eqb_spec r p) as [->|]; [|tauto].
  rewrite Hq. split; intros (s & Es & Eh); injection Es as <-; eexists; (split; [reflexivity|congruence]).
Qed.
Lemma L_acquire : forall ps p q q', InvL None ps -> nth_error ps p = Some q -> holds q' = true -> InvL (Some p) (upd ps p q').
Proof.
  intros ps p q q' H Hq E r. rewrite (nth_upd _ _ _ _ _ Hq). destruct (Nat.eqb_spec r p) as [->|Hne].
  - split; [intros _; eexists; split; [reflexivity|exact E]|reflexivity].
  - split; [congruence|]. intros HX. apply H in HX. discriminate.
Qed.
Lemma L_free : forall l ps p q q', InvL l ps -> nth_error ps p = Some q -> holds q' = false -> InvL (free l p) (upd ps p q').
Proof.
  intros l ps p q q' H Hq E r. rewrite (nth_upd _ _ _ _ _ Hq). unfold free. destruct l as [o|].
  - destruct (Nat.eqb_spec o p) as [->|Ho].
    + split; [discriminate|]. destruct (Nat.eqb_spec r p) as [->|Hne]; intros (s & Es & Eh); [injection Es as <-; congruence|].
      assert (Some p = Some r) as X by (apply H; eauto). injection X as X. congruence.
    + destruct (Nat.eqb_spec r p) as [->|Hne]; [|apply H]. split; [congruence|]. intros (s & Es & Eh). injection Es as <-. congruence.
  - split; [discriminate|]. destruct (Nat.eqb_spec r p) as [->|Hne]; [|apply H]. intros (s & Es & Eh). injection Es as <-. congruence.
Qed.
Lemma L_release : forall l ps p q q', InvL l ps -> nth_error ps p = Some q -> holds q = true -> holds q' = false -> InvL None (upd ps p q').
Proof.
  intros l ps p q q' H Hq E E'. assert (l = Some p) as -> by (apply H; eauto).
  pose proof (L_free (Some p) ps p q q' H Hq E') as X. unfold free in X. rewrite Nat.eqb_refl in X. exact X.
Qed.
Lemma L_only : forall l ps p q r s, InvL l ps -> nth_error ps p = Some q -> holds q = true -> nth_error ps r = Some s -> r <> p -> holds s = false.
Proof.
  intros l ps p q r s H Hq E Hs Hne. destruct (holds s) eqn:Es; [|reflexivity]. exfalso.
  assert (l = Some p) by (apply H; eauto). assert (l = Some r) by (apply H; eauto). congruence.
Qed.
End OneLock.

Section Par.
Context (L c : nat) (ini mH mT : list (list R)) (work : nat -> res (list (list R) * list (list R))).
Context (HmH : is_mat L L mH) (HmT : is_mat L c mT).
Context (Hwork : forall p HH HT, work p = Ok (HH, HT) -> is_mat L L HH /\ is_mat L c HT).

Definition cH (p : nat) : option (list (list R)) := match work p with Ok (HH, _) => Some HH | Err _ => None end.
Definition cT (p : nat) : option (list (list R)) := match work p with Ok (_, HT) => Some HT | Err _ => None end.
Lemma cH_mat : forall p M, cH p = Some M -> is_mat L L M.
Proof. intros p M H. unfold cH in H. destruct (work p) as [[A B]|] eqn:E; [|discriminate]. injection H as <-. now apply (Hwork p A B). Qed.
Lemma cT_mat : forall p M, cT p = Some M -> is_mat L c M.
Proof. intros p M H. unfold cT in H. destruct (work p) as [[A B]|] eqn:E; [|discriminate]. injection H as <-. now apply (Hwork p A B). Qed.

Definition pc_ok (p : nat) (q : @ppc NumR) : Prop :=
  match q with
  | TruncH | FillH | TruncT | FillT => False
  | CheckH | CheckT | Work => True
  | Raised x => work p = Err x
  | Dead a b => (b = true -> a = true) /\ (a = true -> exists W, work p = Ok W)
  | _ => exists W, work p = Ok W
  end.
Record Inv (g : @pst NumR) : Prop := {
  i_H : InvF L L mH cH wroteH wrH (gH g) (pcs g);
  i_T : InvF L c mT cT wroteT wrT (gT g) (pcs g);
  i_lH : InvL holdsH (lockH g) (pcs g);
  i_lT : InvL holdsT (lockT g) (pcs g);
  i_pc : forall p q, nth_error (pcs g) p = Some q -> pc_ok p q }.

Lemma inv_start : forall ps, Forall fresh ps -> Inv (mkPst (FData L mH) (FData c mT) None None ps).
Proof.
  intros ps HF. assert (forall p q, nth_error ps p = Some q -> fresh q) as HN.
  { intros p q H. apply nth_error_In in H. rewrite Forall_forall in HF. auto. }
  assert (forall f w k, (forall q, fresh q -> f q = false) -> tot f w k ps = 0) as H0.
  { intros f w k Hf. revert k. clear HN. induction HF as [|q l Hq Hl IH]; intros k; cbn; [lra|]. rewrite IH, (Hf q Hq). lra. }
  constructor; cbn [gH gT lockH lockT pcs].
  - exists mH. split; [reflexivity|]. split; [exact HmH|]. split.
    + intros i j Hi Hj. rewrite H0; [lra|]. intros q [->|[->| ->]]; reflexivity.
    + intros p q m' H E. apply HN in H. destruct H as [->|[->| ->]]; discriminate.
  - exists mT. split; [reflexivity|]. split; [exact HmT|]. split.
    + intros i j Hi Hj. rewrite H0; [lra|]. intros q [->|[->| ->]]; reflexivity.
    + intros p q m' H E. apply HN in H. destruct H as [->|[->| ->]]; discriminate.
  - intros p. split; [discriminate|]. intros (q & H & E). apply HN in H. destruct H as [->|[->| ->]]; discriminate.
  - intros p. split; [discriminate|]. intros (q & H & E). apply HN in H. destruct H as [->|[->| ->]]; discriminate.
  - intros p q H. apply HN in H. destruct H as [->|[->| ->]]; exact I.
Qed.

Lemma pc_upd : forall ps p q q', (forall r s, nth_error ps r = Some s -> pc_ok r s) -> nth_error ps p = Some q -> pc_ok p q' ->
  forall r s, nth_error (upd ps p q') r = Some s -> pc_ok r s.
Proof.
  intros ps p q q' H Hq HP r s Hr. rewrite (nth_upd _ _ _ _ _ Hq) in Hr. destruct (Nat.eqb_spec r p) as [->|]; [injection Hr as <-; exact HP|eauto].
Qed.

Ltac same := match goal with
  | H : InvF _ _ _ _ _ _ _ _, Hq : nth_error _ _ = Some _ |- InvF _ _ _ _ _ _ _ _ => apply (F_same _ _ _ _ _ _ _ _ _ _ _ H Hq); [reflexivity|cbn; discriminate]
  | H : InvL ?h _ _, Hq : nth_error _ _ = Some _ |- InvL ?h _ _ => apply (L_same _ _ _ _ _ _ H Hq); reflexivity
  end.
Ltac wrap := constructor; unfold set_pc; cbn [gH gT lockH lockT pcs].

Lemma inv_step : forall p g g', Inv g -> @pstep NumR L c ini work p g = Some g' -> Inv g'.
Proof.
  intros p g g' [IH IT LH LT IP] H. unfold pstep in H. destruct (nth_error (pcs g) p) as [q|] eqn:Hq; [|discriminate].
  pose proof (IP p q Hq) as HP. destruct q; cbn [pc_ok] in HP; try contradiction; try discriminate.
  - (* CheckH *) injection H as <-. pose proof IH as (m & E & Hm & _). rewrite E. unfold check.
    replace (length m =? L)%nat with true by (symmetry; apply Nat.eqb_eq; apply Hm). rewrite Nat.eqb_refl. cbn [andb].
    wrap; try same. apply (pc_upd _ _ _ _ IP Hq). exact I.
  - (* CheckT *) injection H as <-. pose proof IT as (m & E & Hm & _). rewrite E. unfold check.
    replace (length m =? L)%nat with true by (symmetry; apply Nat.eqb_eq; apply Hm). rewrite Nat.eqb_refl. cbn [andb].
    wrap; try same. apply (pc_upd _ _ _ _ IP Hq). exact I.
  - (* Work *) injection H as <-. destruct (work p) as [W|x] eqn:EW; wrap; try same; apply (pc_upd _ _ _ _ IP Hq); cbn [pc_ok]; eauto.
  - (* LockH *) destruct (lockH g) as [o|] eqn:EL; [discriminate|]. injection H as <-. wrap; try same.
    + apply (L_acquire _ _ _ _ _ LH Hq). reflexivity.
    + apply (pc_upd _ _ _ _ IP Hq). exact HP.
  - (* ReadH *) destruct HP as ((HH, HT) & EW). pose proof IH as (m & E & _). rewrite EW, E in H. injection H as <-. wrap; try same.
    + apply (F_same _ _ _ _ _ _ _ _ _ _ _ IH Hq); [reflexivity|]. intros m' Em. injection Em as <-. split; [reflexivity|].
      exists m, HH. split; [exact E|]. split; [unfold cH; now rewrite EW|reflexivity].
    + apply (pc_upd _ _ _ _ IP Hq). cbn. eauto.
  - (* WriteH *) injection H as <-. wrap; try same.
    + apply (F_write L L mH cH wroteH wrH cH_mat _ _ _ _ _ _ IH Hq); try reflexivity. intros r s Hr Hne.
      pose proof (L_only holdsH _ _ _ _ _ _ LH Hq eq_refl Hr Hne) as HO. destruct s; try reflexivity; discriminate.
    + apply (pc_upd _ _ _ _ IP Hq). exact HP.
  - (* UnlockH *) injection H as <-. wrap; try same.
    + apply (L_release _ _ _ _ _ _ LH Hq); reflexivity.
    + apply (pc_upd _ _ _ _ IP Hq). exact HP.
  - (* LockT *) destruct (lockT g) as [o|] eqn:EL; [discriminate|]. injection H as <-. wrap; try same.
    + apply (L_acquire _ _ _ _ _ LT Hq). reflexivity.
    + apply (pc_upd _ _ _ _ IP Hq). exact HP.
  - (* ReadT *) destruct HP as ((HH, HT) & EW). pose proof IT as (m & E & _). rewrite EW, E in H. injection H as <-. wrap; try same.
    + apply (F_same _ _ _ _ _ _ _ _ _ _ _ IT Hq); [reflexivity|]. intros m' Em. injection Em as <-. split; [reflexivity|].
      exists m, HT. split; [exact E|]. split; [unfold cT; now rewrite EW|reflexivity].
    + apply (pc_upd _ _ _ _ IP Hq). cbn. eauto.
  - (* WriteT *) injection H as <-. wrap; try same.
    + apply (F_write L c mT cT wroteT wrT cT_mat _ _ _ _ _ _ IT Hq); try reflexivity. intros r s Hr Hne.
      pose proof (L_only holdsT _ _ _ _ _ _ LT Hq eq_refl Hr Hne) as HO. destruct s; try reflexivity; discriminate.
    + apply (pc_upd _ _ _ _ IP Hq). exact HP.
  - (* UnlockT *) injection H as <-. wrap; try same.
    + apply (L_release _ _ _ _ _ _ LT Hq); reflexivity.
    + apply (pc_upd _ _ _ _ IP Hq). exact HP.
Qed.

Lemma inv_crash : forall p g g', Inv g -> pcrash p g = Some g' -> Inv g'.
Proof.
  intros p g g' [IH IT LH LT IP] H. unfold pcrash in H. destruct (nth_error (pcs g) p) as [q|] eqn:Hq; [|discriminate].
  pose proof (IP p q Hq) as HP.
  assert (pc_ok p (Dead (wroteH q) (wroteT q))) as HD.
  { destruct q; cbn in HP |- *; try (split; [congruence|]; try discriminate; auto; fail). }
  assert (g' = mkPst (gH g) (gT g) (free (lockH g) p) (free (lockT g) p) (upd (pcs g) p (Dead (wroteH q) (wroteT q)))) as ->.
  { destruct q; try discriminate; injection H as <-; reflexivity. }
  wrap.
  - apply (F_same _ _ _ _ _ _ _ _ _ _ _ IH Hq); [reflexivity|discriminate].
  - apply (F_same _ _ _ _ _ _ _ _ _ _ _ IT Hq); [reflexivity|discriminate].
  - apply (L_free _ _ _ _ _ _ LH Hq). reflexivity.
  - apply (L_free _ _ _ _ _ _ LT Hq). reflexivity.
  - apply (pc_upd _ _ _ _ IP Hq). exact HD.
Qed.
Lemma inv_exec : forall evs g g', Inv g -> @pexec NumR L c ini work g evs = Some g' -> Inv g'.
Proof.
  induction evs as [|ev r IH]; intros g g' HI H; cbn [pexec] in H; [injection H as <-; exact HI|].
  destruct (@pfire NumR L c ini work ev g) as [g1|] eqn:E; [|discriminate]. apply (IH g1); [|exact H].
  destruct ev; [apply (inv_step p g g1 HI E)|apply (inv_crash p g g1 HI E)].
Qed.
Lemma exec_len : forall evs g g', @pexec NumR L c ini work g evs = Some g' -> length (pcs g') = length (pcs g).
Proof.
  induction evs as [|ev r IH]; intros g g' H; cbn [pexec] in H; [injection H as <-; reflexivity|].
  destruct (@pfire NumR L c ini work ev g) as [g1|] eqn:E; [|discriminate]. rewrite (IH g1 g' H). clear IH H.
  destruct ev; cbn [pfire] in E; unfold pstep, pcrash, set_pc in E; destruct (nth_error (pcs g) p) as [q|]; try discriminate;
    destruct q; try discriminate; repeat (match type of E with context [match ?x with _ => _ end] => destruct x end; try discriminate);
    injection E as <-; cbn [pcs]; apply upd_len.
Qed.

(** ** no deadlock *)
Lemma progress : forall g, Inv g -> (exists p q, nth_error (pcs g) p = Some q /\ ended q = false) -> exists p, @pstep NumR L c ini work p g <> None.
Proof.
  intros g [IH IT LH LT IP] (p & q & Hq & HE).
  destruct (lockH g) as [o|] eqn:EH.
  { destruct (proj1 (LH o) eq_refl) as (s & Hs & E). exists o. unfold pstep. rewrite Hs. destruct s; try discriminate.
    destruct (gH g); [discriminate..|]. destruct (work o) as [[A B]|]; discriminate. }
  destruct (lockT g) as [o|] eqn:ET.
  { destruct (proj1 (LT o) eq_refl) as (s & Hs & E). exists o. unfold pstep. rewrite Hs. destruct s; try discriminate.
    destruct (gT g); [discriminate..|]. destruct (work o) as [[A B]|]; discriminate. }
  exists p. unfold pstep. rewrite Hq, EH, ET. destruct q; try discriminate.
  - destruct (gH g); [discriminate..|]. destruct (work p) as [[A B]|]; discriminate.
  - destruct (gT g); [discriminate..|]. destruct (work p) as [[A B]|]; discriminate.
Qed.
End Par.

(** ** termination: every event brings its process forward *)
Definition rank (q : @ppc NumR) : nat :=
  match q with
  | CheckH => 15 | TruncH => 14 | FillH => 13 | CheckT => 12 | TruncT => 11 | FillT => 10 | Work => 9
  | LockH => 8 | ReadH => 7 | WriteH _ => 6 | UnlockH => 5 | LockT => 4 | ReadT => 3 | WriteT _ => 2 | UnlockT => 1
  | Done | Raised _ | Dead _ _ => 0
  end.
Definition ranks (l : list (@ppc NumR)) : nat := list_sum (map rank l).
Lemma ranks_upd : forall l p q q', nth_error l p = Some q -> (rank q' < rank q)%nat -> (ranks (upd l p q') < ranks l)%nat.
Proof.
  induction l as [|a l IH]; intros [|p] q q' H HR; try discriminate; cbn [nth_error] in H; unfold ranks; cbn [upd map list_sum fold_right].
  - injection H as ->. fold (list_sum (map rank l)). lia.
  - specialize (IH p q q' H HR). unfold ranks in IH. unfold list_sum in IH. lia.
Qed.
Lemma fire_rank : forall L c ini work ev g g', @pfire NumR L c ini work ev g = Some g' -> (ranks (pcs g') < ranks (pcs g))%nat.
Proof.
  intros L c ini work ev g g' E. destruct ev; cbn [pfire] in E; unfold pstep, pcrash, set_pc, check in E; destruct (nth_error (pcs g) p) as [q|] eqn:Hq; try discriminate;
    destruct q; try discriminate; repeat (match type of E with context [match ?x with _ => _ end] => destruct x end; try discriminate);
    injection E as <-; cbn [pcs]; apply (ranks_upd _ _ _ _ Hq); cbn; lia.
Qed.
Lemma exec_bound : forall L c ini work evs g g', @pexec NumR L c ini work g evs = Some g' -> (length evs + ranks (pcs g') <= ranks (pcs g))%nat.
Proof.
  induction evs as [|ev r IH]; intros g g' H; cbn [pexec] in H; [injection H as <-; cbn; lia|].
  destruct (@pfire NumR L c ini work ev g) as [g1|] eqn:E; [|discriminate]. apply fire_rank in E. specialize (IH g1 g' H). cbn [length]. lia.
Qed.
Lemma ranks_le : forall l, (ranks l <= 15 * length l)%nat.
Proof. induction l as [|q l IH]; [cbn; lia|]. unfold ranks in *. cbn [map list_sum fold_right length]. unfold list_sum in IH. destruct q; cbn [rank]; lia. Qed.

(** ** What the files contain, in any reachable state *)
Definition work_of (cs : list (res (list (list R) * list (list R)))) (p : nat) : res (list (list R) * list (list R)) :=
  match nth_error cs p with Some r => r | None => Err IndexError end.
(** the contributions of the processes at points satisfying f *)
Fixpoint written (f : @ppc NumR -> bool) (ps : list (@ppc NumR)) (cs : list (res (list (list R) * list (list R))))
  : list (list (list R) * list (list R)) :=
  match ps, cs with
  | q :: ps', r :: cs' => match r with Ok W => if f q then [W] else [] | Err _ => [] end ++ written f ps' cs'
  | _, _ => []
  end.
Definition add_all (m : list (list R)) (Ms : list (list (list R))) : list (list R) := fold_left (@madd NumR) Ms m.

Lemma add_all_mat : forall r w Ms m, is_mat r w m -> Forall (is_mat r w) Ms -> is_mat r w (add_all m Ms).
Proof.
  intros r w. induction Ms as [|M Ms IH]; intros m Hm HF; [exact Hm|]. inversion HF as [|? ? H1 H2]; subst.
  unfold add_all. cbn [fold_left]. apply IH; auto. now apply (is_mat_madd r w).
Qed.
Lemma add_all_get : forall r w i j Ms m, is_mat r w m -> Forall (is_mat r w) Ms -> (i < r)%nat -> (j < w)%nat ->
  @mget NumR (add_all m Ms) i j = @mget NumR m i j + fold_right (fun M a => @mget NumR M i j + a) 0 Ms.
Proof.
  intros r w i j. induction Ms as [|M Ms IH]; intros m Hm HF Hi Hj; [unfold add_all; cbn [fold_left fold_right]; symmetry; apply Rplus_0_r|]. inversion HF as [|? ? H1 H2]; subst.
  unfold add_all in *. cbn [fold_left fold_right]. rewrite IH; auto; [|now apply (is_mat_madd r w)]. rewrite (mget_madd r w) by auto.
  cbn [nadd num NumR]. lra.
Qed.

Section Contents.
Context (sel : list (list R) * list (list R) -> list (list R)).
Lemma tot_written : forall f contrib i j ps cs k, length ps = length cs ->
  (forall p, contrib (k + p)%nat = match nth_error cs p with Some (Ok W) => Some (sel W) | _ => None end) ->
  tot f (entry contrib i j) k ps = fold_right (fun M a => @mget NumR M i j + a) 0 (map sel (written f ps cs)).
Proof.
  intros f contrib i j. induction ps as [|q ps IH]; intros [|r cs] k HL HC; try discriminate; [reflexivity|].
  cbn [tot written]. rewrite (IH cs (S k)); [|now injection HL|intros p; replace (S k + p)%nat with (k + S p)%nat by lia; exact (HC (S p))].
  pose proof (HC 0%nat) as E0. rewrite Nat.add_0_r in E0. cbn [nth_error] in E0. unfold entry at 1. rewrite E0.
  destruct r as [W|x]; cbn [app]; [|destruct (f q); lra]. destruct (f q); cbn [app map fold_right]; lra.
Qed.
Lemma written_mat : forall rr w f ps cs, (forall W, In (Ok W) cs -> is_mat rr w (sel W)) -> Forall (is_mat rr w) (map sel (written f ps cs)).
Proof.
  intros rr w f. induction ps as [|q ps IH]; intros [|r cs] H; try constructor. cbn [written].
  rewrite map_app, Forall_app. split; [|apply IH; intros W HW; apply H; right; exact HW].
  destruct r as [W|x]; [|constructor]. destruct (f q); constructor; [|constructor]. apply H. now left.
Qed.
Lemma file_contents : forall L w m0 contrib f wr cs ps fl, is_mat L w m0 -> length ps = length cs ->
  (forall p, contrib p = match nth_error cs p with Some (Ok W) => Some (sel W) | _ => None end) ->
  (forall W, In (Ok W) cs -> is_mat L w (sel W)) ->
  InvF L w m0 contrib f wr fl ps -> fl = FData w (add_all m0 (map sel (written f ps cs))).
Proof.
  intros L w m0 contrib f wr cs ps fl H0 HL HC HM (m & -> & Hm & Hs & _). f_equal.
  pose proof (written_mat L w f ps cs HM) as HF.
  apply (mat_ext L w); [exact Hm|now apply add_all_mat|]. intros i j Hi Hj. rewrite Hs by auto. rewrite (add_all_get L w) by auto.
  rewrite (tot_written f contrib i j ps cs 0 HL HC). reflexivity.
Qed.
End Contents.

Section Api.
Context (L c : nat) (ini mH mT : list (list R)) (cs : list (res (list (list R) * list (list R)))).
Context (HmH : is_mat L L mH) (HmT : is_mat L c mT).
Context (Hcs : forall W, In (Ok W) cs -> is_mat L L (fst W) /\ is_mat L c (snd W)).

Lemma Hwork_cs : forall p HH HT, work_of cs p = Ok (HH, HT) -> is_mat L L HH /\ is_mat L c HT.
Proof.
  intros p HH HT H. unfold work_of in H. destruct (nth_error cs p) as [r|] eqn:E; [|discriminate]. subst r.
  apply nth_error_In in E. now apply (Hcs (HH, HT)).
Qed.
Local Notation start ps := (mkPst (FData L mH) (FData c mT) None None ps).
Local Notation exec := (@pexec NumR L c ini (work_of cs)).

Theorem contents : forall ps evs g, Forall fresh ps -> length ps = length cs -> exec (start ps) evs = Some g ->
  gH g = FData L (add_all mH (map fst (written wroteH (pcs g) cs))) /\
  gT g = FData c (add_all mT (map snd (written wroteT (pcs g) cs))).
Proof.
  intros ps evs g HF HL H. pose proof (exec_len _ _ _ _ _ _ _ H) as EL. cbn [pcs] in EL.
  pose proof (inv_exec L c ini mH mT _ Hwork_cs _ _ _ (inv_start L c mH mT _ HmH HmT ps HF) H) as [IH IT _ _ _].
  split.
  - apply (file_contents fst L L mH (cH (work_of cs)) wroteH wrH cs (pcs g)); auto; [congruence| |intros W HW; now apply Hcs].
    intros p. unfold cH, work_of. destruct (nth_error cs p) as [[[A B]|x]|]; reflexivity.
  - apply (file_contents snd L c mT (cT (work_of cs)) wroteT wrT cs (pcs g)); auto; [congruence| |intros W HW; now apply Hcs].
    intros p. unfold cT, work_of. destruct (nth_error cs p) as [[[A B]|x]|]; reflexivity.
Qed.

(** the contributions of the processes whose own computation does not raise *)
Fixpoint good (l : list (res (list (list R) * list (list R)))) : list (list (list R) * list (list R)) :=
  match l with [] => [] | Ok W :: r => W :: good r | Err _ :: r => good r end.
Definition outcome_of (r : res (list (list R) * list (list R))) : @ppc NumR := match r with Ok _ => Done | Err x => Raised x end.

Lemma only_run : forall evs, (forall p, ~ In (Crash p) evs) -> forall g g', exec g evs = Some g' ->
  (forall p q, nth_error (pcs g) p = Some q -> forall a b, q <> Dead a b) -> forall p q, nth_error (pcs g') p = Some q -> forall a b, q <> Dead a b.
Proof.
  induction evs as [|ev r IH]; intros HN g g' H HD; cbn [pexec] in H; [injection H as <-; exact HD|].
  destruct (@pfire NumR L c ini (work_of cs) ev g) as [g1|] eqn:E; [|discriminate].
  apply (IH (fun p Hp => HN p (or_intror Hp)) g1 g' H). clear IH H. destruct ev as [p|p]; [|exfalso; apply (HN p); now left].
  cbn [pfire] in E. unfold pstep, set_pc, check in E. destruct (nth_error (pcs g) p) as [q|] eqn:Hq; [|discriminate].
  destruct q; try discriminate; repeat (match type of E with context [match ?x with _ => _ end] => destruct x end; try discriminate);
    injection E as <-; cbn [pcs]; intros r0 s Hr; rewrite (nth_upd _ _ _ _ _ Hq) in Hr; destruct (Nat.eqb_spec r0 p);
    try (injection Hr as <-; discriminate); eauto.
Qed.
Lemma written_good : forall f l, (forall x, f (Raised x) = false) -> f Done = true -> written f (map outcome_of l) l = good l.
Proof. intros f l Hr Hd. induction l as [|[W|x] l IH]; cbn; [reflexivity| |]; [rewrite Hd|rewrite ?Hr]; cbn; now rewrite IH. Qed.

(** Every schedule of the processes is finite, and when no process can go on, all
    have ended (nobody waits for ever) and nothing is lost. *)
Theorem parallel_all : forall ps evs g, Forall fresh ps -> length ps = length cs -> (forall p, ~ In (Crash p) evs) ->
  exec (start ps) evs = Some g ->
  (length evs <= 15 * length cs)%nat /\
  ((forall p, @pstep NumR L c ini (work_of cs) p g = None) ->
     pcs g = map outcome_of cs /\
     gH g = FData L (add_all mH (map fst (good cs))) /\ gT g = FData c (add_all mT (map snd (good cs))) /\
     lockH g = None /\ lockT g = None).
Proof.
  intros ps evs g HF HL HN H. split.
  { pose proof (exec_bound _ _ _ _ _ _ _ H) as HB. cbn [pcs] in HB. pose proof (ranks_le ps). lia. }
  intros HS. pose proof (inv_exec L c ini mH mT _ Hwork_cs _ _ _ (inv_start L c mH mT _ HmH HmT ps HF) H) as HI.
  pose proof (exec_len _ _ _ _ _ _ _ H) as EL. cbn [pcs] in EL.
  assert (forall p q, nth_error (pcs g) p = Some q -> forall a b, q <> Dead a b) as HD.
  { apply (only_run evs HN (@mkPst NumR (@FData NumR L mH) (@FData NumR c mT) None None ps) g H). cbn [pcs]. intros p q Hq a b ->. apply nth_error_In in Hq. rewrite Forall_forall in HF. destruct (HF _ Hq) as [X|[X|X]]; discriminate. }
  assert (forall p q, nth_error (pcs g) p = Some q -> q = outcome_of (work_of cs p)) as HO.
  { intros p q Hq. destruct (ended q) eqn:EE.
    - pose proof (i_pc _ _ _ _ _ _ HI p q Hq) as HP. destruct q; try discriminate; cbn [pc_ok] in HP.
      + destruct HP as (W & ->). reflexivity.
      + rewrite HP. reflexivity.
      + exfalso. exact (HD p _ Hq _ _ eq_refl).
    - exfalso. destruct (progress L c ini mH mT _ g HI) as (r & Hr); [eauto|]. apply Hr, HS. }
  assert (pcs g = map outcome_of cs) as EP.
  { apply nth_ext_list. intros p. rewrite nth_error_map. destruct (nth_error (pcs g) p) as [q|] eqn:Hq.
    - rewrite (HO p q Hq). unfold work_of. destruct (nth_error cs p) as [r|] eqn:Er; [reflexivity|].
      apply nth_error_None in Er. assert (p < length (pcs g))%nat by (apply nth_error_Some; congruence). lia.
    - apply nth_error_None in Hq. replace (nth_error cs p) with (@None (res (list (list R) * list (list R)))); [reflexivity|].
      symmetry. apply nth_error_None. lia. }
  split; [exact EP|]. destruct (contents ps evs g HF HL H) as (E1 & E2). rewrite EP in E1, E2.
  rewrite written_good in E1, E2 by reflexivity. split; [exact E1|]. split; [exact E2|].
  split.
  - destruct (lockH g) as [o|] eqn:EH; [|reflexivity]. destruct (proj1 (i_lH _ _ _ _ _ _ HI o) EH) as (q & Hq & Eq). rewrite (HO _ _ Hq) in Eq. destruct (work_of cs o); discriminate.
  - destruct (lockT g) as [o|] eqn:EH; [|reflexivity]. destruct (proj1 (i_lT _ _ _ _ _ _ HI o) EH) as (q & Hq & Eq). rewrite (HO _ _ Hq) in Eq. destruct (work_of cs o); discriminate.
Qed.

(** With deaths: each file holds the contributions of a set of processes, those in
    fHT are in fHH, and the sets are the same unless some process stopped (or is)
    between its two writes. *)
Theorem crash_contents : forall ps evs g, Forall fresh ps -> length ps = length cs -> exec (start ps) evs = Some g ->
  (forall q, In q (pcs g) -> wroteT q = true -> wroteH q = true) /\
  ((forall q, In q (pcs g) -> wroteH q = true -> wroteT q = true) ->
     exists ds, (forall d, In d ds -> In (Ok d) cs) /\
       gH g = FData L (add_all mH (map fst ds)) /\ gT g = FData c (add_all mT (map snd ds))).
Proof.
  intros ps evs g HF HL H. pose proof (inv_exec L c ini mH mT _ Hwork_cs _ _ _ (inv_start L c mH mT _ HmH HmT ps HF) H) as HI.
  assert (forall q, In q (pcs g) -> wroteT q = true -> wroteH q = true) as H1.
  { intros q Hq E. apply In_nth_error in Hq. destruct Hq as [p Hp]. pose proof (i_pc _ _ _ _ _ _ HI p q Hp) as HP.
    destruct q; try discriminate; try reflexivity. cbn in *. now apply HP. }
  split; [exact H1|]. intros H2. exists (written wroteH (pcs g) cs). destruct (contents ps evs g HF HL H) as (E1 & E2).
  split; [|split; [exact E1|]].
  - clear. generalize (pcs g). intros qs. revert qs. induction cs as [|r l IH]; intros [|q qs] d Hd; cbn [written] in Hd; try contradiction.
    apply in_app_or in Hd. destruct Hd as [Hd|Hd]; [|right; eauto]. destruct r as [W|x]; [|contradiction]. destruct (wroteH q); [|contradiction].
    destruct Hd as [->|[]]. now left.
  - rewrite E2. f_equal. f_equal. f_equal. clear E1 E2 HI H HL. revert H1 H2. generalize (pcs g). induction cs as [|r l IH]; intros [|q qs] H1 H2; try reflexivity.
    cbn [written]. rewrite (IH (fun W HW => Hcs W (or_intror HW)) qs); [|intros; apply H1; [right; assumption|assumption]|intros; apply H2; [right; assumption|assumption]].
    pose proof (H1 q (or_introl eq_refl)). pose proof (H2 q (or_introl eq_refl)). destruct (wroteH q), (wroteT q); try reflexivity; exfalso; intuition discriminate.
Qed.
End Api.
