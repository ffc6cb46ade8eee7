(** Reordering the samples: rankings and errors (C104; reals). *)
From Coq Require Import Reals Lra Permutation.
From Verif Require Import Base Num Mat LinAlg Slfn Strs Elm Mrsr Search Mss MatFacts RLin ErrMore ScaleErr.
Local Open Scope list_scope.
Local Open Scope R_scope.
#[local] Existing Instance NumR.

(** the entries of [l] at the places [ix] *)
Definition pr {A} (ix : list nat) (d : A) (l : list A) : list A := map (fun i => nth i l d) ix.

Lemma map2_length_eq : forall {A B C} (f : A -> B -> C) l m N, length l = N -> length m = N -> length (map2 f l m) = N.
Proof. intros A B C f. induction l as [|a l IH]; intros [|b m] N H1 H2; cbn in *; try lia. destruct N; [lia|]. f_equal. apply IH; lia. Qed.
Lemma nth_map2_in : forall {A B C} (f : A -> B -> C) da db dc l m i, (i < length l)%nat -> (i < length m)%nat -> nth i (map2 f l m) dc = f (nth i l da) (nth i m db).
Proof. intros A B C f da db dc. induction l as [|a l IH]; intros [|b m] [|i] H1 H2; cbn in *; try lia; auto. apply IH; lia. Qed.

Section Ix.
Variable N : nat.
Variable ix : list nat.
Hypothesis Hix : Permutation ix (seq 0 N).
Lemma ix_len : length ix = N.
Proof. rewrite (Permutation_length Hix). apply seq_length. Qed.
Lemma ix_in : forall i, In i ix -> (i < N)%nat.
Proof. intros i H. apply (Permutation_in _ Hix), in_seq in H. lia. Qed.
Lemma pr_len : forall {A} (d : A) l, length (pr ix d l) = N.
Proof. intros. unfold pr. rewrite map_length. apply ix_len. Qed.
Lemma pr_def : forall {A} (d d' : A) l, length l = N -> pr ix d l = pr ix d' l.
Proof. intros A d d' l H. apply map_ext_in. intros i Hi. apply nth_indep. apply ix_in in Hi. lia. Qed.
Lemma pr_map : forall {A B} (f : A -> B) d d' l, length l = N -> map f (pr ix d l) = pr ix d' (map f l).
Proof.
  intros A B f d d' l H. unfold pr. rewrite map_map. apply map_ext_in. intros i Hi. apply ix_in in Hi.
  rewrite (nth_indep (map f l) d' (f d)) by (rewrite map_length; lia). symmetry. apply map_nth.
Qed.
Lemma pr_map2 : forall {A B C} (f : A -> B -> C) d d' d2 l m, length l = N -> length m = N -> map2 f (pr ix d l) (pr ix d' m) = pr ix d2 (map2 f l m).
Proof.
  intros A B C f d d' d2 l m H1 H2. unfold pr. assert (forall is_, (forall i, In i is_ -> (i < N)%nat) -> map2 f (map (fun i => nth i l d) is_) (map (fun i => nth i m d') is_) = map (fun i => nth i (map2 f l m) d2) is_) as G.
  { induction is_ as [|i r IH]; intros Hi; [reflexivity|]. cbn [map map2]. f_equal; [|apply IH; intros; apply Hi; cbn; auto].
    symmetry. apply nth_map2_in; rewrite ?H1, ?H2; apply Hi; cbn; auto. }
  apply G, ix_in.
Qed.
Lemma pr_combine : forall {A B} (d : A) (d' : B) d2 l m, length l = N -> length m = N -> combine (pr ix d l) (pr ix d' m) = pr ix d2 (combine l m).
Proof.
  intros A B d d' d2 l m H1 H2. assert (forall (x : list A) (y : list B), combine x y = map2 pair x y) as G by (induction x as [|a x IH]; intros [|b y]; cbn; auto; now rewrite IH).
  rewrite !G. now apply pr_map2.
Qed.
Lemma pr_perm : forall {A} (d : A) l, length l = N -> Permutation (pr ix d l) l.
Proof.
  intros A d l H. unfold pr. assert (map (fun i => nth i l d) (seq 0 N) = l) as E.
  { rewrite <- H. clear. induction l as [|a l IH]; [reflexivity|]. cbn [length seq map nth]. f_equal. rewrite <- seq_shift, map_map. exact IH. }
  eapply Permutation_trans; [apply Permutation_map; exact Hix|]. now rewrite E.
Qed.
Lemma nsum_permR : forall l l' : list R, Permutation l l' -> @nsum NumR l = @nsum NumR l'.
Proof. intros l l' H. exact (Rsum_perm l l' H). Qed.
Lemma pr_sum : forall (d : R) l, length l = N -> @nsum NumR (pr ix d l) = @nsum NumR l.
Proof. intros d l H. apply nsum_permR. now apply (pr_perm d l). Qed.

(** ** matrices with one row per sample *)
Notation pm := (pr ix (@nil R)).
Notation pv := (pr ix 0).
Lemma tdot_pr : forall p q A B, length A = N -> length B = N -> @tdot NumR p q (pm A) (pm B) = @tdot NumR p q A B.
Proof.
  intros p q A B HA HB. unfold tdot. apply (@mk_ext NumR). intros i j _ _. pose proof (pr_map2 (fun ra rb : list R => @nmul NumR (@vget NumR ra i) (@vget NumR rb j)) [] [] 0 A B HA HB) as Q.
  cbn [num NumR] in *. rewrite Q. apply (pr_sum 0). now apply map2_length_eq.
Qed.
Lemma csel_pr : forall A c, length A = N -> @csel NumR (pm A) c = pm (@csel NumR A c).
Proof. intros A c H. apply (pr_map (fun row => @vsel NumR row c)), H. Qed.
Lemma mcol_pr : forall A j, length A = N -> @mcol NumR (pm A) j = pv (@mcol NumR A j).
Proof. intros A j H. apply (pr_map (fun row => @vget NumR row j)), H. Qed.
Lemma mmul_pr : forall c A B, length A = N -> @mmul NumR c (pm A) B = pm (@mmul NumR c A B).
Proof. intros c A B H. apply (pr_map (fun ra => @mkv NumR c (fun j => @dotv NumR ra (@mcol NumR B j)))), H. Qed.
Lemma msubm_pr : forall A B, length A = N -> length B = N -> @msubm NumR (pm A) (pm B) = pm (@msubm NumR A B).
Proof. intros A B HA HB. now apply (pr_map2 (map2 (@nsub NumR))). Qed.
Lemma madd_pr : forall A B, length A = N -> length B = N -> @madd NumR (pm A) (pm B) = pm (@madd NumR A B).
Proof. intros A B HA HB. now apply (pr_map2 (@vadd NumR)). Qed.
Lemma mscale_pr : forall a A, length A = N -> @mscale NumR a (pm A) = pm (@mscale NumR a A).
Proof. intros a A H. apply (pr_map (map (@nmul NumR a))), H. Qed.
Lemma dotv_pr : forall x y, length x = N -> length y = N -> @dotv NumR (pv x) (pv y) = @dotv NumR x y.
Proof.
  intros x y Hx Hy. unfold dotv. pose proof (pr_map2 (@nmul NumR) 0 0 0 x y Hx Hy) as Q. cbn [num NumR] in *. rewrite Q. apply (pr_sum 0). now apply map2_length_eq.
Qed.
Lemma tvec_pr : forall p T x, length T = N -> length x = N -> @tvec NumR p (pm T) (pv x) = @tvec NumR p T x.
Proof.
  intros p T x HT Hx. unfold tvec. apply (@mkv_ext NumR). intros k _. pose proof (pr_map2 (fun (t : list R) (a : R) => @nmul NumR (@vget NumR t k) a) [] 0 0 T x HT Hx) as Q.
  cbn [num NumR] in *. rewrite Q. apply (pr_sum 0). now apply map2_length_eq.
Qed.
Lemma mcol_len : forall A j, length A = N -> length (@mcol NumR A j) = N.
Proof. intros A j H. unfold mcol. now rewrite map_length. Qed.
Lemma csel_len : forall A c, length A = N -> length (@csel NumR A c) = N.
Proof. intros A j H. unfold csel. now rewrite map_length. Qed.
Lemma mmul_len : forall c A B, length A = N -> length (@mmul NumR c A B) = N.
Proof. intros c A B H. unfold mmul. now rewrite map_length. Qed.
Lemma mscale_len : forall a A, length A = N -> length (@mscale NumR a A) = N.
Proof. intros a A H. unfold mscale. now rewrite map_length. Qed.
Lemma msubm_len : forall A B, length A = N -> length B = N -> length (@msubm NumR A B) = N.
Proof. intros. now apply map2_length_eq. Qed.
Lemma madd_len : forall A B, length A = N -> length B = N -> length (@madd NumR A B) = N.
Proof. intros. now apply map2_length_eq. Qed.
Hint Resolve mcol_len csel_len mmul_len mscale_len msubm_len madd_len : plen.

(** ** mrsr *)
Section S.
Context {SG : @Sing NumR}.
Definition pst (st : @mst NumR) : @mst NumR := mkMst (i1 st) (i2 st) (pm (mY st)).
Definition rmlen (r : res (@mst NumR)) : Prop := forall st, r = Ok st -> length (mY st) = N.
Lemma mrsr_first_pr : forall X T m p, length X = N -> length T = N ->
  @mrsr_first NumR (pm X) (pm T) m p = rmap pst (@mrsr_first NumR X T m p) /\ rmlen (@mrsr_first NumR X T m p).
Proof.
  intros X T m p HX HT. unfold mrsr_first. rewrite !tdot_pr by auto. destruct (@abs_colsum NumR m (@tdot NumR p m T X)) as [|s0 ss] eqn:E; [split; [reflexivity|intros st; discriminate]|].
  set (cind := @argmax NumR (s0 :: ss)). set (ind := nth cind (seq 0 m) O).
  pose proof (mcol_pr X ind HX) as Qc. cbn [num NumR] in *. rewrite Qc.
  pose proof (dotv_pr (@mcol NumR X ind) (@mcol NumR X ind) ltac:(auto with plen) ltac:(auto with plen)) as Q. cbn [num NumR] in *. rewrite Q. clear Q.
  destruct (np_div n1 _) as [iv| | |]; try (split; [reflexivity|intros st; discriminate]).
  match goal with |- context [map (fun x => map (nmul x) ?v) (pr ix 0 _)] => set (w := v) end.
  assert (map (fun x => map (@nmul NumR x) w) (pv (@mcol NumR X ind)) = pm (map (fun x => map (@nmul NumR x) w) (@mcol NumR X ind))) as Q by (apply (pr_map (fun x => map (@nmul NumR x) w)); auto with plen).
  cbn [num NumR] in *. rewrite Q. clear Q. set (Yols := map (fun x => map (@nmul NumR x) w) (@mcol NumR X ind)).
  assert (length Yols = N) as HY by (unfold Yols; rewrite map_length; auto with plen).
  rewrite csel_pr, tdot_pr by auto with plen.
  match goal with |- context [min_step ?g] => destruct (min_step g) as [g0|]; [|split; [reflexivity|intros st; discriminate]] end. cbn [rbind rmap]. split.
  - rewrite mscale_pr by auto. reflexivity.
  - intros st Est. injection Est as <-. cbn [mY]. auto with plen.
Qed.
Lemma mrsr_step_pr : forall X T m p kmax k st, length X = N -> length T = N -> length (mY st) = N ->
  @mrsr_step NumR SG (pm X) (pm T) m p kmax k (pst st) = rmap pst (@mrsr_step NumR SG X T m p kmax k st) /\ rmlen (@mrsr_step NumR SG X T m p kmax k st).
Proof.
  intros X T m p kmax k st HX HT HY. unfold mrsr_step. cbn [i1 i2 mY pst]. rewrite !csel_pr, !msubm_pr by auto. rewrite !tdot_pr by auto with plen.
  set (n := length (i2 st)). set (A0 := @tdot NumR p n (@msubm NumR T (mY st)) (@csel NumR X (i2 st))).
  destruct (@abs_colsum NumR n A0) as [|s0 ss] eqn:E; [split; [reflexivity|intros x; discriminate]|].
  cbv zeta. rewrite ?csel_pr by auto. rewrite ?tdot_pr by auto with plen. rewrite ?mmul_pr by auto with plen. rewrite ?msubm_pr by auto with plen. rewrite ?tdot_pr by auto with plen.
  destruct (k =? kmax)%nat; [split; [reflexivity|intros x Ex; injection Ex as <-; cbn [mY]; auto with plen]|].
  match goal with |- context [min_step ?g] => destruct (min_step g) as [g0|]; [|split; [reflexivity|intros x; discriminate]] end. cbn [rbind rmap]. split.
  - rewrite !mscale_pr by auto with plen. rewrite madd_pr by auto with plen. reflexivity.
  - intros x Ex. injection Ex as <-. cbn [mY]. auto with plen.
Qed.
Lemma mrsr_loop_pr : forall X T m p kmax ks st, length X = N -> length T = N -> length (mY st) = N ->
  @mrsr_loop NumR SG (pm X) (pm T) m p kmax ks (pst st) = rmap pst (@mrsr_loop NumR SG X T m p kmax ks st).
Proof.
  intros X T m p kmax. induction ks as [|k ks IH]; intros st HX HT HY; cbn [mrsr_loop]; [reflexivity|].
  destruct (mrsr_step_pr X T m p kmax k st HX HT HY) as [-> L]. destruct (@mrsr_step NumR SG X T m p kmax k st) as [st1|x] eqn:E; [|reflexivity]. cbn [rbind rmap]. apply IH; auto.
Qed.
Theorem mrsr_pr : forall X T m p kmax, length X = N -> length T = N -> @mrsr NumR SG (pm X) (pm T) m p kmax = @mrsr NumR SG X T m p kmax.
Proof.
  intros X T m p kmax HX HT. unfold mrsr. destruct (mrsr_first_pr X T m p HX HT) as [-> L]. destruct (@mrsr_first NumR X T m p) as [st|] eqn:E; [|reflexivity]. cbn [rbind rmap]. rewrite mrsr_loop_pr by auto.
  destruct (mrsr_loop _ _ _ _ _ _ st); reflexivity.
Qed.

(** ** mrsr2 *)
Context {BR : @Brent NumR}.
Lemma first_max_ext : forall f f', (forall j, f' j = f j) -> forall js cm jm, @first_max NumR f' js cm jm = @first_max NumR f js cm jm.
Proof. intros f f' H. induction js as [|j js IH]; intros cm jm; cbn [first_max]; [reflexivity|]. rewrite H. destruct (nltb cm (f j)); apply IH. Qed.
Lemma min_new_ext : forall p1 p1' p2 p2' cm, (forall j, p1' j = p1 j) -> (forall j, p2' j = p2 j) ->
  forall js y j, @min_new NumR BR p1' p2' cm js y j = @min_new NumR BR p1 p2 cm js y j.
Proof.
  intros p1 p1' p2 p2' cm H1 H2. induction js as [|jn js IH]; intros y j; cbn [min_new]; [reflexivity|]. rewrite H1, H2.
  destruct (nltb _ _); [|apply IH]. destruct (brentq y cm _ _); apply IH.
Qed.
Definition p2 (st : @m2st NumR) : @m2st NumR := mkM2 (rank2 st) (non2 st) (jcur st) (pm (Y2 st)) (pm (Yk st)).
Definition len2 (st : @m2st NumR) : Prop := length (Y2 st) = N /\ length (Yk st) = N.
Lemma mrsr2_step_pr : forall X T m p st, length X = N -> length T = N -> len2 st ->
  @mrsr2_step NumR SG BR (pm X) (pm T) m p (p2 st) = rmap p2 (@mrsr2_step NumR SG BR X T m p st) /\ (forall st', @mrsr2_step NumR SG BR X T m p st = Ok st' -> len2 st').
Proof.
  intros X T m p st HX HT [HY HK]. unfold mrsr2_step. cbn [rank2 non2 jcur Y2 Yk p2].
  match goal with |- context [rmap p2 (rbind ?r _)] => set (sel := r) end.
  match goal with |- rbind ?r _ = _ /\ _ => assert (r = rmap (fun q : list nat * list nat * nat * R * list (list R) => let '(a, b, j, y, Y) := q in (a, b, j, y, pm Y)) sel) as -> end.
  { unfold sel. destruct (rank2 st) as [|r0 rs].
    - rewrite (first_max_ext (fun j => @norm2 NumR (@tvec NumR p T (@mcol NumR X j)))); [destruct (first_max _ _ _ _); reflexivity|].
      intros j. pose proof (mcol_pr X j HX) as Q. cbn [num NumR] in *. rewrite Q. now rewrite tvec_pr by auto with plen.
    - destruct (non2 st) as [|j0 js]; [reflexivity|]. rewrite !msubm_pr by auto.
      pose proof (mcol_pr X (jcur st) HX) as Q. cbn [num NumR] in *. rewrite Q. rewrite tvec_pr by auto with plen.
      rewrite (min_new_ext (fun j => @tvec NumR p (@msubm NumR T (Y2 st)) (@mcol NumR X j)) _ (fun j => @tvec NumR p (@msubm NumR (Yk st) (Y2 st)) (@mcol NumR X j))).
      2, 3: intros j; pose proof (mcol_pr X j HX) as Q2; cbn [num NumR] in *; rewrite Q2; now rewrite tvec_pr by auto with plen.
      destruct (min_new _ _ _ _ _ _) as [y jm]. reflexivity. }
  assert (forall q, sel = Ok q -> length (snd q) = N) as HS.
  { unfold sel. destruct (rank2 st) as [|r0 rs].
    - destruct (first_max _ _ _ _); [|discriminate]. intros q Eq. injection Eq as <-. exact HY.
    - destruct (non2 st) as [|j0 js]; [intros q Eq; injection Eq as <-; exact HK|]. destruct (min_new _ _ _ _ _ _) as [y jm]. intros q Eq. injection Eq as <-. exact HY. }
  destruct sel as [[[[[r non] j] y] Y]|x]; [|split; [reflexivity|discriminate]]. specialize (HS _ eq_refl). cbn [snd] in HS. cbn [rmap rbind].
  rewrite csel_pr by auto. rewrite !tdot_pr by auto with plen. rewrite mmul_pr by auto with plen. split.
  - f_equal. unfold p2. cbn [rank2 non2 jcur Y2 Yk]. f_equal. destruct (1 <? length r)%nat; [|reflexivity]. rewrite !mscale_pr by auto with plen. apply madd_pr; auto with plen.
  - intros st' Est. injection Est as <-. split; cbn [Y2 Yk]; auto with plen. destruct (1 <? length r)%nat; auto with plen.
Qed.
Lemma mrsr2_loop_pr : forall X T m p k st, length X = N -> length T = N -> len2 st ->
  @mrsr2_loop NumR SG BR (pm X) (pm T) m p k (p2 st) = rmap p2 (@mrsr2_loop NumR SG BR X T m p k st).
Proof.
  intros X T m p. induction k as [|k IH]; intros st HX HT HL; cbn [mrsr2_loop]; [reflexivity|].
  destruct (mrsr2_step_pr X T m p st HX HT HL) as [-> L]. destruct (@mrsr2_step NumR SG BR X T m p st) as [st1|x] eqn:E; [|reflexivity]. cbn [rbind rmap]. apply IH; auto.
Qed.
Theorem mrsr2_pr : forall X T m p kmax, length X = N -> length T = N -> @mrsr2 NumR SG BR (pm X) (pm T) m p kmax = @mrsr2 NumR SG BR X T m p kmax.
Proof.
  intros X T m p kmax HX HT. unfold mrsr2. set (z := map (fun _ : list R => @mkv NumR p (fun _ => @n0 NumR)) T).
  assert (map (fun _ : list R => @mkv NumR p (fun _ => @n0 NumR)) (pm T) = pm z) as Q by (apply (pr_map (fun _ : list R => @mkv NumR p (fun _ => @n0 NumR))); auto).
  cbn [num NumR] in *. rewrite Q. clear Q. pose proof (pr_len (@nil R) X) as Q. cbn [num NumR] in *. rewrite Q, HX. clear Q.
  change (@mkM2 NumR [] (seq 0 m) 0%nat (pm z) (pm z)) with (p2 (@mkM2 NumR [] (seq 0 m) 0%nat z z)). rewrite mrsr2_loop_pr; auto. 2: { split; cbn [Y2 Yk]; unfold z; now rewrite map_length. }
  destruct (mrsr2_loop _ _ _ _ _ _); reflexivity.
Qed.

Context {SH : Shuffle}.
Lemma ranking_pr : forall e i L H T, length H = N -> length T = N -> @ranking NumR SG BR SH e i L (pm H) (pm T) = @ranking NumR SG BR SH e i L H T.
Proof. intros e i L H T HH HT. unfold ranking. rewrite mrsr_pr, mrsr2_pr by auto. reflexivity. Qed.
End S.

(** ** errors *)
Lemma xadd_swap : forall a b c : @xnum NumR, @xadd NumR a (@xadd NumR b c) = @xadd NumR b (@xadd NumR a c).
Proof. intros [a| | |] [b| | |] [c| | |]; cbn; auto. f_equal. rring. Qed.
Lemma xsum_perm : forall l l' : list (@xnum NumR), Permutation l l' -> @xsum NumR l = @xsum NumR l'.
Proof. intros l l' H. induction H; [reflexivity|unfold xsum in *; cbn [fold_right] in *; now rewrite IHPermutation|unfold xsum; cbn [fold_right]; apply xadd_swap|congruence]. Qed.
Lemma xmean_perm : forall l l' : list (@xnum NumR), Permutation l l' -> @xmean NumR l = @xmean NumR l'.
Proof.
  intros l l' H. unfold xmean. pose proof (xsum_perm _ _ H) as Q. pose proof (Permutation_length H) as Q2. destruct l, l'; try discriminate Q2; [reflexivity|]. now rewrite Q, Q2.
Qed.
Lemma zip_eq : forall (A B : list (list R)), length A = N -> length B = N -> @zip_rows NumR A B = Ok (combine A B).
Proof. intros A B HA HB. unfold zip_rows, bcast. cbn [num NumR]. now rewrite HA, HB, Nat.eqb_refl. Qed.
Lemma zip_pr : forall (A B : list (list R)), length A = N -> length B = N -> @zip_rows NumR (pm A) (pm B) = Ok (pr ix ([], []) (combine A B)).
Proof. intros A B HA HB. rewrite zip_eq by apply pr_len. f_equal. now apply pr_combine. Qed.
Lemma concat_perm : forall {A B} (f : A -> list B) l l', Permutation l l' -> Permutation (concat (map f l)) (concat (map f l')).
Proof. intros A B f l l' H. rewrite <- !flat_map_concat_map. now apply Permutation_flat_map. Qed.

Definition xmean0 (l : list (@xnum NumR)) : @xnum NumR := match l with [] => @Fin NumR 0 | _ => @xmean NumR l end.
Lemma xmean0_perm : forall l l', Permutation l l' -> xmean0 l = xmean0 l'.
Proof. intros l l' H. unfold xmean0. pose proof (Permutation_length H) as Q. destruct l, l'; try discriminate Q; [reflexivity|]. now apply xmean_perm. Qed.
Lemma class_err_eq : forall (Y : list (list R)) idx f, (forall r, In r idx -> (r < length Y)%nat) ->
  @class_err NumR Y idx f = Ok (xmean0 (map (fun r => f r (nth r Y [])) idx)).
Proof.
  intros Y idx f Hi. unfold class_err. destruct idx as [|r0 rs] eqn:E; [reflexivity|]. rewrite <- E in *.
  assert (mapM (fun r => match nth_error Y r with Some y => Ok (f r y) | None => Err IndexError end) idx = Ok (map (fun r => f r (nth r Y [])) idx)) as Q.
  { clear E. induction idx as [|r l IH]; [reflexivity|]. cbn [mapM map]. rewrite (nth_error_nth' Y [] (Hi r (or_introl eq_refl))). rewrite IH by (intros; apply Hi; cbn; auto). reflexivity. }
  cbn [num NumR] in *. rewrite Q. cbn [rbind]. rewrite E. reflexivity.
Qed.
Lemma ix_nth : map (fun k => nth k ix 0%nat) (seq 0 N) = ix.
Proof. rewrite <- ix_len. clear. induction ix as [|a l IH]; [reflexivity|]. cbn [length seq map nth]. f_equal. rewrite <- seq_shift, map_map. exact IH. Qed.
Lemma filter_map_c : forall {A B} (g : B -> bool) (h : A -> B) l, filter g (map h l) = map h (filter (fun a => g (h a)) l).
Proof. induction l as [|a l IH]; [reflexivity|]. cbn. destruct (g (h a)); cbn; now rewrite IH. Qed.
Lemma filter_perm : forall {A} (g : A -> bool) l l', Permutation l l' -> Permutation (filter g l) (filter g l').
Proof. intros A g l l' H. induction H; cbn; auto; [destruct (g x); auto|destruct (g x), (g y); auto; constructor|eauto using Permutation_trans]. Qed.
Lemma nth_pr : forall {A} (d : A) l k, (k < N)%nat -> nth k (pr ix d l) d = nth (nth k ix 0%nat) l d.
Proof. intros A d l k H. unfold pr. rewrite <- ix_len in H. rewrite (nth_indep _ d ((fun i => nth i l d) 0%nat)) by now rewrite map_length. now rewrite (map_nth (fun i => nth i l d)). Qed.
Lemma rows_with_pr : forall (T : list (list R)) i, length T = N -> Permutation (map (fun k => nth k ix 0%nat) (@rows_with NumR (pm T) i)) (@rows_with NumR T i).
Proof.
  intros T i HT. unfold rows_with. cbn [num NumR]. rewrite pr_len, HT. eapply Permutation_trans; [|apply (filter_perm _ _ _ Hix)].
  match goal with |- Permutation _ (filter ?g ix) => assert (filter g ix = filter g (map (fun k => nth k ix 0%nat) (seq 0 N))) as -> by (now rewrite ix_nth) end. rewrite filter_map_c. apply Permutation_map.
  erewrite filter_ext_in; [reflexivity|]. intros k Hk. apply in_seq in Hk. unfold mget. pose proof (nth_pr (@nil R) T k ltac:(lia)) as Q. cbn [num NumR] in *. now rewrite Q.
Qed.
Lemma class_err_pr : forall (T Y : list (list R)) i f f', length T = N -> length Y = N -> (forall k y, (k < N)%nat -> f' k y = f (nth k ix 0%nat) y) ->
  @class_err NumR (pm Y) (@rows_with NumR (pm T) i) f' = @class_err NumR Y (@rows_with NumR T i) f.
Proof.
  intros T Y i f f' HT HY Hf. assert (forall Z : list (list R), length Z = N -> forall r, In r (@rows_with NumR Z i) -> (r < N)%nat) as HR.
  { intros Z HZ r Hr. unfold rows_with in Hr. cbn [num NumR] in Hr. rewrite HZ in Hr. apply filter_In, proj1, in_seq in Hr. lia. }
  rewrite !class_err_eq; [|rewrite HY; now apply HR|rewrite pr_len; apply HR, pr_len]. f_equal. apply xmean0_perm.
  rewrite <- (Permutation_map _ (rows_with_pr T i HT)). rewrite map_map. erewrite map_ext_in; [reflexivity|]. intros k Hk. cbn beta.
  assert (k < N)%nat as Hk' by (apply (HR (pm T)); [apply pr_len|exact Hk]). rewrite Hf by exact Hk'. f_equal. pose proof (nth_pr (@nil R) Y k Hk') as Q. exact Q.
Qed.

Lemma raw_error_pr : forall cls wc T Y c, length T = N -> length Y = N -> @raw_error NumR cls wc (pm T) (pm Y) c = @raw_error NumR cls wc T Y c.
Proof.
  intros cls wc T Y c HT HY. unfold raw_error.
  assert (mapM (fun i => @class_err NumR (pm Y) (@rows_with NumR (pm T) i) (fun _ y => @Fin NumR (@b2n NumR (neq_arg y i)))) (seq 0 c)
        = mapM (fun i => @class_err NumR Y (@rows_with NumR T i) (fun _ y => @Fin NumR (@b2n NumR (neq_arg y i)))) (seq 0 c)) as Qw.
  { induction (seq 0 c) as [|i l IH]; [reflexivity|]. cbn [mapM]. rewrite (class_err_pr T Y i (fun _ y => @Fin NumR (@b2n NumR (neq_arg y i)))) by auto. now rewrite IH. }
  cbn [num NumR] in *. rewrite Qw. rewrite zip_pr, zip_eq by auto. cbn [rbind].
  assert (Permutation (pr ix ([], []) (combine Y T)) (combine Y T)) as PC by (apply pr_perm; rewrite combine_length; lia).
  repeat match goal with |- match ?s with _ => _ end = match ?s with _ => _ end => destruct s; try reflexivity end;
    f_equal; apply xmean_perm; try (now apply Permutation_map); now apply concat_perm.
Qed.
Lemma raw_press_pr : forall cls wc T Y R0 c, length T = N -> length Y = N -> length R0 = N -> @raw_press NumR cls wc (pm T) (pm Y) (pv R0) c = @raw_press NumR cls wc T Y R0 c.
Proof.
  intros cls wc T Y R0 c HT HY HR. unfold raw_press.
  assert (mapM (fun i => @class_err NumR (pm Y) (@rows_with NumR (pm T) i) (fun r y => @xsq NumR (@np_div NumR (@b2n NumR (neq_arg y i)) (@vget NumR (pv R0) r)))) (seq 0 c)
        = mapM (fun i => @class_err NumR Y (@rows_with NumR T i) (fun r y => @xsq NumR (@np_div NumR (@b2n NumR (neq_arg y i)) (@vget NumR R0 r)))) (seq 0 c)) as Qw.
  { induction (seq 0 c) as [|i l IH]; [reflexivity|]. cbn [mapM]. rewrite (class_err_pr T Y i (fun r y => @xsq NumR (@np_div NumR (@b2n NumR (neq_arg y i)) (@vget NumR R0 r)))); auto; [now rewrite IH|].
    intros k y Hk. do 2 f_equal. exact (nth_pr 0 R0 k Hk). }
  cbn [num NumR] in *. rewrite Qw. rewrite zip_pr, zip_eq by auto. cbn [rbind].
  assert (length (combine Y T) = N) as HC by (rewrite combine_length; lia).
  assert (bcast (combine Y T) R0 = Ok (combine (combine Y T) R0)) as Q1 by (unfold bcast; now rewrite HC, HR, Nat.eqb_refl).
  assert (bcast (pr ix ([], []) (combine Y T)) (pv R0) = Ok (pr ix ([], [], 0) (combine (combine Y T) R0))) as Q2.
  { unfold bcast. rewrite !pr_len, Nat.eqb_refl. f_equal. now apply pr_combine. }
  cbn [num NumR] in *. rewrite Q1, Q2. cbn [rbind].
  assert (Permutation (pr ix ([], [], 0) (combine (combine Y T) R0)) (combine (combine Y T) R0)) as PC by (apply pr_perm; rewrite combine_length; lia).
  repeat match goal with |- match ?s with _ => _ end = match ?s with _ => _ end => destruct s; try reflexivity end;
    f_equal; apply xmean_perm; try (now apply Permutation_map); now apply concat_perm.
Qed.
Lemma error_pr : forall e T Y, length T = N -> length Y = N -> @error_ NumR e (pm T) (pm Y) = @error_ NumR e T Y.
Proof. intros e T Y HT HY. unfold error_. now rewrite raw_error_pr by auto. Qed.
Lemma press_pr : forall e T Y R0, length T = N -> length Y = N -> length R0 = N -> @press_ NumR e (pm T) (pm Y) (pv R0) = @press_ NumR e T Y R0.
Proof. intros e T Y R0 HT HY HR. unfold press_. now rewrite raw_press_pr by auto. Qed.
End Ix.
