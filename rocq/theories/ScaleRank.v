(** The two rankings of 'OP' do not depend on the unit of the targets. *)
From Coq Require Import Reals Lra.
From Verif Require Import Base Num Mat LinAlg Slfn Strs Elm Mrsr Search Mss MatFacts RLin SelectThms Scale ScaleSearch ScaleErr.
Local Open Scope list_scope.
Local Open Scope R_scope.
#[local] Existing Instance NumR.

Section C.
Variable c : R.
Hypothesis Hp : 0 < c.
Lemma Hp0 : c <> 0. Proof. lra. Qed.
Lemma ltb_c : forall a b, @nltb NumR (c * a) (c * b) = @nltb NumR a b.
Proof. intros a b. cbn. destruct (Rltb a b) eqn:F; [apply Rltb_spec in F; apply Rltb_spec; nra|apply Rltb_false in F; apply Rltb_false; nra]. Qed.
Lemma np_div_c : forall a b, @np_div NumR (c * a) (c * b) = @np_div NumR a b.
Proof.
  intros a b. unfold np_div. cbn. destruct (Reqb b 0) eqn:E.
  - apply Reqb_spec in E. subst. rewrite Rmult_0_r, Reqb_refl. destruct (Reqb a 0) eqn:F.
    + apply Reqb_spec in F. subst. now rewrite Rmult_0_r, Reqb_refl.
    + apply Reqb_false in F. assert (Reqb (c * a) 0 = false) as -> by (apply Reqb_false; apply Rmult_integral_contrapositive; split; auto; lra).
      pose proof (ltb_c 0 a) as Q. cbn in Q. rewrite Rmult_0_r in Q. now rewrite Q.
  - apply Reqb_false in E. assert (Reqb (c * b) 0 = false) as -> by (apply Reqb_false; apply Rmult_integral_contrapositive; split; auto; lra). f_equal. cbn. field. split; auto. lra.
Qed.
Lemma abs_colsum_sc : forall m A, @abs_colsum NumR m (sc c A) = sv c (@abs_colsum NumR m A).
Proof.
  intros m A. unfold abs_colsum. rewrite <- mkv_sv. apply (@mkv_ext NumR). intros j _. rewrite <- nsum_sv. f_equal. unfold sc, sv at 2. cbn [num NumR]. rewrite !map_map. apply map_ext. intros r.
  rewrite vget_sv. cbn. rewrite Rabs_mult, (Rabs_pos_eq c); lra.
Qed.
Lemma del_nth_map : forall {A B} (g : A -> B) i l, del_nth i (map g l) = map g (del_nth i l).
Proof. intros A B g. induction i as [|i IH]; intros [|x l]; cbn; auto. now rewrite IH. Qed.
Lemma del_col_sc : forall i M, @del_col NumR i (sc c M) = sc c (@del_col NumR i M).
Proof. intros i M. unfold del_col, sc. cbn [num NumR]. rewrite !map_map. apply map_ext. intros r. apply del_nth_map. Qed.
Lemma g_matrix_sc : forall p n cm A B, @g_matrix NumR p n (c * cm) (sc c A) (sc c B) = @g_matrix NumR p n cm A B.
Proof.
  intros p n cm A B. unfold g_matrix. f_equal. apply map_ext. intros s. apply map_ext. intros j. rewrite !mcol_sc, !dotv_sv_r. cbn [nadd NumR]. rewrite <- !Rmult_plus_distr_l. apply np_div_c.
Qed.
Definition sst (st : @mst NumR) : @mst NumR := mkMst (i1 st) (i2 st) (sc c (mY st)).
Lemma outer_sc : forall (xi : list R) w, map (fun x => map (@nmul NumR x) (sv c w)) xi = sc c (map (fun x => map (@nmul NumR x) w) xi).
Proof. intros xi w. unfold sc. cbn [num NumR]. rewrite map_map. apply map_ext. intros x. unfold sv. rewrite !map_map. apply map_ext. intros y. rring. Qed.
Lemma svmul : forall a v, map (@nmul NumR a) (sv c v) = sv c (map (@nmul NumR a) v).
Proof. intros a v. unfold sv. cbn [num NumR]. rewrite !map_map. apply map_ext. intros y. rring. Qed.
Lemma comb_sc : forall a b A B, @madd NumR (@mscale NumR a (sc c A)) (@mscale NumR b (sc c B)) = sc c (@madd NumR (@mscale NumR a A) (@mscale NumR b B)).
Proof. intros a b A B. rewrite (mscale_sc c a A), (mscale_sc c b B). apply madd_sc. Qed.
Section S.
Context {SG : @Sing NumR}.
Lemma mrsr_first_sc : forall X T m p, @mrsr_first NumR X (sc c T) m p = rmap sst (@mrsr_first NumR X T m p).
Proof.
  intros X T m p. unfold mrsr_first. rewrite tdot_sc_l, tdot_sc_r, abs_colsum_sc. pose proof (argmax_sv c Hp0 Hp (@abs_colsum NumR m (@tdot NumR p m T X))) as Q. cbn [num NumR] in *. rewrite Q. clear Q.
  rewrite vget_sv, del_col_sc. destruct (@abs_colsum NumR m (@tdot NumR p m T X)) as [|s0 ss] eqn:E; [reflexivity|]. cbn [sv map].
  set (cind := @argmax NumR (s0 :: ss)). set (ind := nth cind (seq 0 m) O). destruct (np_div n1 _) as [iv| | |]; try reflexivity.
  pose proof (nth_sc c (@tdot NumR m p X T) ind) as Q. cbn [num NumR] in *. rewrite Q. clear Q.
  pose proof (svmul iv (nth ind (@tdot NumR m p X T) [])) as Q. cbn [num NumR] in *. rewrite Q. clear Q.
  pose proof (outer_sc (@mcol NumR X ind) (map (@nmul NumR iv) (nth ind (@tdot NumR m p X T) []))) as Q. cbn [num NumR] in *. rewrite Q. clear Q.
  rewrite tdot_sc_l, g_matrix_sc. match goal with |- context [min_step ?g] => destruct (min_step g) as [g0|]; [|reflexivity] end. cbn [rbind rmap]. rewrite mscale_sc. reflexivity.
Qed.
Lemma mrsr_step_sc : forall X T m p kmax k st, @mrsr_step NumR SG X (sc c T) m p kmax k (sst st) = rmap sst (@mrsr_step NumR SG X T m p kmax k st).
Proof.
  intros X T m p kmax k st. unfold mrsr_step. cbn [i1 i2 mY sst]. rewrite msubm_sc, tdot_sc_l, abs_colsum_sc. set (n := length (i2 st)). set (A0 := @tdot NumR p n (@msubm NumR T (mY st)) (@csel NumR X (i2 st))).
  pose proof (argmax_sv c Hp0 Hp (@abs_colsum NumR n A0)) as Q. cbn [num NumR] in *. rewrite Q. clear Q.
  rewrite vget_sv, del_col_sc. destruct (@abs_colsum NumR n A0) as [|s0 ss] eqn:E; [reflexivity|]. cbn [sv map].
  rewrite tdot_sc_r, rsel_sc, !mmul_sc, msubm_sc, tdot_sc_l, g_matrix_sc. destruct (k =? kmax)%nat; [reflexivity|].
  match goal with |- context [min_step ?g] => destruct (min_step g) as [g0|]; [|reflexivity] end. cbn [rbind rmap]. rewrite comb_sc. reflexivity.
Qed.
Lemma mrsr_loop_sc : forall X T m p kmax ks st, @mrsr_loop NumR SG X (sc c T) m p kmax ks (sst st) = rmap sst (@mrsr_loop NumR SG X T m p kmax ks st).
Proof. intros X T m p kmax. induction ks as [|k ks IH]; intros st; cbn [mrsr_loop]; [reflexivity|]. rewrite mrsr_step_sc. apply rmap_bind. exact IH. Qed.
Theorem mrsr_sc : forall X T m p kmax, @mrsr NumR SG X (sc c T) m p kmax = @mrsr NumR SG X T m p kmax.
Proof.
  intros X T m p kmax. unfold mrsr. rewrite mrsr_first_sc. destruct (mrsr_first X T m p) as [st|]; [|reflexivity]. cbn [rbind rmap]. rewrite mrsr_loop_sc.
  destruct (mrsr_loop _ _ _ _ _ _ st); reflexivity.
Qed.

(** ** mrsr2 *)
Context {BR : @Brent NumR}.
(** scipy's root of the quadratic does not depend on the unit *)
Definition brent_scale : Prop := forall y cm p1 p2, @brentq NumR BR y (c * cm) (sv c p1) (sv c p2) = @brentq NumR BR y cm p1 p2.
Lemma norm2_sv : forall v, @norm2 NumR (sv c v) = c * @norm2 NumR v.
Proof.
  intros v. unfold norm2. assert (@nsum NumR (map nsq (sv c v)) = c * c * @nsum NumR (map nsq v)) as ->.
  { induction v as [|a v IH]; cbn; [rring|]. unfold nsum, sv in *. cbn in *. rewrite IH. unfold nsq. rring. }
  cbn. rewrite sqrt_mult_alt by nra. rewrite sqrt_square by lra. reflexivity.
Qed.
Lemma norm2_nn : forall v, 0 <= @norm2 NumR v.
Proof. intros v. cbn. apply sqrt_pos. Qed.
Lemma first_max_c : forall f f', (forall j, f' j = c * f j) -> forall js cm jm, @first_max NumR f' js (c * cm) jm = @first_max NumR f js cm jm.
Proof. intros f f' H. induction js as [|j js IH]; intros cm jm; cbn [first_max]; [reflexivity|]. rewrite H, ltb_c. cbn [num NumR]. destruct (@nltb NumR cm (f j)); apply IH. Qed.
Lemma first_max_0 : forall f f' js, (forall j, 0 <= f j) -> (forall j, f' j = c * f j) -> @first_max NumR f' js (@nopp NumR n1) None = @first_max NumR f js (@nopp NumR n1) None.
Proof.
  intros f f' [|j js] H0 H; cbn [first_max]; [reflexivity|].
  assert (forall x, 0 <= x -> @nltb NumR (nopp n1) x = true) as G. { intros x Hx. cbn. apply Rltb_spec. lra. }
  rewrite (G (f j)) by auto. rewrite (G (f' j)) by (rewrite H; specialize (H0 j); nra). rewrite H. now apply first_max_c.
Qed.
Lemma min_new_c : brent_scale -> forall p1 p1' p2 p2' cm, (forall j, p1' j = sv c (p1 j)) -> (forall j, p2' j = sv c (p2 j)) ->
  forall js y j, @min_new NumR BR p1' p2' (c * cm) js y j = @min_new NumR BR p1 p2 cm js y j.
Proof.
  intros HB p1 p1' p2 p2' cm H1 H2. induction js as [|jn js IH]; intros y j; cbn [min_new]; [reflexivity|]. rewrite H1, H2.
  assert (@nltb NumR (nmul (nsub n1 y) (c * cm)) (norm2 (map2 nsub (sv c (p1 jn)) (map (nmul y) (sv c (p2 jn))))) = @nltb NumR (nmul (nsub n1 y) cm) (norm2 (map2 nsub (p1 jn) (map (nmul y) (p2 jn))))) as ->.
  { etransitivity; [|apply ltb_c]. f_equal; [rring|]. rewrite <- norm2_sv. f_equal. pose proof (svmul y (p2 jn)) as Q. cbn [num NumR] in *. rewrite Q. exact (vsub_sv c (p1 jn) _). }
  destruct (nltb _ _); [|apply IH]. rewrite (HB y cm (p1 jn) (p2 jn)). destruct (brentq y cm _ _); apply IH.
Qed.
Lemma tvec_sc : forall p T x, @tvec NumR p (sc c T) x = sv c (@tvec NumR p T x).
Proof.
  intros p T x. unfold tvec. rewrite <- mkv_sv. apply (@mkv_ext NumR). intros k _. rewrite <- nsum_sv. f_equal. revert x.
  induction T as [|t T IH]; intros [|a x]; cbn; auto. unfold sc, sv in *. cbn in *. rewrite IH. f_equal. pose proof (vget_sv c t k) as Q. unfold sv in Q. cbn in *. rewrite Q. rring.
Qed.
Definition s2 (st : @m2st NumR) : @m2st NumR := mkM2 (rank2 st) (non2 st) (jcur st) (sc c (Y2 st)) (sc c (Yk st)).
Hypothesis HB : brent_scale.
Hypothesis HL : lu_linear c (SG := SG).
Lemma mrsr2_step_sc : forall X T m p st, @mrsr2_step NumR SG BR X (sc c T) m p (s2 st) = rmap s2 (@mrsr2_step NumR SG BR X T m p st).
Proof.
  intros X T m p st. unfold mrsr2_step. cbn [rank2 non2 jcur Y2 Yk s2].
  match goal with |- _ = rmap s2 (rbind ?r _) => set (sel := r) end.
  match goal with |- rbind ?r _ = _ => assert (r = rmap (fun q : list nat * list nat * nat * R * list (list R) => let '(a, b, j, y, Y) := q in (a, b, j, y, sc c Y)) sel) as -> end.
  { unfold sel. destruct (rank2 st) as [|r0 rs].
    - rewrite (first_max_0 (fun j => @norm2 NumR (@tvec NumR p T (@mcol NumR X j)))); [destruct (first_max _ _ _ _); reflexivity|intros; apply norm2_nn|intros j; rewrite tvec_sc; apply norm2_sv].
    - destruct (non2 st) as [|j0 js]; [reflexivity|]. rewrite !msubm_sc, tvec_sc, norm2_sv.
      rewrite (min_new_c HB (fun j => @tvec NumR p (@msubm NumR T (Y2 st)) (@mcol NumR X j)) _ (fun j => @tvec NumR p (@msubm NumR (Yk st) (Y2 st)) (@mcol NumR X j)));
        [|intros; apply tvec_sc|intros; apply tvec_sc].
      destruct (min_new _ _ _ _ _ _) as [y jm]. reflexivity. }
  apply rmap_bind. intros [[[[r non] j] y] Y]. rewrite tdot_sc_r, rsel_sc, (lu_sc c HL), mmul_sc. cbn [rmap rbind]. f_equal. unfold s2. cbn [rank2 non2 jcur Y2 Yk]. f_equal.
  destruct (1 <? length r)%nat; [|reflexivity]. apply comb_sc.
Qed.
Lemma mrsr2_loop_sc : forall X T m p k st, @mrsr2_loop NumR SG BR X (sc c T) m p k (s2 st) = rmap s2 (@mrsr2_loop NumR SG BR X T m p k st).
Proof. intros X T m p. induction k as [|k IH]; intros st; cbn [mrsr2_loop]; [reflexivity|]. rewrite mrsr2_step_sc. apply rmap_bind. exact IH. Qed.
Theorem mrsr2_sc : forall X T m p kmax, @mrsr2 NumR SG BR X (sc c T) m p kmax = @mrsr2 NumR SG BR X T m p kmax.
Proof.
  intros X T m p kmax. unfold mrsr2. set (z := map (fun _ : list R => @mkv NumR p (fun _ => @n0 NumR)) T).
  match goal with |- context [map ?g (sc c T)] => assert (map g (sc c T) = sc c z) as -> end.
  { unfold z, sc. cbn [num NumR]. rewrite !map_map. apply map_ext. intros _. rewrite <- mkv_sv. apply (@mkv_ext NumR). intros. cbn. ring. }
  change (@mkM2 NumR [] (seq 0 m) 0%nat (sc c z) (sc c z)) with (s2 (@mkM2 NumR [] (seq 0 m) 0%nat z z)). rewrite mrsr2_loop_sc. destruct (mrsr2_loop _ _ _ _ _ _); reflexivity.
Qed.
End S.
End C.
