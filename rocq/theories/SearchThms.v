(** The search for the number of neurons (C33-C35; reals). *)
From Coq Require Import Reals Lra.
From Verif Require Import Base Num Search MatFacts.
#[local] Existing Instance NumR.
Local Open Scope Z_scope.

(** entry i of the table of errors *)
Definition at_ (e : list R) (i : Z) : R := nth (Z.to_nat i) e 0%R.

Lemma zget_in : forall (e : list R) i, 0 <= i < Z.of_nat (length e) -> @zget NumR e i = Ok (at_ e i).
Proof.
  intros e i H. unfold zget. destruct (Z.ltb_spec i 0); [lia|]. cbn [num NumR] in *.
  destruct (Z.leb_spec 0 i); [|lia]. destruct (Z.ltb_spec i (Z.of_nat (length e))); [|lia]. reflexivity.
Qed.
Lemma list_upd_length : forall {A} (l : list A) i x, length (list_upd l i x) = length l.
Proof. induction l; intros [|i] x; cbn; auto. Qed.
Lemma nth_list_upd : forall {A} (l : list A) i j x d, (i < length l)%nat ->
  nth j (list_upd l i x) d = if (j =? i)%nat then x else nth j l d.
Proof.
  induction l as [|a l IH]; intros i j x d H; cbn in H; [lia|]. destruct i, j; cbn [list_upd nth Nat.eqb]; auto. apply IH. lia.
Qed.
Lemma zset_length : forall (e : list R) i v, length (@zset NumR e i v) = length e.
Proof. intros. unfold zset. apply list_upd_length. Qed.
Lemma at_zset : forall (e : list R) i j v, 0 <= i < Z.of_nat (length e) -> 0 <= j ->
  at_ (@zset NumR e i v) j = if j =? i then v else at_ e j.
Proof.
  intros e i j v Hi Hj. unfold zset, at_. destruct (Z.ltb_spec i 0); [lia|]. cbn [num NumR] in *. rewrite nth_list_upd by lia.
  destruct (Z.eqb_spec j i) as [->|Hne]; [now rewrite Nat.eqb_refl|].
  assert ((Z.to_nat j =? Z.to_nat i)%nat = false) as -> by (apply Nat.eqb_neq; lia). reflexivity.
Qed.

Lemma neqb_R : forall a b : R, @neqb NumR a b = true <-> a = b.
Proof. intros. change (@neqb NumR a b) with (Reqb a b). unfold Reqb. destruct (Req_EM_T a b); split; auto; discriminate. Qed.
Lemma neqb_R_false : forall a b : R, @neqb NumR a b = false <-> a <> b.
Proof. intros. change (@neqb NumR a b) with (Reqb a b). unfold Reqb. destruct (Req_EM_T a b); split; auto; try discriminate; contradiction. Qed.

Lemma nmin_R : forall a b : R, @nmin NumR a b = Rmin a b.
Proof.
  intros. unfold nmin. change (@nltb NumR b a) with (Rltb b a). unfold Rltb, Rmin.
  destruct (Rlt_dec b a), (Rle_dec a b); lra.
Qed.
Lemma min5_spec : forall a b c d e : R, let m := @min5 NumR a b c d e in
  (m <= a /\ m <= b /\ m <= c /\ m <= d /\ m <= e)%R /\ (m = a \/ m = b \/ m = c \/ m = d \/ m = e).
Proof.
  assert (forall a b : R, (@nmin NumR a b <= a /\ @nmin NumR a b <= b)%R /\ (@nmin NumR a b = a \/ @nmin NumR a b = b)) as N.
  { intros a b. rewrite nmin_R. split; [split; [apply Rmin_l|apply Rmin_r]|]. unfold Rmin. destruct (Rle_dec a b); auto. }
  intros a b c d e m. unfold min5 in m.
  pose proof (N b a) as N1. set (m1 := @nmin NumR b a) in *. pose proof (N c m1) as N2. set (m2 := @nmin NumR c m1) in *.
  pose proof (N d m2) as N3. set (m3 := @nmin NumR d m2) in *. pose proof (N e m3) as N4. fold m in N4. clearbody m1 m2 m3 m.
  cbn [num NumR] in *. split; [repeat split; lra|].
  destruct N4 as [_ [->| ->]]; auto. destruct N3 as [_ [->| ->]]; auto. destruct N2 as [_ [->| ->]]; auto. destruct N1 as [_ [->| ->]]; auto 6.
Qed.

(** the bounds of the four-way split *)
Lemma quarter_bounds : forall l, (0 <= l -> 0 <= l / 4 <= l /\ 0 <= (3 * l) / 4 <= l) /\ (l <= 0 -> l <= l / 4 <= 0 /\ l <= (3 * l) / 4 <= 0).
Proof.
  intros l. pose proof (Z.div_mod l 4 ltac:(lia)). pose proof (Z.mod_pos_bound l 4 ltac:(lia)).
  pose proof (Z.div_mod (3 * l) 4 ltac:(lia)). pose proof (Z.mod_pos_bound (3 * l) 4 ltac:(lia)). lia.
Qed.

Definition width (l c : Z) : Z := Z.max l c - Z.min 0 c.
Definition mrank (l c : Z) : Z := if c =? 0 then 1 else if c =? l then 2 else if (0 <? c) && (c <? l) then 0 else 3.
Definition measure (l c : Z) : Z := 4 * width l c + mrank l c.

Ltac quarters l := let q := fresh "q" in let p := fresh "p" in
  pose proof (Z.div_mod l 4 ltac:(lia)); pose proof (Z.mod_pos_bound l 4 ltac:(lia));
  pose proof (Z.div_mod (3 * l) 4 ltac:(lia)); pose proof (Z.mod_pos_bound (3 * l) 4 ltac:(lia));
  set (q := l / 4) in *; set (p := (3 * l) / 4) in *; clearbody q p.

Lemma measure_nonneg : forall l c, 0 <= l -> 0 <= measure l c.
Proof.
  intros l c H. unfold measure, width, mrank.
  repeat match goal with |- context [?a =? ?b] => destruct (Z.eqb_spec a b) | |- context [?a <? ?b] => destruct (Z.ltb_spec a b) end; cbn [andb]; lia.
Qed.
Ltac mcases := repeat match goal with |- context [?a =? ?b] => destruct (Z.eqb_spec a b) | |- context [?a <? ?b] => destruct (Z.ltb_spec a b) end; cbn [andb]; try lia.
Lemma measure_dec1 : forall l c, 2 < l -> 2 < c -> measure c (l / 4) < measure l c.
Proof. intros l c H1 H2. quarters l. unfold measure, width, mrank. mcases. Qed.
Lemma measure_dec2 : forall l c, 2 < l -> 2 < l - c -> measure (l - c) ((3 * l) / 4 - c) < measure l c.
Proof. intros l c H1 H2. quarters l. unfold measure, width, mrank. mcases. Qed.
Lemma measure_dec3 : forall l c, 2 < l -> 2 < (3 * l) / 4 - l / 4 -> measure ((3 * l) / 4 - l / 4) (c - l / 4) < measure l c.
Proof. intros l c H1 H2. quarters l. unfold measure, width, mrank. mcases. Qed.

Section Landscape.
Context (ev : Z -> res R) (lo L : Z) (eL : R) (n : nat).
Context (Hlo : 0 <= lo) (HL : L < Z.of_nat n).

(** [v] is an error recorded for size [i] *)
Definition recorded (i : Z) (v : R) : Prop := lo <= i <= L /\ (i = L /\ v = eL \/ ev i = Ok v).
Definition known (t : list R) (i : Z) : Prop := at_ t i <> (-1)%R.
Definition table_ok (t : list R) : Prop :=
  length t = n /\ forall i, 0 <= i < Z.of_nat n -> known t i -> recorded i (at_ t i).
Definition inside (i : Z) : Prop := lo <= i <= L.
Definition positive : Prop := forall i v, recorded i v -> (0 <= v)%R.

(** [t'] has everything [t] has, and is complete on the points *)
Definition extends (t t' : list R) : Prop := forall i, 0 <= i < Z.of_nat n -> known t i -> at_ t' i = at_ t i.

Lemma minus1_R : @minus1 NumR = (-1)%R.
Proof. unfold minus1. cbn. reflexivity. Qed.

Lemma eval_points_spec : forall pts t, Forall inside pts -> table_ok t ->
  (exists t', @eval_points NumR ev t pts = Ok t' /\ table_ok t' /\ extends t t' /\
     (forall i, In i pts -> known t' i \/ ev i = Ok (-1)%R) /\
     (forall i, 0 <= i < Z.of_nat n -> known t' i -> known t i \/ In i pts)) \/
  (exists x i, inside i /\ ev i = Err x /\ @eval_points NumR ev t pts = Err x).
Proof.
  induction pts as [|i pts IH]; intros t HF Ht.
  - left. exists t. cbn. split; [auto|]. split; [auto|]. split; [intros i _ _; reflexivity|]. split; [tauto|]. auto.
  - apply Forall_cons_iff in HF as [Hi HF]. pose proof Ht as [Hlen Hrec]. unfold inside in Hi.
    cbn [eval_points]. rewrite zget_in by (rewrite Hlen; lia). cbn [rbind].
    destruct (@neqb NumR (at_ t i) minus1) eqn:E.
    + apply neqb_R in E. rewrite minus1_R in E. destruct (ev i) as [v|x] eqn:Ev.
      * cbn [rbind]. set (t1 := @zset NumR t i v).
        assert (forall j, 0 <= j -> at_ t1 j = if j =? i then v else at_ t j) as A1 by (intros; apply at_zset; rewrite ?Hlen; lia).
        assert (table_ok t1) as Ht1.
        { split; [unfold t1; rewrite zset_length; auto|]. intros j Hj. unfold known. rewrite A1 by lia.
          destruct (Z.eqb_spec j i) as [->|Hne]; [intros _; split; [lia|auto]|]. apply Hrec. lia. }
        destruct (IH t1 HF Ht1) as [(t' & E' & Hok & Hext & Hin & Hnew)|(x & j & Hj & Ej & E')].
        -- left. exists t'. split; [exact E'|]. split; [auto|]. split; [|split].
           ++ intros j Hj Hk. assert (j <> i) as Hne by (intros ->; apply Hk; exact E).
              rewrite <- (Z.eqb_neq j i) in Hne. specialize (A1 j ltac:(lia)). rewrite Hne in A1. rewrite <- A1. apply Hext; [lia|].
              unfold known. now rewrite A1.
           ++ intros j [<-|Hj]; [|auto]. destruct (Req_EM_T v (-1)) as [->|Hv]; [auto|]. left.
              assert (at_ t1 i = v) as Ai by (rewrite A1 by lia; now rewrite Z.eqb_refl).
              unfold known. rewrite Hext; [now rewrite Ai|lia|unfold known; now rewrite Ai].
           ++ intros j Hj Hk. destruct (Hnew j Hj Hk) as [Hk1|]; [|right; right; auto].
              unfold known in Hk1. rewrite A1 in Hk1 by lia. destruct (Z.eqb_spec j i) as [->|]; [right; left; auto|left; exact Hk1].
        -- right. exists x, j. auto.
      * right. exists x, i. split; [auto|]. split; [auto|]. reflexivity.
    + apply neqb_R_false in E. rewrite minus1_R in E.
      destruct (IH t HF Ht) as [(t' & E' & Hok & Hext & Hin & Hnew)|(x & j & Hj & Ej & E')].
      * left. exists t'. split; [exact E'|]. split; [auto|]. split; [auto|]. split.
        -- intros j [<-|Hj]; [|auto]. left. unfold known. rewrite Hext by (auto; lia). exact E.
        -- intros j Hj Hk. destruct (Hnew j Hj Hk); [auto|right; right; auto].
      * right. exists x, j. auto.
Qed.

Definition five (iA iC l : Z) : list Z := [iA; iA + l / 4; iC; iA + (3 * l) / 4; iA + l].
Definition five_of (iA iC iE : Z) : list Z := five iA iC (iE - iA).

Lemma five_inside : forall iA iC iE, inside iA -> inside iC -> inside iE ->
  Forall inside [iA; iA + (iE - iA) / 4; iC; iA + (3 * (iE - iA)) / 4; iE].
Proof.
  intros iA iC iE HA HC HE. pose proof (quarter_bounds (iE - iA)) as [H1 H2]. unfold inside in *.
  assert (lo <= iA + (iE - iA) / 4 <= L /\ lo <= iA + (3 * (iE - iA)) / 4 <= L) as [HB HD].
  { destruct (Z.le_ge_cases 0 (iE - iA)) as [C|C]; [specialize (H1 C)|specialize (H2 C)]; lia. }
  repeat (apply Forall_cons; [assumption|]). apply Forall_nil.
Qed.

Definition enough (fuel : nat) (l c : Z) : Prop :=
  if 2 <? l then measure l c < Z.of_nat fuel else (0 < fuel)%nat /\ 0 <= l /\ 0 <= c <= l.

Lemma first_match : forall (f : Z -> R) m pts, (exists p, In p pts /\ f p = m) ->
  exists p r, filter (fun iv : Z * R => @neqb NumR (snd iv) m) (map (fun i => (i, f i)) pts) = (p, f p) :: r /\ In p pts /\ f p = m.
Proof.
  intros f m pts. induction pts as [|q pts IH]; intros (p & Hp & Hf); [contradiction|].
  cbn [map filter snd]. destruct (@neqb NumR (f q) m) eqn:E.
  - apply neqb_R in E. exists q. eexists. split; [reflexivity|]. split; [left; auto|auto].
  - apply neqb_R_false in E. destruct Hp as [->|Hp]; [contradiction|]. destruct IH as (p' & r & H1 & H2 & H3); [eauto|].
    exists p', r. split; [auto|]. split; [right; auto|auto].
Qed.

(** every recorded error is at least the smallest at the five points *)
Definition dominated (t : list R) (pts : list Z) : Prop :=
  positive -> forall i, 0 <= i < Z.of_nat n -> known t i -> exists p, In p pts /\ known t p /\ (at_ t p <= at_ t i)%R.

Lemma search_spec : forall fuel iA iC iE t, inside iA -> inside iC -> inside iE -> table_ok t ->
  let l := iE - iA in
  dominated t [iA; iA + l / 4; iC; iA + (3 * l) / 4; iE] -> enough fuel l (iC - iA) ->
  (exists m k t', @search NumR fuel ev t iA (iA + l / 4) iC (iA + (3 * l) / 4) iE = Ok (m, k, t') /\
     inside k /\ at_ t' k = m /\ table_ok t' /\ extends t t' /\
     (forall i, In i [iA; iA + l / 4; iC; iA + (3 * l) / 4; iE] -> known t' i \/ ev i = Ok (-1)%R) /\
     (positive -> known t' k /\ forall i, 0 <= i < Z.of_nat n -> known t' i -> (m <= at_ t' i)%R)) \/
  (exists x i, inside i /\ ev i = Err x /\ @search NumR fuel ev t iA (iA + l / 4) iC (iA + (3 * l) / 4) iE = Err x).
Proof.
  induction fuel as [|fuel IH]; intros iA iC iE t HA HC HE Ht l Hdom Hfuel.
  { unfold enough in Hfuel. destruct (2 <? l) eqn:E; [|destruct Hfuel; lia].
    apply Z.ltb_lt in E. pose proof (measure_nonneg l (iC - iA) ltac:(lia)). lia. }
  pose proof (five_inside iA iC iE HA HC HE) as HF. fold l in HF.
  set (iB := iA + l / 4) in *. set (iD := iA + (3 * l) / 4) in *.
  cbn [search]. destruct (eval_points_spec [iA; iB; iC; iD; iE] t HF Ht) as [(t1 & E1 & Ht1 & Hext & Hin & Hnew)|(x & i & Hi & Ei & E1)].
  2:{ right. exists x, i. split; [auto|]. split; [auto|]. cbn [num NumR] in *. rewrite E1. reflexivity. }
  cbn [num NumR] in E1 |- *. rewrite E1. cbn [rbind].
  assert (inside iB) as HB by (eapply Forall_forall; [apply (five_inside iA iC iE HA HC HE)|cbn [In]; auto]).
  assert (inside iD) as HD by (eapply Forall_forall; [apply (five_inside iA iC iE HA HC HE)|cbn [In]; auto]).
  assert (forall i, inside i -> @zget NumR t1 i = Ok (at_ t1 i)) as G.
  { intros i Hi. apply zget_in. destruct Ht1 as [Hl _]. rewrite Hl. unfold inside in Hi. lia. }
  pose proof (G iA HA) as GA. pose proof (G iB HB) as GB. pose proof (G iC HC) as GC. pose proof (G iD HD) as GD. pose proof (G iE HE) as GE.
  cbn [num NumR] in *. rewrite GA, GB, GC, GD, GE. cbn [rbind].
  pose proof (min5_spec (at_ t1 iA) (at_ t1 iB) (at_ t1 iC) (at_ t1 iD) (at_ t1 iE)) as [Hmin Hone].
  set (m := @min5 NumR (at_ t1 iA) (at_ t1 iB) (at_ t1 iC) (at_ t1 iD) (at_ t1 iE)) in *.
  assert (positive -> forall i, 0 <= i < Z.of_nat n -> known t1 i -> (m <= at_ t1 i)%R) as Hdom1.
  { intros Hp i Hi Hk. destruct (Hnew i Hi Hk) as [Hk0|Hk0].
    - destruct (Hdom Hp i Hi Hk0) as (p & Hp1 & Hp2 & Hp3).
      assert (inside p) as Hpi by (eapply Forall_forall; [exact HF|exact Hp1]). unfold inside in Hpi.
      rewrite (Hext i Hi Hk0). rewrite <- (Hext p ltac:(lia) Hp2) in Hp3.
      cbn [In] in Hp1. destruct Hp1 as [<-|[<-|[<-|[<-|[<-|[]]]]]]; lra.
    - cbn [In] in Hk0. destruct Hk0 as [<-|[<-|[<-|[<-|[<-|[]]]]]]; lra. }
  assert (exists p, In p [iA; iB; iC; iD; iE] /\ at_ t1 p = m) as HW.
  { cbn [In]. destruct Hone as [H|[H|[H|[H|H]]]]; eexists; (split; [|symmetry; exact H]); tauto. }
  assert (positive -> m <> (-1)%R) as Hm1.
  { intros Hp. destruct HW as (p & Hp1 & Hp2). destruct (Hin p Hp1) as [Hk|Hk].
    - rewrite <- Hp2. exact Hk.
    - exfalso. assert (recorded p (-1)%R) as Hr by (split; [eapply Forall_forall in HF; [exact HF|exact Hp1]|auto]). specialize (Hp _ _ Hr). lra. }
  (** the three cases *)
  assert (exists jA jC jE, (if @neqb NumR m (at_ t1 iA) || @neqb NumR m (at_ t1 iB) then (iA, iB, iC)
      else if @neqb NumR m (at_ t1 iD) || @neqb NumR m (at_ t1 iE) then (iC, iD, iE) else (iB, iC, iD)) = (jA, jC, jE) /\ inside jA /\ inside jC /\ inside jE /\
      (at_ t1 jA = m \/ at_ t1 jC = m \/ at_ t1 jE = m \/ at_ t1 (jA + (jE - jA) / 4) = m) /\
      (2 < jE - jA -> 2 < l /\ measure (jE - jA) (jC - jA) < measure l (iC - iA))) as (jA & jC & jE & Eu & HjA & HjC & HjE & Hm & Hdec).
  { assert (~ 2 < l -> 0 <= l /\ 0 <= iC - iA <= l) as Hsmall.
    { intros Hl. unfold enough in Hfuel. destruct (Z.ltb_spec 2 l); [lia|]. tauto. }
    destruct (@neqb NumR m (at_ t1 iA) || @neqb NumR m (at_ t1 iB)) eqn:C1.
    - exists iA, iB, iC. split; [reflexivity|]. split; [auto|]. split; [auto|]. split; [auto|]. split.
      + apply orb_true_iff in C1 as [C|C]; apply neqb_R in C; auto.
      + intros Hl. destruct (Z.lt_ge_cases 2 l) as [H2|H2]; [|exfalso; destruct Hsmall; lia].
        split; [auto|]. replace (iB - iA) with (l / 4) by (unfold iB; lia). apply measure_dec1; lia.
    - destruct (@neqb NumR m (at_ t1 iD) || @neqb NumR m (at_ t1 iE)) eqn:C2.
      + exists iC, iD, iE. split; [reflexivity|]. split; [auto|]. split; [auto|]. split; [auto|]. split.
        * apply orb_true_iff in C2 as [C|C]; apply neqb_R in C; auto.
        * intros Hl. destruct (Z.lt_ge_cases 2 l) as [H2|H2]; [|exfalso; destruct Hsmall; unfold l in *; lia].
          split; [auto|]. replace (iD - iC) with ((3 * l) / 4 - (iC - iA)) by (unfold iD; lia).
          replace (iE - iC) with (l - (iC - iA)) by (unfold l; lia). apply measure_dec2; unfold l in *; lia.
      + exists iB, iC, iD. split; [reflexivity|]. split; [auto|]. split; [auto|]. split; [auto|].
        apply orb_false_iff in C1 as [C1 C1']. apply orb_false_iff in C2 as [C2 C2']. apply neqb_R_false in C1, C1', C2, C2'. split.
        * destruct Hone as [H|[H|[H|[H|H]]]]; try contradiction. auto.
        * intros Hl. replace (iD - iB) with ((3 * l) / 4 - l / 4) in * by (unfold iB, iD; lia).
          destruct (Z.lt_ge_cases 2 l) as [H2|H2].
          -- split; [auto|]. replace (iC - iB) with (iC - iA - l / 4) by (unfold iB; lia). apply measure_dec3; lia.
          -- exfalso. destruct Hsmall; [lia|]. pose proof (quarter_bounds l) as [Q _]. specialize (Q ltac:(lia)). lia. }
  rewrite Eu. set (l' := jE - jA) in *.
  assert (forall iX, In iX [jA; jA + l' / 4; jC; jA + (3 * l') / 4; jE] -> inside iX) as HjF.
  { intros iX HX. pose proof (five_inside jA jC jE HjA HjC HjE) as F. eapply Forall_forall; [exact F|exact HX]. }
  assert (exists p, In p [jA; jA + l' / 4; jC; jA + (3 * l') / 4; jE] /\ at_ t1 p = m) as HW'.
  { cbn [In]. destruct Hm as [H|[H|[H|H]]]; eexists; (split; [|exact H]); tauto. }
  destruct (2 <? l') eqn:El.
  - apply Z.ltb_lt in El. destruct (Hdec El) as [Hl Hms].
    destruct (IH jA jC jE t1 HjA HjC HjE Ht1) as [(m' & k & t' & E' & Hk & Hat & Hok & Hx & Hin' & Hpos)|(x & i & Hi & Ei & E')].
    + intros Hp i Hi Hk. destruct HW' as (p & Hp1 & Hp2). exists p. split; [exact Hp1|]. split.
      * unfold known. rewrite Hp2. auto.
      * rewrite Hp2. auto.
    + unfold enough. fold l'. destruct (Z.ltb_spec 2 l'); [|lia]. unfold enough in Hfuel. destruct (Z.ltb_spec 2 l); lia.
    + left. exists m', k, t'. split; [exact E'|]. split; [auto|]. split; [auto|]. split; [auto|]. split; [|split; [|auto]].
      * intros i Hi Hkn. assert (known t1 i) as K1 by (unfold known; rewrite Hext by auto; exact Hkn).
        rewrite Hx by auto. now apply Hext.
      * intros i Hi. destruct (Hin i Hi) as [K1|]; [left|auto]. unfold known. rewrite Hx; auto.
        eapply Forall_forall in HF; [|exact Hi]. unfold inside in HF. lia.
    + right. exists x, i. split; [auto|]. split; [auto|]. exact E'.
  - destruct (first_match (at_ t1) m [jA; jA + l' / 4; jC; jA + (3 * l') / 4; jE] HW') as (k & r & Ek & Hk & Hat).
    left. exists m, k, t1. split.
    + rewrite (mapM_ok_map _ (fun i => (i, at_ t1 i))).
      * cbn [rbind]. cbn [num NumR] in *. rewrite Ek. reflexivity.
      * intros i Hi. pose proof (G i (HjF i Hi)) as Gi. cbn [num NumR] in *. rewrite Gi. reflexivity.
    + split; [auto|]. split; [auto|]. split; [auto|]. split; [auto|]. split; [auto|].
      intros Hp. split; [unfold known; rewrite Hat; auto|auto].
Qed.
End Landscape.

Lemma init_table_at : forall size L eL i, (0 <= L <= Z.of_nat size) -> 0 <= i <= Z.of_nat size ->
  at_ (@init_table NumR size L eL) i = if i =? L then eL else (-1)%R.
Proof.
  intros size L eL i HL Hi. unfold init_table. rewrite at_zset; rewrite ?repeat_length; try lia.
  destruct (i =? L); auto. unfold at_. pose proof (minus1_R) as E. cbn [num NumR] in *. rewrite E.
  assert (In (nth (Z.to_nat i) (repeat (-1)%R (S size)) 0%R) (repeat (-1)%R (S size))) as H by (apply nth_In; rewrite repeat_length; lia).
  now apply repeat_spec in H.
Qed.
Lemma init_table_length : forall size L eL, length (@init_table NumR size L eL) = S size.
Proof. intros. unfold init_table. rewrite zset_length. apply repeat_length. Qed.

Theorem search_from_spec : forall (ev : Z -> res R) lo L eL size, 0 <= lo -> lo <= L -> L <= Z.of_nat size ->
  (exists m k t, @search_from NumR ev (@init_table NumR size L eL) lo L = Ok (m, k, t) /\ lo <= k <= L /\ at_ t k = m /\
     (forall i, 0 <= i <= Z.of_nat size -> known t i -> recorded ev lo L eL i (at_ t i)) /\
     (positive ev lo L eL -> recorded ev lo L eL k m /\ known t lo /\ known t L /\ at_ t L = eL /\
        forall i, 0 <= i <= Z.of_nat size -> known t i -> (m <= at_ t i)%R)) \/
  (exists x i, lo <= i <= L /\ ev i = Err x /\ @search_from NumR ev (@init_table NumR size L eL) lo L = Err x).
Proof.
  intros ev lo L eL size H0 H1 H2. unfold search_from. set (l := L - lo).
  set (t0 := @init_table NumR size L eL).
  assert (forall i, 0 <= i <= Z.of_nat size -> at_ t0 i = if i =? L then eL else (-1)%R) as A0 by (intros; apply init_table_at; lia).
  assert (table_ok ev lo L eL (S size) t0) as Ht0.
  { split; [apply init_table_length|]. intros i Hi. unfold known. rewrite A0 by lia. destruct (Z.eqb_spec i L) as [->|]; [|congruence].
    intros _. split; [lia|auto]. }
  assert (0 <= l / 2 <= l) as Hc.
  { pose proof (Z.div_mod l 2 ltac:(lia)). pose proof (Z.mod_pos_bound l 2 ltac:(lia)). unfold l in *. lia. }
  destruct (search_spec ev lo L eL (S size) H0 ltac:(lia) (search_fuel lo L) lo (lo + l / 2) L t0) as
    [(m & k & t & E & Hk & Hat & Hok & Hx & Hin & Hpos)|(x & i & Hi & Ei & E)]; try (unfold inside; lia); auto.
  - intros Hp i Hi Hk. exists L. split; [cbn [In]; auto 6|]. unfold known in *. rewrite (A0 L), Z.eqb_refl by lia. split.
    + assert (recorded ev lo L eL L eL) as Hr by (split; [lia|auto]). specialize (Hp _ _ Hr). lra.
    + rewrite A0 in * by lia. destruct (i =? L); lra.
  - fold l. unfold enough. replace (lo + l / 2 - lo) with (l / 2) by lia. destruct (Z.ltb_spec 2 l).
    + unfold search_fuel, measure, width, mrank. mcases.
    + split; [unfold search_fuel; lia|]. split; [unfold l; lia|auto].
  - left. exists m, k, t. split; [exact E|]. split; [exact Hk|]. split; [auto|]. destruct Hok as [Hlen Hrec]. split; [intros; apply Hrec; auto; lia|].
    intros Hp. destruct (Hpos Hp) as [Hkk Hle]. unfold inside in Hk. split; [|split; [|split; [|split]]].
    + rewrite <- Hat. apply Hrec; auto. lia.
    + destruct (Hin lo) as [|Hb]; [cbn [In]; auto|auto|]. exfalso. assert (recorded ev lo L eL lo (-1)%R) as Hr by (split; [lia|auto]). specialize (Hp _ _ Hr). lra.
    + destruct (Hin L) as [|Hb]; [cbn [In]; auto 6|auto|]. exfalso. assert (recorded ev lo L eL L (-1)%R) as Hr by (split; [lia|auto]). specialize (Hp _ _ Hr). lra.
    + rewrite Hx; [rewrite A0, Z.eqb_refl by lia; auto|lia|]. unfold known. rewrite A0, Z.eqb_refl by lia.
      assert (recorded ev lo L eL L eL) as Hr by (split; [lia|auto]). specialize (Hp _ _ Hr). lra.
    + intros; apply Hle; auto. lia.
  - right. exists x, i. split; [exact Hi|]. split; [auto|]. exact E.
Qed.

(** C35: fewer ranked neurons than the lower limit *)
Theorem search_from_small : forall {K : Num} (ev : Z -> res num) eL L, 0 <= L < 3 ->
  search_from ev (init_table (Z.to_nat L) L eL) 3 L = Err IndexError.
Proof.
  intros K ev eL L H. unfold search_from. set (l := L - 3). unfold search_fuel. set (f := Z.to_nat _).
  destruct f as [|g] eqn:Ef; [exfalso; subst f; lia|]. cbn [search eval_points].
  assert (zget (init_table (Z.to_nat L) L eL) 3 = Err IndexError) as ->; [|reflexivity].
  unfold zget, init_table, zset. rewrite list_upd_length, repeat_length. destruct (Z.ltb_spec 3 0); [lia|].
  destruct (Z.leb_spec 0 3); [|lia]. cbn [andb]. destruct (Z.ltb_spec 3 (Z.of_nat (S (Z.to_nat L)))); [lia|]. reflexivity.
Qed.
