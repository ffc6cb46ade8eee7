(** The progress reports of HPELM (hp_elm.py:147-164, 216-233, 274-291, 433-450; the same
    lines in each loop over batches; for 525-547 and 585-607 see [progress_async]).  Times are rationals; [clk n] is the
    n-th reading of time() in the call.  Division of times is exact (Python: binary64). *)
From Coq Require Import QArith Qround.
From Verif Require Import Base.
Local Open Scope Z_scope.

(** what is printed: "processing batch b/nb, eta h:mm:ss" *)
Record line := mkLine { l_b : Z; l_nb : Z; l_h : Z; l_m : Z; l_s : Z }.

(** int(x): towards zero *)
Definition q_int (x : Q) : Z := if Qle_bool 0 x then Qfloor x else Qceiling x.

(** hp_elm.py:161 *)
Definition eta_at (elapsed : Q) (done total : Z) : Z :=
  q_int (elapsed / inject_Z done * inject_Z (total - done)).
(** hp_elm.py:163: "%d" of a float cuts off the fraction *)
Definition line_at (eta done total : Z) : line :=
  mkLine done total (Z.quot eta 3600) (Z.quot (eta mod 3600) 60) (eta mod 60).

(** the loop: [left] batches to go, [b] done before, [i] readings taken, [t] time of the
    last report; one entry for every batch *)
Fixpoint reports (clk : nat -> Q) (tprint : Q) (nb : nat) (left b i : nat) (t t0 : Q) : list (option line) :=
  match left with
  | O => []
  | S left' =>
    let eta := eta_at (clk i - t0) (Z.of_nat (S b)) (Z.of_nat nb) in
    if Qlt_le_dec tprint (clk (S i) - t)
    then Some (line_at eta (Z.of_nat (S b)) (Z.of_nat nb)) :: reports clk tprint nb left' (S b) (S (S (S i))) (clk (S (S i))) t0
    else None :: reports clk tprint nb left' (S b) (S (S i)) t t0
  end.
Definition progress (clk : nat -> Q) (tprint : Q) (nb : nat) : list (option line) :=
  reports clk tprint nb nb 0 2 (clk 0%nat) (clk 1%nat).

(** ** specification *)
(** the text for [done] of [total] batches after [elapsed] seconds: the time still needed
    when every batch takes as long as the average one so far, in whole seconds *)
Definition shows (l : line) (done total : nat) (elapsed : Q) : Prop :=
  l_b l = Z.of_nat done /\ l_nb l = Z.of_nat total /\
  0 <= l_h l /\ 0 <= l_m l < 60 /\ 0 <= l_s l < 60 /\
  l_h l * 3600 + l_m l * 60 + l_s l = Qfloor (elapsed * inject_Z (Z.of_nat total - Z.of_nat done) / inject_Z (Z.of_nat done)).

(** the clock does not go back *)
Definition forward (clk : nat -> Q) : Prop := forall i, (clk i <= clk (S i))%Q.
Lemma forward_le : forall clk, forward clk -> forall i j, (i <= j)%nat -> (clk i <= clk j)%Q.
Proof. intros clk H i j Hij. induction Hij; [apply Qle_refl|]. eapply Qle_trans; [exact IHHij|apply H]. Qed.

Lemma hms : forall e, 0 <= e -> let h := Z.quot e 3600 in let m := Z.quot (e mod 3600) 60 in let s := e mod 60 in
  0 <= h /\ 0 <= m < 60 /\ 0 <= s < 60 /\ h * 3600 + m * 60 + s = e.
Proof.
  intros e He h m s. unfold h, m, s. pose proof (Z.mod_pos_bound e 3600 ltac:(lia)) as B1. pose proof (Z.mod_pos_bound e 60 ltac:(lia)) as B2.
  rewrite !Z.quot_div_nonneg by lia. pose proof (Z.div_mod e 3600 ltac:(lia)) as D1. pose proof (Z.div_mod (e mod 3600) 60 ltac:(lia)) as D2.
  assert ((e mod 3600) mod 60 = e mod 60) as E3.
  { rewrite D1 at 2. replace (3600 * (e / 3600) + e mod 3600) with (e mod 3600 + (60 * (e / 3600)) * 60) by ring. now rewrite Z_mod_plus_full. }
  pose proof (Z.div_pos e 3600 He ltac:(lia)). pose proof (Z.div_pos (e mod 3600) 60 ltac:(lia) ltac:(lia)).
  assert (e mod 3600 / 60 < 60) by (apply Z.div_lt_upper_bound; lia). lia.
Qed.

Lemma shows_line : forall elapsed done total, (0 <= elapsed)%Q -> (1 <= done <= total)%nat ->
  shows (line_at (eta_at elapsed (Z.of_nat done) (Z.of_nat total)) (Z.of_nat done) (Z.of_nat total)) done total elapsed.
Proof.
  intros elapsed done total He Hd. unfold shows, line_at. cbn [l_b l_nb l_h l_m l_s]. split; [reflexivity|]. split; [reflexivity|].
  assert (0 < inject_Z (Z.of_nat done))%Q as Pd by (change 0%Q with (inject_Z 0); rewrite <- Zlt_Qlt; lia).
  assert (0 <= inject_Z (Z.of_nat total - Z.of_nat done))%Q as Pt by (change 0%Q with (inject_Z 0); rewrite <- Zle_Qle; lia).
  assert (0 <= elapsed / inject_Z (Z.of_nat done) * inject_Z (Z.of_nat total - Z.of_nat done))%Q as P.
  { apply Qmult_le_0_compat; [|exact Pt]. apply Qle_shift_div_l; [exact Pd|]. rewrite Qmult_0_l. exact He. }
  assert (eta_at elapsed (Z.of_nat done) (Z.of_nat total) = Qfloor (elapsed * inject_Z (Z.of_nat total - Z.of_nat done) / inject_Z (Z.of_nat done))) as E.
  { unfold eta_at, q_int. rewrite (proj2 (Qle_bool_iff _ _) P). apply Qfloor_comp. field. intros C. rewrite C in Pd. discriminate. }
  rewrite E. set (f := Qfloor _). assert (0 <= f) as Hf.
  { unfold f. rewrite <- E. unfold eta_at, q_int. rewrite (proj2 (Qle_bool_iff _ _) P). change 0 with (Qfloor 0). apply Qfloor_resp_le. exact P. }
  destruct (hms f Hf) as (A & B & C & D). auto.
Qed.

(** one step after another: what the reports of the batches [b+1 .. nb] are, given the time
    [t] of the last report *)
Fixpoint as_documented (clk : nat -> Q) (tprint : Q) (nb b i : nat) (t t0 : Q) (rs : list (option line)) : Prop :=
  match rs with
  | [] => b = nb
  | None :: rs' => (clk (S i) - t <= tprint)%Q /\ as_documented clk tprint nb (S b) (S (S i)) t t0 rs'
  | Some l :: rs' => (tprint < clk (S i) - t)%Q /\ shows l (S b) nb (clk i - t0) /\
                     as_documented clk tprint nb (S b) (S (S (S i))) (clk (S (S i))) t0 rs'
  end.

Lemma reports_ok : forall clk tprint nb, forward clk -> forall left b i t t0, (b + left = nb)%nat -> (t0 <= clk i)%Q ->
  as_documented clk tprint nb b i t t0 (reports clk tprint nb left b i t t0).
Proof.
  intros clk tprint nb HC. induction left as [|left IH]; intros b i t t0 Hb Ht; [cbn; lia|].
  cbn [reports]. destruct (Qlt_le_dec tprint (clk (S i) - t)) as [Hlt|Hle]; cbn [as_documented].
  - split; [exact Hlt|]. split; [|apply IH; [lia|]].
    + apply shows_line; [|lia]. apply (proj1 (Qle_minus_iff _ _)). exact Ht.
    + eapply Qle_trans; [exact Ht|]. apply forward_le; [exact HC|lia].
  - split; [exact Hle|]. apply IH; [lia|]. eapply Qle_trans; [exact Ht|]. apply forward_le; [exact HC|lia].
Qed.

Lemma reports_length : forall clk tprint nb left b i t t0, length (reports clk tprint nb left b i t t0) = left.
Proof. intros clk tprint nb. induction left as [|left IH]; intros; [reflexivity|]. cbn [reports]. destruct (Qlt_le_dec _ _); cbn; now rewrite IH. Qed.

Theorem progress_documented : forall clk tprint nb, forward clk ->
  length (progress clk tprint nb) = nb /\ as_documented clk tprint nb 0 2 (clk 0%nat) (clk 1%nat) (progress clk tprint nb).
Proof.
  intros clk tprint nb HC. split; [apply reports_length|]. apply reports_ok; [exact HC|lia|apply HC].
Qed.

(** the lines in order *)
Lemma documented_nth : forall clk tprint nb, forward clk -> forall rs b i t t0 k l, (t0 <= clk i)%Q -> as_documented clk tprint nb b i t t0 rs ->
  nth_error rs k = Some (Some l) -> exists elapsed, (0 <= elapsed)%Q /\ shows l (S (b + k)) nb elapsed.
Proof.
  intros clk tprint nb HC. induction rs as [|[l0|] rs IH]; intros b i t t0 k l Ht HD E; [destruct k; discriminate| |].
  - destruct HD as (_ & HS & HD). destruct k as [|k].
    + injection E as <-. exists (clk i - t0)%Q. rewrite Nat.add_0_r. split; [|exact HS]. apply (proj1 (Qle_minus_iff _ _)). exact Ht.
    + replace (S (b + S k)) with (S (S b + k)) by lia. refine (IH (S b) _ _ t0 k l _ HD E). eapply Qle_trans; [exact Ht|]. apply forward_le; [exact HC|lia].
  - destruct HD as (_ & HD). destruct k as [|k]; [discriminate|].
    replace (S (b + S k)) with (S (S b + k)) by lia. refine (IH (S b) _ _ t0 k l _ HD E). eapply Qle_trans; [exact Ht|]. apply forward_le; [exact HC|lia].
Qed.

(** the report after the last batch says 0:00:00 *)
Theorem progress_last : forall clk tprint nb l, forward clk -> nth_error (progress clk tprint nb) (nb - 1) = Some (Some l) ->
  l_h l = 0 /\ l_m l = 0 /\ l_s l = 0 /\ l_b l = l_nb l.
Proof.
  intros clk tprint nb l HC E. destruct (progress_documented clk tprint nb HC) as [HL HD].
  assert (nb - 1 < nb)%nat as Hn. { rewrite <- HL at 2. apply nth_error_Some. congruence. }
  destruct (documented_nth clk tprint nb HC _ _ _ _ _ _ _ (HC 1%nat) HD E) as (el & _ & H1 & H2 & H3 & H4 & H5 & H6).
  replace (S (0 + (nb - 1))) with nb in * by lia. rewrite Z.sub_diag in H6.
  assert (Qfloor (el * inject_Z 0 / inject_Z (Z.of_nat nb)) = 0) as E0.
  { change 0 with (Qfloor 0) at 2. apply Qfloor_comp. unfold Qdiv. setoid_rewrite Qmult_0_r. apply Qmult_0_l. }
  rewrite E0 in H6. lia.
Qed.

(** nothing is printed when the whole call takes no longer than tprint *)
Lemma reports_quiet : forall clk tprint nb T, forward clk -> forall left b i t t0,
  (forall j, clk j - t <= T)%Q -> (T <= tprint)%Q -> reports clk tprint nb left b i t t0 = repeat None left.
Proof.
  intros clk tprint nb T HC. induction left as [|left IH]; intros b i t t0 HT Hq; [reflexivity|]. cbn [reports repeat].
  destruct (Qlt_le_dec tprint (clk (S i) - t)) as [Hlt|Hle]; [|f_equal; auto].
  exfalso. specialize (HT (S i)). apply (Qlt_irrefl tprint). eapply Qlt_le_trans; [exact Hlt|]. eapply Qle_trans; eauto.
Qed.
Theorem progress_quiet : forall clk tprint nb T, forward clk -> (forall j, clk j - clk 0%nat <= T)%Q -> (T <= tprint)%Q ->
  progress clk tprint nb = repeat None nb.
Proof. intros. eapply reports_quiet; eauto. Qed.

(** witness: the clock is set back by two seconds during the call *)
Definition back_clock (i : nat) : Q := if (i =? 2)%nat then 98 else if (i <? 2)%nat then 100 else 110.
Lemma progress_back : progress back_clock 5 2 = [Some (mkLine 1 2 0 59 58); None].
Proof. vm_compute. reflexivity. Qed.

(** ** the asynchronous versions: "for b in xrange(0, nb+1)" (hp_elm.py:528, 587) *)
Definition progress_async (clk : nat -> Q) (tprint : Q) (nb : nat) : list (option line) :=
  reports clk tprint nb (S nb) 0 2 (clk 0%nat) (clk 1%nat).

(** all the lines of a run: line [k] has the numbers k+1 and nb, and an eta computed from
    the time of some reading *)
Lemma reports_nth : forall clk tprint nb, forward clk -> forall left b i t t0 k l, (t0 <= clk i)%Q ->
  nth_error (reports clk tprint nb left b i t t0) k = Some (Some l) ->
  exists j, (t0 <= clk j)%Q /\ l = line_at (eta_at (clk j - t0) (Z.of_nat (S (b + k))) (Z.of_nat nb)) (Z.of_nat (S (b + k))) (Z.of_nat nb).
Proof.
  intros clk tprint nb HC. induction left as [|left IH]; intros b i t t0 k l Ht E; [destruct k; discriminate|].
  cbn [reports] in E. destruct (Qlt_le_dec tprint (clk (S i) - t)) as [Hlt|Hle]; destruct k as [|k]; cbn [nth_error] in E.
  - injection E as <-. exists i. split; [exact Ht|]. rewrite Nat.add_0_r. reflexivity.
  - replace (S (b + S k)) with (S (S b + k)) by lia. refine (IH _ _ _ _ _ _ _ E). eapply Qle_trans; [exact Ht|]. apply forward_le; [exact HC|lia].
  - discriminate.
  - replace (S (b + S k)) with (S (S b + k)) by lia. refine (IH _ _ _ _ _ _ _ E). eapply Qle_trans; [exact Ht|]. apply forward_le; [exact HC|lia].
Qed.

(** how the negative number -k of seconds is printed *)
Lemma hms_neg : forall k, 1 <= k < 3600 -> let h := Z.quot (- k) 3600 in let m := Z.quot ((- k) mod 3600) 60 in let s := (- k) mod 60 in
  h = 0 /\ 0 <= m < 60 /\ 0 <= s < 60 /\ m * 60 + s = 3600 - k.
Proof.
  intros k Hk h m s. unfold h, m, s.
  assert ((- k) mod 3600 = 3600 - k) as E1 by (symmetry; apply (Z.mod_unique _ _ (-1)); lia).
  assert ((- k) mod 60 = (3600 - k) mod 60) as E2.
  { replace (3600 - k) with (- k + 60 * 60) by ring. now rewrite Z_mod_plus_full. }
  split. { apply Z.quot_small_iff; [lia|]. lia. }
  rewrite E1, E2. destruct (hms (3600 - k) ltac:(lia)) as (A & B & C & D).
  assert (Z.quot (3600 - k) 3600 = 0) as E0 by (apply Z.quot_small; lia). rewrite E0 in D.
  rewrite (Z.mod_small (3600 - k) 3600) in B, D by lia. lia.
Qed.

(** the last report says nb+1 of nb batches; if an iteration took k seconds on average,
    1 <= k < 3600, it shows a remaining time of one hour less k seconds *)
Theorem async_last : forall clk tprint nb l, forward clk -> nth_error (progress_async clk tprint nb) nb = Some (Some l) ->
  l_b l = Z.of_nat nb + 1 /\ l_nb l = Z.of_nat nb /\
  exists elapsed, (0 <= elapsed)%Q /\ (let k := Qfloor (elapsed / inject_Z (Z.of_nat nb + 1)) in
    1 <= k < 3600 -> l_h l = 0 /\ 0 <= l_m l < 60 /\ 0 <= l_s l < 60 /\ l_m l * 60 + l_s l = 3600 - k).
Proof.
  intros clk tprint nb l HC E. destruct (reports_nth clk tprint nb HC _ _ _ _ _ _ _ (HC 1%nat) E) as (j & Hj & ->).
  cbn [line_at l_b l_nb]. split; [lia|]. split; [reflexivity|].
  exists (clk j - clk 1%nat)%Q. assert (0 <= clk j - clk 1%nat)%Q as He by (apply (proj1 (Qle_minus_iff _ _)); exact Hj). split; [exact He|].
  set (k := Qfloor ((clk j - clk 1%nat) / inject_Z (Z.of_nat nb + 1))). cbv zeta. intros Hk.
  assert (eta_at (clk j - clk 1%nat) (Z.of_nat (S (0 + nb))) (Z.of_nat nb) = - k) as ->.
  { unfold eta_at. replace (Z.of_nat (S (0 + nb))) with (Z.of_nat nb + 1) by lia. replace (Z.of_nat nb - (Z.of_nat nb + 1)) with (-1) by lia.
    unfold k in *. set (q := (_ / _)%Q) in *. unfold q_int.
    assert (1 <= q)%Q as Hq. { eapply Qle_trans; [|apply Qfloor_le]. change 1%Q with (inject_Z 1). rewrite <- Zle_Qle. lia. }
    destruct (Qle_bool 0 (q * inject_Z (-1))) eqn:B.
    - apply Qle_bool_iff in B. exfalso. assert (q * inject_Z (-1) == - q)%Q as E2 by (change (inject_Z (-1)) with (-(1))%Q; ring). rewrite E2 in B.
      apply (Qlt_irrefl 0). apply Qlt_le_trans with q; [apply Qlt_le_trans with 1%Q; [reflexivity|exact Hq]|].
      apply Qopp_le_compat in B. rewrite Qopp_involutive in B. exact B.
    - unfold Qceiling. f_equal. apply Qfloor_comp. change (inject_Z (-1)) with (-(1))%Q. ring. }
  unfold line_at. cbn [l_h l_m l_s]. exact (hms_neg k Hk).
Qed.
(** the reports before the last one are those of the other calls *)
Theorem async_before : forall clk tprint nb, firstn nb (progress_async clk tprint nb) = progress clk tprint nb.
Proof.
  intros clk tprint nb. unfold progress_async, progress.
  assert (forall left b i t t0, firstn left (reports clk tprint nb (S left) b i t t0) = reports clk tprint nb left b i t t0) as G.
  { induction left as [|left IH]; intros; [reflexivity|]. remember (S left) as l2 eqn:E2. cbn [reports]. subst l2. cbn [reports].
    destruct (Qlt_le_dec tprint (clk (S i) - t)); cbn [firstn]; f_equal; apply IH. }
  apply G.
Qed.
(** witness: two batches, one second between any two readings of the clock; when all is
    done, the time left is shown as 0:59:58 *)
Definition step_clock (i : nat) : Q := inject_Z (Z.of_nat i).
Lemma async_wrong : forward step_clock /\ progress_async step_clock 1 2 = [Some (mkLine 1 2 0 0 1); Some (mkLine 2 2 0 0 0); Some (mkLine 3 2 0 59 58)].
Proof. split; [|vm_compute; reflexivity]. intros i. unfold step_clock. rewrite <- Zle_Qle. lia. Qed.
