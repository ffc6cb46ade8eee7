(** train with 'CV' (C33-C37, C39; reals). *)
From Coq Require Import Reals Lra Permutation.
From Verif Require Import Base Num Mat LinAlg Slfn Strs Elm Mrsr Search Mss MatFacts SplitProofs Spec ElmFacts RLin
  AccProofs TrainProofs RidgeProofs WfProofs TrainThms IncrThms SolveThms NeuronThms ErrThms SearchThms SelectThms RankThms SubThms MssThms LooThms SelThms FoldThms.
Local Open Scope R_scope.
#[local] Existing Instance NumR.

(** the samples [ix] of M *)
Definition pick (M : list (list R)) (ix : list nat) : list (list R) := map (fun i => nth i M []) ix.

(** w is the mean over the k repetitions of values related by P *)
Definition mean_over (k : nat) (P : nat -> R -> Prop) (w : R) : Prop :=
  exists vs, length vs = k /\ (forall i, (i < k)%nat -> P i (nth i vs 0)) /\ w = mean vs.

Section Cv.
Context {SG : @Sing NumR} {BR : @Brent NumR} {SH : Shuffle}.

Lemma ranking_size : forall e i N H T rank L, ranking e i N H T = Ok (rank, L) -> L = ranked_size e N.
Proof.
  intros e i N H T rank L E. unfold ranking in E. unfold ranked_size. destruct (e_op e).
  - destruct (if (s_outputs (e_net e) <? 10)%nat then _ else _) as [r|]; cbn [rbind] in E; [|discriminate]. injection E as _ <-. reflexivity.
  - injection E as _ <-. reflexivity.
Qed.

(** the network [s] has the neurons, sizes and norm of [s0] *)
Definition like (s0 s : @slfn NumR) : Prop := s_neurons s = s_neurons s0 /\ s_inputs s = s_inputs s0 /\ s_outputs s = s_outputs s0 /\ s_norm s = s_norm s0 /\ wf_net s.
Lemma like_getL : forall s0 s, wf_net s0 -> like s0 s -> getL s = getL s0.
Proof. intros s0 s H0 (A & _ & _ & _ & H). now rewrite (wf_getL _ H), (wf_getL _ H0), A. Qed.

Lemma pick_project : forall s X H ix, project s X = Ok H -> (forall i, In i ix -> (i < length X)%nat) -> project s (@rsel NumR X ix) = Ok (pick H ix).
Proof.
  intros s X H ix E Hi. apply project_inv in E as (HU & WX & ->). rewrite project_ok; auto.
  - f_equal. unfold rsel, pick. rewrite map_map. apply map_ext_in. intros i Hin. symmetry. apply nth_map_lt. now apply Hi.
  - apply Forall_forall. intros x Hx. unfold rsel in Hx. apply in_map_iff in Hx as (i & <- & Hin).
    unfold wide in WX. rewrite Forall_forall in WX. apply WX, nth_In. now apply Hi.
Qed.
Lemma pick_wide : forall c T ix, wide c T -> (forall i, In i ix -> (i < length T)%nat) -> wide c (pick T ix).
Proof. intros c T ix WT Hi. apply Forall_forall. intros x Hx. apply in_map_iff in Hx as (i & <- & Hin). unfold wide in WT. rewrite Forall_forall in WT. apply WT, nth_In. now apply Hi. Qed.

(** what the i-th repetition has computed; e: parameters; H, T: all the samples *)
Definition fold_ok (e : elm) (H T : list (list R)) (k i : nat) (fd : fold_data) : Prop :=
  let s := e_net e in let N := getL s in let p := fold_parts (length H) k i in
  let ss := Spec.plain (pick H (train_part p)) (pick T (train_part p)) in
  fd_HH fd = spec_HH N (s_norm s) ss /\ fd_HT fd = spec_HT N (s_outputs s) ss /\
  fd_Hv fd = pick H (val_part p) /\ fd_Tv fd = pick T (val_part p) /\
  fd_Ht fd = pick H (test_part p) /\ fd_Tt fd = pick T (test_part p) /\
  (ranked_size e N <> 0%nat -> ranked e N (length (val_part p)) (fd_rank fd) (ranked_size e N)).

Lemma build_folds_spec : shuffles -> forall e0 X T H k, wf_net (e_net e0) -> project (e_net e0) X = Ok H -> length X = length T ->
  wide (s_outputs (e_net e0)) T -> (2 <= k)%nat ->
  forall is_ e L0 e' fds L, (forall i, In i is_ -> (i < k)%nat) -> e = with_net e0 (e_net e) -> like (e_net e0) (e_net e) ->
  build_folds e X T (length X) k is_ L0 = (e', Ok (fds, L)) ->
  e' = with_net e0 (e_net e') /\ like (e_net e0) (e_net e') /\ Forall2 (fold_ok e0 H T k) is_ fds /\
  L = match is_ with [] => L0 | _ => ranked_size e0 (getL (e_net e0)) end.
Proof.
  intros shuf e0 X T H k HW0 HP0 HL WT Hk. pose proof (project_inv _ _ _ HP0) as (HU & WX & EH).
  induction is_ as [|i r IH]; intros e L0 e' fds L Hi He Hl E.
  - cbn [build_folds] in E. injection E as <- <- <-. split; [auto|]. split; [auto|]. split; [constructor|reflexivity].
  - cbn [build_folds] in E. destruct (fold_parts (length X) k i) as [[tr vl] ts] eqn:Ef.
    destruct Hl as (L1 & L2 & L3 & L4 & L5). assert (i < k)%nat as Hik by (apply Hi; left; auto).
    assert (forall n, In n tr \/ In n vl \/ In n ts -> (n < length X)%nat) as Hin.
    { intros n Hn. apply (fold_parts_in (length X) k i n Hk Hik). cbn [num NumR] in *. rewrite Ef. exact Hn. }
    set (s0 := reset (e_net e)) in *.
    assert (project s0 X = Ok H) as HP. { rewrite (project_with (e_net e0)); auto. }
    assert (Acc s0 []) as HA by reflexivity.
    assert (usable s0) as HU0. { unfold usable. change (s_neurons s0) with (s_neurons (e_net e)). change (s_inputs s0) with (s_inputs (e_net e)). rewrite L1, L2. exact HU. }
    pose proof (pick_project s0 X H tr HP ltac:(auto)) as Ptr. pose proof (project_inv _ _ _ Ptr) as (_ & Wtr & Etr).
    assert (wide (s_outputs s0) (@rsel NumR T tr)) as Wt.
    { change (s_outputs s0) with (s_outputs (e_net e)). rewrite L3. apply (pick_wide _ _ tr WT). intros n Hn. rewrite <- HL. auto. }
    assert (length (@rsel NumR X tr) = length (@rsel NumR T tr)) as Hxt by (unfold rsel; now rewrite !map_length).
    assert (length (repeat 1 (length tr)) = length (@rsel NumR T tr)) as Hrt by (rewrite repeat_length; unfold rsel; now rewrite map_length).
    destruct (add_batch_total s0 (@rsel NumR X tr) (@rsel NumR T tr) None (repeat 1 (length tr)) [] HA HU0 Wtr Wt Hxt Hrt) as (s1 & E1 & A1 & Es1 & N1).
    { intros w Hw. apply repeat_spec in Hw. lra. }
    { right. split; [reflexivity|]. unfold rsel. now rewrite map_length. }
    rewrite E1 in E. cbn [app] in A1. rewrite <- Etr in A1. 
    assert (length tr = length (pick H tr)) as Hlen by (unfold pick; now rewrite map_length).
    rewrite Hlen in A1. rewrite samples_repeat1 in A1 by (unfold pick, rsel; now rewrite !map_length).
    assert (like (e_net e0) s1) as Hl1.
    { pose proof (wf_add_batch s0 (@rsel NumR X tr) (@rsel NumR T tr) None (wf_reset _ L5)) as Q. rewrite E1 in Q. cbn [fst] in Q.
      rewrite Es1 in Q |- *. split; [exact L1|]. split; [exact L2|]. split; [exact L3|]. split; [exact L4|]. exact Q. }
    pose proof (like_getL _ _ HW0 Hl1) as EL1. destruct Hl1 as (M1 & M2 & M3 & M4 & M5).
    assert (get_corr s1 = Ok (Some (spec_HH (getL (e_net e0)) (s_norm (e_net e0)) (Spec.plain (pick H tr) (pick T tr)), spec_HT (getL (e_net e0)) (s_outputs (e_net e0)) (Spec.plain (pick H tr) (pick T tr))))) as EC.
    { rewrite (get_corr_acc _ _ A1 N1), EL1, M3, M4. reflexivity. }
    rewrite EC in E. cbn [need_corr rbind] in E.
    assert (forall ix, (forall n, In n ix -> (n < length X)%nat) -> project s1 (@rsel NumR X ix) = Ok (pick H ix)) as PP.
    { intros ix Hix. apply pick_project; auto. rewrite (project_with (e_net e0)); auto. }
    rewrite (PP vl ltac:(auto)), (PP ts ltac:(auto)) in E. cbn [rbind] in E.
    destruct (ranking (with_net e s1) i (getL s1) (pick H vl) (@rsel NumR T vl)) as [[rk Lr]|] eqn:Er; cbn [rbind fst snd] in E; [|discriminate].
    destruct (build_folds (with_net e s1) X T (length X) k r Lr) as [e2 [[fds2 L2']|]] eqn:Eb; [|discriminate]. injection E as <- <- <-.
    pose proof (ranking_size _ _ _ _ _ _ _ Er) as ELr.
    assert (forall M, ranked_size (with_net e s1) M = ranked_size e0 M) as Hrs by (intros M; rewrite He; reflexivity).
    destruct (IH (with_net e s1) Lr e2 fds2 L2') as (I1 & I2 & I3 & I4).
    { intros n Hn. apply Hi; right; auto. } { rewrite He. reflexivity. }
    { split; [exact M1|]. split; [exact M2|]. split; [exact M3|]. split; [exact M4|exact M5]. } { exact Eb. }
    split; [exact I1|]. split; [exact I2|]. split.
    + constructor; [|exact I3]. unfold fold_ok. cbv zeta.
      assert (length H = length X) as HLH by (rewrite EH; apply map_length).
      cbn [num NumR] in *. rewrite HLH. rewrite Ef. unfold train_part, val_part, test_part. cbn [fst snd fd_HH fd_HT fd_Hv fd_Tv fd_Ht fd_Tt fd_rank].
      split; [reflexivity|]. split; [reflexivity|]. split; [reflexivity|]. split; [reflexivity|]. split; [reflexivity|]. split; [reflexivity|].
      intros HN0. rewrite EL1 in Er, ELr. rewrite Hrs in ELr. 
      pose proof (ranking_ranked shuf _ _ _ _ _ _ _ Er ltac:(rewrite ELr; exact HN0)) as HR.
      unfold pick in HR. rewrite map_length in HR. rewrite ELr in HR. eapply ranked_ext; [| | |exact HR].
      * exact Hrs.
      * rewrite He. reflexivity.
      * exact M3.
    + rewrite I4. destruct r; [|reflexivity]. rewrite ELr, Hrs, EL1. reflexivity.
Qed.

(** the mean error over the k repetitions: in repetition i the neurons [ix i] are
    fitted to the training samples and evaluated on the validation or test samples *)
Definition cv_error (e : elm) (norm : R) (H T : list (list R)) (k : nat) (split : nat -> list nat * list nat * list nat)
  (part : list nat * list nat * list nat -> list nat) (ix : nat -> list nat) (w : R) : Prop :=
  mean_over k (fun i v => submodel_error e norm (Spec.plain (pick H (train_part (split i))) (pick T (train_part (split i))))
                            (pick H (part (split i))) (pick T (part (split i))) (ix i) v) w.

Lemma avg_inv : forall (f : fold_data -> res R) k fds acc w, @avg_folds NumR f k fds acc = Ok w ->
  exists vs, Forall2 (fun fd v => f fd = Ok v) fds vs /\ w = acc + Rsum vs / INR k.
Proof.
  induction fds as [|fd fds IH]; intros acc w E; cbn [avg_folds] in E.
  - injection E as <-. exists []. split; [constructor|]. rewrite Rsum_nil. lra.
  - destruct (f fd) as [a|] eqn:Ea; cbn [rbind] in E; [|discriminate]. destruct (IH _ _ E) as (vs & HF & ->).
    exists (a :: vs). split; [constructor; auto|]. rewrite Rsum_cons. change (@nadd NumR acc (@ndiv NumR a (@nof_nat NumR k))) with (acc + a / @nof_nat NumR k). rewrite nof_nat_INR. lra.
Qed.
Lemma F2_nth : forall {A B} (P : A -> B -> Prop) l m da db, Forall2 P l m -> forall i, (i < length l)%nat -> P (nth i l da) (nth i m db).
Proof. induction 1; intros i Hi; cbn in Hi; [lia|]. destruct i; cbn [nth]; auto. apply IHForall2. lia. Qed.
Lemma F2_impl : forall {A B} (P Q : A -> B -> Prop) l m, (forall a b, P a b -> Q a b) -> Forall2 P l m -> Forall2 Q l m.
Proof. induction 2; constructor; auto. Qed.
Lemma F2_compose : forall {A B C} (P : A -> B -> Prop) (Q : B -> C -> Prop) l m n, Forall2 P l m -> Forall2 Q m n -> Forall2 (fun a c => exists b, P a b /\ Q b c) l n.
Proof. intros A B C P Q l m n H. revert n. induction H; intros n H'; inversion H'; subst; constructor; eauto. Qed.

Lemma avg_mean : forall e H T k fds (f : fold_data -> res R) (P : nat -> R -> Prop) w, (0 < k)%nat ->
  Forall2 (fold_ok e H T k) (seq 0 k) fds ->
  (forall i fd v, (i < k)%nat -> fold_ok e H T k i fd -> nth i fds (mkFold [] [] [] [] [] [] []) = fd -> f fd = Ok v -> P i v) ->
  @avg_folds NumR f k fds 0 = Ok w -> mean_over k P w.
Proof.
  intros e H T k fds f P w Hk HF HP E. apply avg_inv in E as (vs & HV & ->).
  assert (length fds = k) as Lf by (rewrite <- (F2_length _ _ _ HF); apply seq_length).
  assert (length vs = k) as Lv by (rewrite <- (F2_length _ _ _ HV); exact Lf).
  exists vs. split; [exact Lv|]. split.
  - intros i Hi. set (d := mkFold [] [] [] [] [] [] []). apply (HP i (nth i fds d)); auto.
    + pose proof (F2_nth _ _ _ 0%nat d HF i ltac:(rewrite seq_length; lia)) as Q. rewrite seq_nth in Q by lia. exact Q.
    + exact (F2_nth _ _ _ d 0 HV i ltac:(lia)).
  - unfold mean. rewrite Lv. lra.
Qed.

Lemma good_pick : forall N (H T : list (list R)) ix, Forall (fun h => length h = N) H -> (forall i, In i ix -> (i < length H)%nat) -> good N (Spec.plain (pick H ix) (pick T ix)).
Proof.
  intros N H T ix WH Hi. apply good_plain. apply (pick_wide N H ix WH Hi).
Qed.

Lemma select_cv_spec : forall e H T k fds L kopt rank err_t t, wf_net (e_net e) -> 0 < s_norm (e_net e) -> weights_nn e -> (2 <= k)%nat ->
  Forall (fun h => length h = getL (e_net e)) H -> Forall2 (fold_ok e H T k) (seq 0 k) fds -> L = ranked_size e (getL (e_net e)) ->
  select_cv e fds k L = Ok (kopt, rank, err_t, t) ->
  exists ranks full, let N := getL (e_net e) in let norm := s_norm (e_net e) in let split := fold_parts (length H) k in
    length ranks = k /\ (forall i, (i < k)%nat -> ranked e N (length (val_part (split i))) (nth i ranks []) L) /\
    rank = nth (k - 1) ranks [] /\ (3 <= kopt <= Z.of_nat L)%Z /\
    cv_error e norm H T k split val_part (fun _ => seq 0 N) full /\
    selects 3 L (fun n => cv_error e norm H T k split val_part (fun i => firstn n (nth i ranks []))) full (Z.to_nat kopt) /\
    cv_error e norm H T k split test_part (fun _ => seq 0 N) err_t.
Proof.
  intros e H T k fds L kopt rank err_t t0 HW Hn Hwt Hk WH HF HLs E. unfold select_cv in E.
  destruct (avg_folds _ k fds _) as [full|] eqn:Ef; cbn [rbind] in E; [|discriminate].
  destruct (Nat.eqb_spec L 0) as [|HL0]; [discriminate|].
  assert (0 <= full) as Hf. { eapply avg_nn; [|apply Rle_refl|exact Ef]. intros fd a Ha. exact (full_error_nn _ _ _ _ _ _ Hwt Ha). }
  set (N := getL (e_net e)) in *. set (norm := s_norm (e_net e)) in *. set (d := mkFold [] [] [] [] [] [] []) in *.
  assert (L <= N)%nat as HLN. { rewrite HLs. unfold ranked_size. destruct (e_op e); [destruct (e_kmax e); lia|lia]. }
  set (ev0 := fun idx => @avg_folds NumR (fun fd => sub_error e (fd_HH fd) (fd_HT fd) (fd_Hv fd) (fd_Tv fd) (slice (fd_rank fd) 0 idx)) k fds 0).
  destruct (Nat.le_gt_cases 3 L) as [H3|H3].
  2:{ pose proof (search_from_small (K := NumR) (fun idx => let? v := ev0 idx in Ok (nadd v (nmul (nof_Z idx) (@penalty_of NumR full L)))) (@nadd NumR full (@nmul NumR (nof_nat L) (@penalty_of NumR full L))) (Z.of_nat L) ltac:(lia)) as Q.
      rewrite Nat2Z.id in Q. unfold ev0 in Q. cbn [num NumR] in *. change (@n0 NumR) with 0 in E. rewrite Q in E. discriminate. }
  assert (length fds = k) as Lf by (rewrite <- (F2_length _ _ _ HF); apply seq_length).
  assert (forall i, (i < k)%nat -> fold_ok e H T k i (nth i fds d)) as HFi.
  { intros i Hi. pose proof (F2_nth _ _ _ 0%nat d HF i ltac:(rewrite seq_length; lia)) as Q. rewrite seq_nth in Q by lia. exact Q. }
  set (ranks := map (@fd_rank NumR) fds).
  assert (forall i, (i < k)%nat -> nth i ranks [] = fd_rank (nth i fds d)) as Hrk.
  { intros i Hi. unfold ranks. apply nth_map_lt. lia. }
  assert (forall i, (i < k)%nat -> ranked e N (length (val_part (fold_parts (length H) k i))) (nth i ranks []) L) as HR.
  { intros i Hi. destruct (HFi i Hi) as (_ & _ & _ & _ & _ & _ & Q). rewrite Hrk by auto. rewrite HLs. apply Q. fold N. rewrite <- HLs. exact HL0. }
  assert (forall i n, (i < k)%nat -> In n (train_part (fold_parts (length H) k i)) \/ In n (val_part (fold_parts (length H) k i)) \/ In n (test_part (fold_parts (length H) k i)) -> (n < length H)%nat) as Hin.
  { intros i n Hi. exact (fold_parts_in (length H) k i n Hk Hi). }
  assert (forall w, @avg_folds NumR (fun fd => full_error e (fd_HH fd) (fd_HT fd) (fd_Hv fd) (fd_Tv fd)) k fds 0 = Ok w ->
     cv_error e norm H T k (fold_parts (length H) k) val_part (fun _ => seq 0 N) w) as CF.
  { intros w. apply avg_mean with (e := e) (H := H) (T := T); auto; [lia|]. intros i fd v Hi HO _ Ev. destruct HO as (O1 & O2 & O3 & O4 & _). rewrite O1, O2, O3, O4 in Ev.
    eapply full_error_model; [exact Hn| |reflexivity| |exact Ev].
    - apply good_pick; auto. intros n Hn'. apply (Hin i); auto.
    - apply (pick_wide N H _ WH). intros n Hn'. apply (Hin i); auto. }
  assert (forall w, @avg_folds NumR (fun fd => full_error e (fd_HH fd) (fd_HT fd) (fd_Ht fd) (fd_Tt fd)) k fds 0 = Ok w ->
     cv_error e norm H T k (fold_parts (length H) k) test_part (fun _ => seq 0 N) w) as CT.
  { intros w. apply avg_mean with (e := e) (H := H) (T := T); auto; [lia|]. intros i fd v Hi HO _ Ev. destruct HO as (O1 & O2 & _ & _ & O3 & O4 & _). rewrite O1, O2, O3, O4 in Ev.
    eapply full_error_model; [exact Hn| |reflexivity| |exact Ev].
    - apply good_pick; auto. intros n Hn'. apply (Hin i); auto.
    - apply (pick_wide N H _ WH). intros n Hn'. apply (Hin i); auto. }
  destruct (search_chosen ev0 full (@penalty_of NumR full L) 3 (Z.of_nat L) L) as [(m & k' & t & Es & Hc)|(x & i & _ & _ & Es)].
  - lia.
  - lia.
  - exact Hf.
  - apply penalty_nn; auto. lia.
  - intros i v Hi. eapply avg_nn; [|apply Rle_refl|exact Hi]. intros fd a Ha. exact (sub_error_nn _ _ _ _ _ _ _ Hwt Ha).
  - rewrite Nat2Z.id in Es. unfold ev0 in Es. cbn [num NumR] in *. change (@n0 NumR) with 0 in *. rewrite Es in E. cbn [rbind] in E.
    destruct (avg_folds (fun fd => full_error e (fd_HH fd) (fd_HT fd) (fd_Ht fd) (fd_Tt fd)) k fds 0) as [et|] eqn:Et; cbn [rbind] in E; [|discriminate].
    injection E as <- <- <- <-. exists ranks, full. cbv zeta.
    split; [unfold ranks; now rewrite map_length|]. split; [exact HR|].
    split. { rewrite Hrk by lia. f_equal. rewrite <- Lf. clear. destruct fds as [|a l]; [reflexivity|]. cbn [length]. replace (S (length l) - 1)%nat with (length l) by lia. revert a. induction l as [|b l IH]; intros a; [reflexivity|]. exact (IH b). }
    pose proof (ch_range _ _ _ _ _ _ _ _ _ Hc). split; [auto|]. split; [now apply CF|]. split; [|now apply CT].
    eapply (chosen_selects ev0 _ full 3 L); try exact Hc; auto; try lia.
    intros n w Hi' Ew. unfold ev0 in Ew. revert Ew. apply avg_mean with (e := e) (H := H) (T := T); auto; [lia|].
    intros i fd v Hi HO Efd Ev. rewrite slice_firstn, Nat2Z.id in Ev by lia. destruct HO as (O1 & O2 & O3 & O4 & _). rewrite O1, O2, O3, O4 in Ev.
    rewrite Hrk by auto. assert (fd_rank (nth i fds d) = fd_rank fd) as Erk by (f_equal; exact Efd). rewrite Erk. eapply sub_error_model; [exact Hn| | |exact Ev].
    + apply good_pick; auto. intros q Hq. apply (Hin i); auto.
    + rewrite <- Erk, <- Hrk by auto. apply columns_firstn. apply (HR i Hi).
  - rewrite Nat2Z.id in Es. unfold ev0 in Es. cbn [num NumR] in *. change (@n0 NumR) with 0 in *. rewrite Es in E. discriminate.
Qed.

Lemma parse_loop_wc : forall kw args e, (e_wc e = None \/ exists ws, kw_w kw = Some ws /\ e_wc e = Some (map Fin ws)) ->
  let e' := fst (@parse_loop NumR e kw args) in e_wc e' = None \/ exists ws, kw_w kw = Some ws /\ e_wc e' = Some (map Fin ws).
Proof.
  intros kw. induction args as [|a r IH]; intros e He; [exact He|]. cbn [parse_loop].
  set (e1 := if (a =? "OP")%string then _ else e).
  assert (e_wc e1 = e_wc e) as E1 by (unfold e1; destruct (a =? "OP")%string; reflexivity).
  assert (e_wc e1 = None \/ exists ws, kw_w kw = Some ws /\ e_wc e1 = Some (map Fin ws)) as He1 by (rewrite E1; exact He). clearbody e1.
  destruct (a =? "C")%string; [destruct (1 <? s_outputs (e_net e))%nat; [apply IH; exact He1|exact He1]|].
  destruct (a =? "WC")%string.
  - destruct (1 <? s_outputs (e_net e))%nat; [|exact He1]. destruct (kw_w kw) as [w|] eqn:Ew; [|apply IH; exact He1].
    destruct (_ =? _)%nat; [|exact He1]. apply IH. right. exists w. split; auto.
  - destruct ((a =? "ML")%string || (a =? "MC")%string); [destruct (1 <? s_outputs (e_net e))%nat; [apply IH; exact He1|exact He1]|].
    destruct (a =? "R")%string; apply IH; exact He1.
Qed.
Lemma parse_args_wc : forall e args kw e1, parse_args e args kw = (e1, Ok tt) ->
  e_wc e1 = None \/ exists ws, kw_w kw = Some ws /\ e_wc e1 = Some (map (@Fin NumR) ws).
Proof.
  intros e args kw e1 E. unfold parse_args in E. destruct (s_neurons (e_net e)); [discriminate|].
  destruct (negb _); [discriminate|]. destruct (negb _); [discriminate|].
  match type of E with context [parse_loop ?e0 ?k ?a] => pose proof (parse_loop_wc k a e0 (or_introl eq_refl)) as EN; destruct (parse_loop e0 k a) as [e2 [u|x]] end; [|discriminate].
  cbn [fst] in EN. destruct (kw_batch kw); injection E as <-; exact EN.
Qed.

Lemma task_cv : forall e e' norm H T k split part ix w, same_task e e' -> cv_error e norm H T k split part ix w -> cv_error e' norm H T k split part ix w.
Proof. intros e e' norm H T k split part ix w HT (vs & A & B & C). exists vs. split; [auto|]. split; [|auto]. intros i Hi. eapply task_submodel; [exact HT|apply B; auto]. Qed.

Theorem train_cv_selects : forall e X T args kw k e1 H e' v, shuffles ->
  wf_net (e_net e) -> 0 < s_norm (e_net e) ->
  parse_args e args kw = (e1, Ok tt) -> smem "V" args = false -> smem "CV" args = true -> kw_k kw = Some k ->
  (forall ws w, kw_w kw = Some ws -> In w ws -> 0 <= w) ->
  length X = length T -> wide (s_outputs (e_net e)) T ->
  elm_project e (Arr2 (s_inputs (e_net e)) X) = Ok H ->
  train e (Arr2 (s_inputs (e_net e)) X) (Arr2 (s_outputs (e_net e)) T) args kw = (e', Ok v) ->
  exists split ranks L full n err_t, let N := nneurons (s_neurons (e_net e)) in let norm := s_norm (e_net e) in
    v = Some err_t /\ (3 <= k)%nat /\ k_fold (length H) k split /\
    length ranks = k /\ (forall i, (i < k)%nat -> ranked e1 N (length (val_part (split i))) (nth i ranks []) L) /\ (3 <= L)%nat /\
    cv_error e' norm H T k split val_part (fun _ => seq 0 N) full /\
    selects 3 L (fun n => cv_error e' norm H T k split val_part (fun i => firstn n (nth i ranks []))) full n /\
    cv_error e' norm H T k split test_part (fun _ => seq 0 N) err_t /\
    fitted e e' (firstn n (nth (k - 1) ranks [])) H T /\ same_task e1 e'.
Proof.
  intros e X T args kw k e1 H e' v shuf HW Hn HP HV HCV Ek Hws HL WT HPr E.
  pose proof (parse_args_ok _ _ _ _ HP) as EN.
  assert (weights_nn e1) as Hwt.
  { intros _ w Ew. destruct (parse_args_wc _ _ _ _ HP) as [C|(ws & C1 & C2)]; [congruence|]. rewrite C2 in Ew. injection Ew as <-.
    apply Forall_forall. intros x Hx. apply in_map_iff in Hx as (a & <- & Ha). cbn. eauto. }
  unfold train in E. rewrite checkdata_ok, HP, HV, HCV, Ek in E by auto.
  destruct (Nat.leb_spec 3 k) as [H3|]; [|discriminate]. unfold train_cv in E.
  destruct (build_folds _ _ _ _ _ _ _) as [e2 [[fds L]|]] eqn:Eb; [|discriminate].
  destruct (select_cv e2 fds k L) as [[[[kopt rank] err_t] t]|] eqn:Esel; cbn [lift_err] in E; [|discriminate].
  assert (wf_net (e_net e1)) as HW1 by (rewrite EN; now apply wf_reset).
  assert (s_outputs (e_net e1) = s_outputs (e_net e) /\ s_inputs (e_net e1) = s_inputs (e_net e) /\ s_neurons (e_net e1) = s_neurons (e_net e) /\ s_norm (e_net e1) = s_norm (e_net e) /\ getL (e_net e1) = getL (e_net e)) as (Eo & Ei & Es & Em & El) by (rewrite EN, (wf_getL _ HW); repeat split; reflexivity).
  assert (project (e_net e1) X = Ok H) as HP1. { rewrite (project_with (e_net e)); auto. now apply elm_project_arr. }
  destruct (build_folds_spec shuf e1 X T H k HW1 HP1 HL ltac:(rewrite Eo; exact WT) ltac:(lia) (seq 0 k) e1 (getL (e_net e1)) e2 fds L) as (B1 & B2 & B3 & B4).
  { intros i Hi. apply in_seq in Hi. lia. } { destruct e1; reflexivity. } { repeat split; auto; apply HW1. } { exact Eb. }
  assert (L = ranked_size e1 (getL (e_net e1))) as EL. { rewrite B4. destruct k; [lia|reflexivity]. } clear B4.
  assert (L = ranked_size e2 (getL (e_net e2))) as EL2. { rewrite EL, B1. cbn [e_net with_net]. rewrite (like_getL _ _ HW1 B2). reflexivity. }
  pose proof (like_getL _ _ HW1 B2) as EG. destruct B2 as (M1 & M2 & M3 & M4 & M5).
  assert (same_task e1 e2) as T12 by (rewrite B1; split; [reflexivity|split; [reflexivity|exact M3]]).
  assert (Forall2 (fold_ok e2 H T k) (seq 0 k) fds) as B3'.
  { eapply F2_impl; [|exact B3]. intros i fd (O1 & O2 & O3 & O4 & O5 & O6 & O7). unfold fold_ok. cbv zeta. rewrite EG, M3, M4.
    split; [exact O1|]. split; [exact O2|]. split; [exact O3|]. split; [exact O4|]. split; [exact O5|]. split; [exact O6|].
    intros HN0. rewrite B1 in HN0. specialize (O7 HN0). rewrite B1. destruct O7 as (Q1 & Q2 & Q3 & Q4). split; [exact Q1|]. split; [exact Q2|]. split; [exact Q3|].
    cbn [e_op e_net with_net]. rewrite M3. exact Q4. }
  destruct (select_cv_spec e2 H T k fds L kopt rank err_t t M5) as (ranks & full & S1 & S2 & S3 & S4 & S5 & S6 & S7); auto.
  { rewrite M4, Em. exact Hn. } { intros C w Ew. rewrite B1 in C, Ew. exact (Hwt C w Ew). } { lia. }
  { rewrite EG. apply (wide_project _ _ _ HW1 HP1). }
  rewrite slice_firstn in E by lia.
  destruct (refit_fitted e e2 X T (firstn (Z.to_nat kopt) rank) H (refit e2 X T (firstn (Z.to_nat kopt) rank)) M5 ltac:(rewrite M4, Em; exact Hn)) as (F1 & F2 & F3); try congruence.
  { intros i Hi. destruct (S2 (k - 1)%nat ltac:(lia)) as ((_ & HR) & _). apply HR. rewrite <- S3. rewrite <- (firstn_skipn (Z.to_nat kopt) rank). apply in_or_app; auto. }
  unfold done in E. rewrite F1 in E. injection E as <- <-.
  exists (fold_parts (length H) k), ranks, L, full, (Z.to_nat kopt), err_t. cbv zeta in *. rewrite <- (wf_getL _ HW), <- El, <- Em, <- EG, <- M4.
  split; [reflexivity|]. split; [lia|]. split; [apply fold_parts_k_fold; lia|]. split; [exact S1|].
  split. { intros i Hi. eapply ranked_ext; [| | |exact (S2 i Hi)]; rewrite B1; try reflexivity. exact M3. }
  split; [lia|]. split; [eapply task_cv; eauto|]. split; [eapply selects_ext; [|exact S6]; intros n w; now apply task_cv|].
  split; [eapply task_cv; eauto|]. split; [rewrite <- S3; exact F2|]. eapply task_trans; eauto.
Qed.
End Cv.
