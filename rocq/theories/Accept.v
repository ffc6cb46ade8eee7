(** Shapes of explicitly given parameters: set_B, set_corr, add_neurons (C94); loading
    into an object with an accelerator (C32). *)
From Verif Require Import Base Num Mat LinAlg Slfn Strs Elm MatFacts ElmFacts WfProofs LoadThms NeuronThms History Spec.

(** ** Specification *)
(** the groups of neurons after new ones were put beside the old: groups of the same type
    are joined column by column *)
Definition beside {K : Num} (g n : neuron) : neuron :=
  mkNeuron (n_num g + n_num n) (n_func g) (map2 (@app num) (n_W g) (n_W n)) (n_B g ++ n_B n).
Definition joined {K : Num} (old new res : list neuron) : Prop := forall g, In g res <->
  (In g old /\ ~ In (n_func g) (map n_func new)) \/ (In g new /\ ~ In (n_func g) (map n_func old)) \/
  (exists a b, In a old /\ In b new /\ n_func a = n_func b /\ g = beside a b).
Definition same_height {K : Num} (old new : list neuron) : Prop :=
  forall a b, In a old -> In b new -> n_func a = n_func b -> length (n_W a) = length (n_W b).

Section Accept.
Context {K : Num} {SG : Sing}.

Lemma ftype_eqb_eq : forall f g : ftype, ftype_eqb f g = true <-> f = g.
Proof.
  intros f g. split.
  - destruct f, g; intros H; try discriminate; auto. apply Nat.eqb_eq in H. now subst.
  - intros <-. destruct f; cbn; auto. apply Nat.eqb_refl.
Qed.
Lemma can_merge_iff : forall ns f W, NoDup (map n_func ns) ->
  (can_merge ns f W = true <-> forall g, In g ns -> n_func g = f -> length (n_W g) = length W).
Proof.
  intros ns f W ND. unfold can_merge. induction ns as [|a r IH]; cbn [find].
  - split; auto. intros _ g [].
  - inversion ND as [|? ? N1 N2]; subst. destruct (ftype_eqb (n_func a) f) eqn:E.
    + apply ftype_eqb_eq in E. rewrite Nat.eqb_eq. split; intros H; [|apply H; [now left|exact E]].
      intros g [<-|Hg] Eg; [exact H|]. exfalso. apply N1. rewrite E, <- Eg. now apply in_map.
    + rewrite (IH N2). split; intros H g Hg Eg; [|apply H; [now right|exact Eg]].
      destruct Hg as [<-|Hg]; [|now apply H]. apply ftype_eqb_eq in Eg. congruence.
Qed.
Lemma merge_in : forall ns n, NoDup (map n_func ns) -> joined ns [n] (merge_neurons ns (n_num n) (n_func n) (n_W n) (n_B n)).
Proof.
  intros ns n ND. induction ns as [|a r IH]; intros g; cbn [merge_neurons In map].
  - split; [intros [<-|[]]|intros [[[] _]|[[H _]|(a & _ & [] & _)]]].
    + right. left. split; [left; now destruct n|tauto].
    + destruct H as [<-|[]]. left. now destruct n.
  - inversion ND as [|? ? N1 N2]; subst. destruct (ftype_eqb (n_func a) (n_func n)) eqn:E.
    + apply ftype_eqb_eq in E. cbn [In]. split.
      * intros [<-|Hg].
        -- right. right. exists a, n. repeat (split; auto). unfold beside. now rewrite E.
        -- left. split; [auto|]. intros [H|[]]. apply N1. rewrite E, H. now apply in_map.
      * intros [[[<-|Hg] H]|[[[<-|[]] H]|(a' & b & Ha & [<-|[]] & E1 & ->)]].
        -- exfalso. apply H. now left.
        -- now right.
        -- exfalso. apply H. now left.
        -- destruct Ha as [<-|Ha]; [left; unfold beside; now rewrite E|]. exfalso. apply N1. rewrite E, <- E1. now apply in_map.
    + specialize (IH N2 g). cbn [In map] in *. rewrite IH.
      assert (n_func a <> n_func n) as Ne by (intros C; apply ftype_eqb_eq in C; congruence). split.
      * intros [<-|[[H1 H2]|[[H1 H2]|(a' & b & Ha & Hb & E1 & ->)]]].
        -- left. split; [auto|]. intros [H|[]]. congruence.
        -- left. auto.
        -- right. left. split; auto. intros [H|H]; [|auto]. destruct H1 as [<-|[]]. congruence.
        -- right. right. exists a', b. auto.
      * intros [[[H1|H1] H2]|[[H1 H2]|(a' & b & Ha & Hb & E1 & ->)]].
        -- now left.
        -- right. left. auto.
        -- right. right. left. split; auto.
        -- destruct Ha as [<-|Ha]; [destruct Hb as [<-|[]]; congruence|]. right. right. right. exists a', b. auto.
Qed.
Lemma merge_num : forall ns k f W B, nneurons (merge_neurons ns k f W B) = nneurons ns + k.
Proof.
  intros ns k f W B. unfold nneurons. induction ns as [|a r IH]; cbn [merge_neurons map list_sum fold_right n_num] in *; [lia|].
  destruct (ftype_eqb (n_func a) f); cbn [map fold_right n_num list_sum] in *; unfold list_sum in *; lia.
Qed.
Lemma map2_len : forall {A B C} (f : A -> B -> C) l m, length (map2 f l m) = Nat.min (length l) (length m).
Proof. induction l as [|a l IH]; intros [|b m]; cbn; auto. Qed.
Lemma beside_height : forall a b, length (n_W a) = length (n_W b) -> length (n_W (beside a b)) = length (n_W a).
Proof. intros a b H. cbn. rewrite map2_len. lia. Qed.

Theorem load_joins : forall ns s, NoDup (map n_func (s_neurons s)) -> NoDup (map n_func ns) ->
  (~ same_height (s_neurons s) ns -> snd (load_neurons s ns) = Err ValueError) /\
  (same_height (s_neurons s) ns -> exists s', load_neurons s ns = (s', Ok tt) /\
     joined (s_neurons s) ns (s_neurons s') /\ nneurons (s_neurons s') = nneurons (s_neurons s) + nneurons ns /\
     s_inputs s' = s_inputs s /\ s_outputs s' = s_outputs s /\ s_norm s' = s_norm s /\ s_kind s' = s_kind s /\
     (ns <> [] -> s_L s' = Some (nneurons (s_neurons s')) /\ s_B s' = None /\ s_HH s' = None /\ s_HT s' = None) /\ (ns = [] -> s' = s)).
Proof.
  induction ns as [|n r IH]; intros s N1 N2; cbn [load_neurons].
  - split; [intros H; exfalso; apply H; intros a b _ []|]. intros _. exists s. split; auto. split.
    + intros g. cbn [map In]. split; [intros H; left; tauto|]. intros [[H _]|[[[] _]|(a & b & _ & [] & _)]]. exact H.
    + cbn. split; [lia|]. repeat (split; auto); congruence.
  - inversion N2 as [|? ? M1 M2]; subst. pose proof (merge_in (s_neurons s) n N1) as J.
    assert (NoDup (map n_func (s_neurons (slfn_add_neurons s (n_num n) (n_func n) (n_W n) (n_B n))))) as ND by (cbn; now apply merge_nodup).
    destruct (IH (slfn_add_neurons s (n_num n) (n_func n) (n_W n) (n_B n)) ND M2) as (I1 & I2). clear IH ND.
    destruct (can_merge (s_neurons s) (n_func n) (n_W n)) eqn:EM.
    + rewrite (can_merge_iff _ _ _ N1) in EM.
      assert (same_height (s_neurons (slfn_add_neurons s (n_num n) (n_func n) (n_W n) (n_B n))) r <-> same_height (s_neurons s) (n :: r)) as HS.
      { cbn [s_neurons slfn_add_neurons with_B reset with_neurons]. split.
        - intros H a b Ha [<-|Hb] E; [now apply EM|].
          destruct (ftype_eqb (n_func a) (n_func n)) eqn:EE; [apply ftype_eqb_eq in EE; exfalso; apply M1; rewrite <- EE, E; now apply in_map|].
          apply H; auto. apply J. left. split; auto. intros [C|[]]. symmetry in C. apply ftype_eqb_eq in C. congruence.
        - intros H a b Ha Hb E. apply J in Ha. destruct Ha as [[Ha _]|[[[<-|[]] _]|(x & y & Hx & [<-|[]] & E1 & ->)]].
          + apply H; cbn; auto.
          + exfalso. apply M1. rewrite E. now apply in_map.
          + exfalso. apply M1. rewrite <- E1. cbn [n_func beside] in E. rewrite E. now apply in_map. }
      split.
      * intros H. apply I1. intros C. apply H, HS, C.
      * intros H. destruct (I2 (proj2 HS H)) as (s' & E0 & E1 & E2 & E3 & E4 & E5 & E6 & E7 & E8). exists s'. split; [exact E0|].
        cbn [s_neurons s_inputs s_outputs s_norm s_kind slfn_add_neurons with_B reset with_neurons] in *. split; [|split].
        -- intros g. rewrite (E1 g). split.
           ++ intros [[A1 A2]|[[A1 A2]|(a & b & Ha & Hb & Ef & ->)]].
              ** apply J in A1. destruct A1 as [[A1 A3]|[[[<-|[]] A3]|(x & y & Hx & [<-|[]] & Ex & ->)]].
                 --- left. split; auto. cbn [map In] in *. tauto.
                 --- right. left. split; [now left|auto].
                 --- right. right. exists x, n. repeat (split; auto). now left.
              ** right. left. split; [now right|]. intros C. apply A2. apply in_map_iff in C. destruct C as (x & Ex & Hx).
                 apply in_map_iff. destruct (ftype_eqb (n_func x) (n_func n)) eqn:EE.
                 --- apply ftype_eqb_eq in EE. exists (beside x n). split; [exact Ex|]. apply J. right. right. exists x, n. repeat (split; auto). now left.
                 --- exists x. split; auto. apply J. left. split; auto. intros [C|[]]. symmetry in C. apply ftype_eqb_eq in C. congruence.
              ** apply J in Ha. destruct Ha as [[Ha A3]|[[[<-|[]] A3]|(x & y & Hx & [<-|[]] & Ex & ->)]].
                 --- right. right. exists a, b. repeat (split; auto). now right.
                 --- exfalso. apply M1. rewrite Ef. now apply in_map.
                 --- exfalso. apply M1. rewrite <- Ex. cbn [n_func beside] in Ef. rewrite Ef. now apply in_map.
           ++ cbn [map In]. intros [[A1 A2]|[[[<-|A1] A2]|(a & b & Ha & [<-|Hb] & Ef & ->)]].
              ** left. split; [|tauto]. apply J. left. split; auto. cbn [map In]. tauto.
              ** left. split; [|exact M1]. apply J. right. left. split; [now left|auto].
              ** right. left. split; auto. intros C. apply in_map_iff in C. destruct C as (x & Ex & Hx). apply J in Hx.
                 destruct Hx as [[Hx _]|[[[<-|[]] _]|(x' & y & Hx & [<-|[]] & E' & ->)]].
                 --- apply A2. rewrite <- Ex. now apply in_map.
                 --- apply M1. rewrite Ex. now apply in_map.
                 --- apply A2. rewrite <- Ex. cbn [n_func beside]. now apply in_map.
              ** left. split; [|cbn [n_func beside]; rewrite Ef; exact M1]. apply J. right. right. exists a, n. repeat (split; auto). now left.
              ** right. right. exists a, b. repeat (split; auto). apply J. left. split; auto.
                 intros [C|[]]. apply M1. rewrite C, Ef. now apply in_map.
        -- rewrite E2, merge_num. unfold nneurons. cbn [map list_sum fold_right]. unfold list_sum. lia.
        -- do 4 (split; [assumption|]). split; [|discriminate]. intros _. destruct r as [|n' r']; [|apply E7; discriminate]. rewrite (E8 eq_refl). cbn. auto.
    + split; [reflexivity|]. intros H. exfalso. assert (can_merge (s_neurons s) (n_func n) (n_W n) = true) as C; [|congruence].
      apply (can_merge_iff _ _ _ N1). intros g Hg E. apply H; auto. now left.
Qed.

(** Loading a model into an object with an accelerator *)
Theorem load_accelerated : forall e a m, e_accel e = Some a -> wf_net (e_net e) ->
  NoDup (map n_func (sv_neurons m)) -> sv_neurons m <> [] ->
  let old := s_neurons (e_net e) in
  (~ same_height old (sv_neurons m) -> snd (update_from e m) = Err ValueError) /\
  (same_height old (sv_neurons m) ->
     (forall B, sv_B m = Some B -> length B = nneurons (sv_neurons m) ->
        snd (update_from e m) = if ((nneurons old =? 0) && (sv_outputs m =? s_outputs (e_net e)))%nat then Ok tt else Err AssertionError) /\
     (sv_B m = None -> snd (update_from e m) = Ok tt) /\
     let e' := fst (update_from e m) in
     joined old (sv_neurons m) (s_neurons (e_net e')) /\ s_norm (e_net e') = sv_norm m /\
     s_inputs (e_net e') = s_inputs (e_net e) /\ s_outputs (e_net e') = s_outputs (e_net e) /\
     s_B (e_net e') = (if is_ok (snd (update_from e m)) then sv_B m else None) /\ s_HH (e_net e') = None /\ s_HT (e_net e') = None).
Proof.
  intros e a m Ha HW ND Hne old. unfold update_from. rewrite Ha.
  destruct (load_joins (sv_neurons m) (e_net e) (wf_types _ HW) ND) as (L1 & L2). fold old in L1, L2. split.
  - intros H. specialize (L1 H). destruct (load_neurons (e_net e) (sv_neurons m)) as [s1 [u|x]]; [discriminate|exact L1].
  - intros H. destruct (L2 H) as (s' & E0 & E1 & E2 & E3 & E4 & E5 & E6 & E7 & _). destruct (E7 Hne) as (F1 & F2 & F3 & F4). rewrite E0.
    unfold set_B. cbn [s_L with_norm s_outputs]. rewrite F1, E2, E4. split; [|split].
    + intros B EB HB. rewrite EB, HB. fold old. destruct (Nat.eqb_spec (nneurons (sv_neurons m)) (nneurons old + nneurons (sv_neurons m))), (Nat.eqb_spec (nneurons old) 0); try lia; cbn [andb].
      * destruct (sv_outputs m =? s_outputs (e_net e))%nat; reflexivity.
      * reflexivity.
    + intros EB. rewrite EB. reflexivity.
    + destruct (sv_B m) as [B|]; [|cbn; auto 10]. destruct (length B =? _)%nat; [destruct (sv_outputs m =? _)%nat|]; cbn; auto 10.
Qed.

(** ** C94 *)
Theorem set_B_iff : forall s r c B, wf_net s -> s_neurons s <> [] ->
  (set_B s r c B = (with_B s (Some B), Ok tt) /\ r = nneurons (s_neurons s) /\ c = s_outputs s) \/
  (set_B s r c B = (s, Err AssertionError) /\ ~ (r = nneurons (s_neurons s) /\ c = s_outputs s)).
Proof.
  intros s r c B HW Hn. unfold set_B. destruct (wf_count s HW) as [->|[_ C]]; [|congruence].
  destruct (Nat.eqb_spec r (nneurons (s_neurons s))); [|right; split; [auto|lia]]. destruct (Nat.eqb_spec c (s_outputs s)); [left; auto|right; split; [auto|lia]].
Qed.
Theorem set_corr_iff : forall s r0 r1 HH t0 t1 HT, wf_net s -> s_neurons s <> [] ->
  let L := nneurons (s_neurons s) in
  (set_corr s r0 r1 HH t0 t1 HT = (with_corr s (Some HH) (Some HT), Ok tt) /\ r0 = L /\ r1 = L /\ t0 = L /\ t1 = s_outputs s) \/
  (set_corr s r0 r1 HH t0 t1 HT = (s, Err AssertionError) /\ ~ (r0 = L /\ r1 = L /\ t0 = L /\ t1 = s_outputs s)).
Proof.
  intros s r0 r1 HH t0 t1 HT HW Hn L. unfold set_corr. destruct (wf_count s HW) as [->|[_ C]]; [|congruence]. fold L.
  destruct (Nat.eqb_spec r0 r1); cbn [negb]; [|right; split; [auto|lia]]. destruct (Nat.eqb_spec r0 L); cbn [negb]; [|right; split; [auto|lia]].
  destruct (Nat.eqb_spec r0 t0); cbn [negb]; [|right; split; [auto|lia]]. destruct (Nat.eqb_spec t1 (s_outputs s)); cbn [negb]; [left|right; split; [auto|lia]].
  repeat (split; auto); congruence.
Qed.
Theorem set_without_neurons : forall s r c B r0 r1 HH t0 t1 HT, wf_net s -> s_neurons s = [] -> s_L s = None ->
  set_B s r c B = (s, Err TypeError) /\ set_corr s r0 r1 HH t0 t1 HT = (s, Err TypeError).
Proof. intros s r c B r0 r1 HH t0 t1 HT _ _ H. unfold set_B, set_corr. rewrite H. auto. Qed.

(** add_neurons with given weights and biases *)
Theorem add_neurons_iff : forall e n func c W B rW rB, wf_net (e_net e) ->
  (exists f, parse_func func = Some f /\ (0 <= n)%Z /\ length W = s_inputs (e_net e) /\ c = Z.to_nat n /\ length B = Z.to_nat n) <->
  snd (add_neurons e n func (Some (c, W)) (Some B) rW rB) = Ok tt.
Proof.
  intros e n func c W B rW rB HW. unfold add_neurons. destruct (parse_func func) as [f|].
  2: { split; [intros (f & E & _); discriminate|discriminate]. }
  destruct (Z.ltb_spec n 0) as [L|L]; cbn [fst snd]; [split; [intros (g & _ & C & _); lia|discriminate]|].
  destruct (Nat.eqb_spec (length W) (s_inputs (e_net e))) as [E1|E1]; cbn [andb]; [|split; [intros (g & _ & _ & C & _); lia|discriminate]].
  destruct (Nat.eqb_spec c (Z.to_nat n)) as [E2|E2]; [|split; [intros (g & _ & _ & _ & C & _); lia|discriminate]].
  destruct (Nat.eqb_spec (length B) (Z.to_nat n)) as [E3|E3]; [|split; [intros (g & _ & _ & _ & _ & C); lia|discriminate]].
  assert (can_merge (s_neurons (e_net e)) f W = true) as EM.
  { apply can_merge_iff; [apply wf_types; auto|]. intros g Hg _. pose proof (wf_groups _ HW) as G. rewrite Forall_forall in G. destruct (G g Hg) as [[G1 _] _]. lia. }
  rewrite EM. split; [reflexivity|]. intros _. exists f. auto.
Qed.
(** ... with the default weights and biases: whatever the number *)
Theorem add_neurons_default_iff : forall e n func rW rB, wf_net (e_net e) -> rand_shapes (s_inputs (e_net e)) rW rB ->
  snd (add_neurons e n func None None rW rB) = Ok tt <-> (0 <= n)%Z /\ exists f, parse_func func = Some f.
Proof.
  intros e n func rW rB HW HR. unfold add_neurons. destruct (parse_func func) as [f|].
  2: { split; [discriminate|intros (_ & f & E); discriminate]. }
  destruct (Z.ltb_spec n 0) as [L|L]; cbn [fst snd]; [split; [discriminate|intros (C & _); lia]|].
  set (num := if is_lin f then Nat.min (Z.to_nat n) (s_inputs (e_net e)) else Z.to_nat n).
  assert (is_mat (s_inputs (e_net e)) num (default_W f (s_inputs (e_net e)) num rW) /\ length (default_B f (s_inputs (e_net e)) num rB) = num) as ((E1 & _) & E2).
  { split; [eapply default_W_shape; eassumption|]. destruct (HR num) as [_ HB]. unfold default_B.
    destruct (is_lin f); [apply mkv_length|]. destruct (is_rbf f); rewrite ?map_length; exact HB. }
  rewrite E1, E2, !Nat.eqb_refl. cbn [andb].
  assert (can_merge (s_neurons (e_net e)) f (default_W f (s_inputs (e_net e)) num rW) = true) as EM.
  { apply can_merge_iff; [apply wf_types; auto|]. intros g Hg _. pose proof (wf_groups _ HW) as G. rewrite Forall_forall in G. destruct (G g Hg) as [[G1 _] _]. lia. }
  rewrite EM. split; [|reflexivity]. intros _. split; auto. eauto.
Qed.
End Accept.
