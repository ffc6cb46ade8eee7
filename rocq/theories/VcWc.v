(** HPELM.validation_corr with class weights (C47; reals): the errors that are reported and the model that is installed. *)
From Coq Require Import Reals Lra Lia.
From Verif Require Import Base Num Mat LinAlg Slfn Strs Elm Hpelm MatFacts SplitProofs Spec ElmFacts RLin
  AccProofs TrainProofs RidgeProofs WfProofs RangeThms TrainThms SolveThms NeuronThms FeatureThms ErrThms SelectThms SubThms RangeTrain VcThms.
Local Open Scope R_scope.
#[local] Existing Instance NumR.

(** the i-th piece of l cut into pieces of n *)
Definition piece {A} (n i : nat) (l : list A) : list A := firstn n (skipn (i * n) l).
(** class k occurs among the targets *)
Definition occurs (k : nat) (T : list (list R)) : Prop := exists t, In t T /\ entry t k = 1.

Section Steps.
Context {SG : @Sing NumR}.
Context (e : @elm NumR) (X T : list (list R)) (B : nat -> list (list R)) (cls : string) (er : Z * Z -> nat -> @xnum NumR).
Let s := e_net e.
Let c := s_outputs s.
Let H := map (hrow (s_neurons s)) X.
Let Y (l : nat) := outputs_of c (B l) (map (firstn l) H).
Let add (N : nat) (l : nat) (x : @xnum NumR) (ab : Z * Z) : @xnum NumR :=
  xadd x (xdiv (xmul (er ab l) (Fin (nofZ (snd ab - fst ab)))) (Fin (nof_nat N))).

Lemma vc_loop_any : forall L Ls, wf_net s -> usable s -> e_class e = Some cls -> In cls ["c"; "wc"; "ml"]%string -> (0 < e_batch e)%Z ->
  wide (s_inputs s) X -> length X = length T ->
  L = nneurons (s_neurons s) -> (forall l, In l Ls -> length (B l) = Nat.min l L) ->
  forall rs a b (x : nat -> xnum), tiles (e_batch e) a b rs -> (0 <= a)%Z -> (b <= Z.of_nat (length X))%Z ->
  (forall ab l, In ab rs -> In l Ls -> hp_error_ (e_class e) (e_wc e) (e_batch e) c (slice T (fst ab) (snd ab)) (slice (Y l) (fst ab) (snd ab)) 0 None = Ok (er ab l)) ->
  vc_loop e X T rs (map (fun l => mkCand l (B l) (x l) (counts cls c (slice T 0 a) (slice (Y l) 0 a))) Ls) =
  Ok (map (fun l => mkCand l (B l) (fold_left (add (length X) l) rs (x l)) (counts cls c (slice T 0 b) (slice (Y l) 0 b))) Ls).
Proof.
  intros L Ls HW HU Hcls Hin Hb HX HL EL HB. induction rs as [|[p q] rs IH]; intros a b x Ht Ha Hbn HE; cbn [tiles] in Ht.
  - subst b. reflexivity.
  - destruct Ht as (-> & H1 & H2 & H3). pose proof (tiles_le _ _ _ _ H3). cbn [vc_loop fst snd].
    fold s. rewrite project_ok; [|exact HU|now apply (@Forall_wide_slice NumR)]. cbn [rbind]. rewrite <- slice_map. fold H.
    rewrite (mapM_map_ok _ _ (fun l => @mkCand NumR l (B l) (add (length X) l (x l) (a, q)) (counts cls c (slice T 0 q) (slice (Y l) 0 q)))).
    + cbn [rbind]. cbn [fold_left]. apply (IH q b (fun l => add (length X) l (x l) (a, q))); auto; [lia|]. intros ab l Hab Hl. apply HE; [now right|exact Hl].
    + intros l Hl. unfold vc_update. cbn [cd_l cd_B cd_err cd_conf]. fold s c.
      assert (@mmul NumR c (map (firstn l) (slice H a q)) (B l) = slice (Y l) a q) as EY.
      { rewrite (mmul_outputs (Nat.min l L)); [|now apply HB|].
        - unfold Y, outputs_of. now rewrite !slice_map.
        - apply Forall_forall. intros h Hh. apply in_map_iff in Hh as (h0 & <- & Hi). unfold H in Hi. rewrite slice_map in Hi. apply in_map_iff in Hi as (y & <- & _).
          rewrite firstn_length. f_equal. rewrite EL. exact (hrow_length (s_inputs s) (s_neurons s) y (wf_groups _ HW)). }
      rewrite EY. pose proof (HE (a, q) l (or_introl eq_refl) Hl) as E1. cbn [fst snd] in E1.
      match goal with |- rbind ?h _ = _ => assert (h = Ok (er (a, q) l)) as -> by exact E1 end. cbn [rbind]. rewrite Hcls.
      assert (length (Y l) = length X) as LY by (unfold Y, outputs_of, H; now rewrite !map_length). cbn [num NumR] in *.
      rewrite (confusion_eq e cls c); auto.
      2:{ cbn [num NumR] in *. rewrite !slice_length_in by lia. reflexivity. }
      cbn [rbind]. f_equal. f_equal. unfold c, s. rewrite (counts_add e cls) by (cbn [num NumR] in *; rewrite !slice_length_in by lia; reflexivity). rewrite !slice_app by lia. reflexivity.
Qed.
End Steps.

Section Main.
Context {SG : @Sing NumR}.

(** the installed model is the candidate with index [xargmin] *)
Lemma vc_install : forall (e : @elm NumR) fs ss dX dT (X T H : list (list R)) Ls (ex : nat -> xnum) (cf : nat -> list (list R)),
  let s := e_net e in let L := getL s in let c := s_outputs s in
  let B l := solve_corr s (Nat.min l L) (@head_HH NumR l (spec_HH L (s_norm s) ss)) (firstn l (spec_HT L c ss)) in
  let best := nth (xargmin (map ex Ls)) Ls 0%nat in
  wf_net s -> (0 < e_batch e)%Z -> 0 < s_norm s ->
  f_HH fs = Some (L, spec_HH L (s_norm s) ss) -> f_HT fs = Some (c, spec_HT L c ss) -> good L ss ->
  data_ok e dX dT X T -> elm_project e (Arr2 (s_inputs s) X) = Ok H -> (xargmin (map ex Ls) < length Ls)%nat ->
  vc_loop e X T (ranges (e_batch e) 0 (Z.of_nat (length X)) (ceil_div (Z.of_nat (length X)) (e_batch e)))
    (map (vc_cand e (spec_HH L (s_norm s) ss) (spec_HT L c ss)) Ls) = Ok (map (fun l => mkCand l (B l) (ex l) (cf l)) Ls) ->
  (forall l, ridge_solution (Nat.min l L) c (s_norm s) (map (cut l) ss) (B l)) /\
  exists e', validation_corr e fs dX dT Ls = (e', Ok (Ls, map ex Ls, match e_class e with None => [] | Some _ => map cf Ls end)) /\
    forall cX X' H', elm_project e (Arr2 cX X') = Ok H' -> elm_predict e' (Arr2 cX X') = Ok (outputs_of c (B best) (map (firstn best) H')).
Proof.
  intros e fs ss dX dT X T H Ls ex cf s L c B best HW Hb Hn F1 F2 Hg HD HH K1 HV2.
  assert (usable s /\ H = map (hrow (s_neurons s)) X) as [HU EH].
  { unfold elm_project, check_arr in HH. fold s in HH. rewrite Nat.eqb_refl in HH. cbn [rbind] in HH. destruct (@project_inv NumR _ _ _ HH) as (A1 & _ & A2). auto. }
  assert (forall l, ridge_solution (Nat.min l L) c (s_norm s) (map (cut l) ss) (B l)) as HR by (intros l; exact (vc_cand_ridge e ss l Hn Hg)).
  split; [exact HR|].
  assert (L = nneurons (s_neurons s)) as EL by (unfold L; exact (wf_getL _ HW)).
  assert (forall l, length (B l) = Nat.min l L) as HBl by (intros l; destruct (HR l) as ((Q & _) & _); exact Q).
  assert (checkcorr e fs = Ok (spec_HH L (s_norm s) ss, spec_HT L c ss)) as ECC.
  { unfold checkcorr. rewrite F1, F2. fold s L c. rewrite (spec_HH_len L), (spec_HT_len L), !Nat.eqb_refl. cbn [andb].
    destruct HU as [HU _]. destruct (s_neurons s); [congruence|reflexivity]. }
  set (s1 := prune s (seq 0 best)).
  assert (s1 = prune s (seq 0 (Nat.min best L))) as Es1 by (unfold s1, prune; rewrite prune_head, <- EL; reflexivity).
  assert (forall i, In i (seq 0 (Nat.min best L)) -> (i < getL (e_net e))%nat) as HI by (intros i Hi; apply in_seq in Hi; fold s L; lia).
  destruct (prune_features e _ HW HI) as (cols & Ec & _ & ELn & _ & Hpr). cbn zeta in ELn, Hpr. fold s in ELn, Hpr, Ec. rewrite <- Es1 in ELn, Hpr.
  rewrite seq_length in ELn. cbn [e_net with_net] in ELn.
  assert (cols = seq 0 (Nat.min best L)) as -> by (rewrite Ec; apply regroup_head; rewrite EL; unfold nneurons; lia).
  assert (set_B s1 (length (B best)) (s_outputs s1) (B best) = (with_B s1 (Some (B best)), Ok tt)) as ESB.
  { unfold set_B. cbn [num NumR] in *. rewrite ELn, HBl, !Nat.eqb_refl. reflexivity. }
  set (stage := fun l => mkCand l (B l) (ex l) (cf l)) in HV2.
  exists (with_net e (with_B s1 (Some (B best)))). split.
  - unfold validation_corr. rewrite (hp_check_ok _ _ _ _ _ HD), ECC. rewrite nbatches_eq by exact Hb. cbn [rbind]. cbn [num NumR] in *. rewrite HV2.
    destruct (map stage Ls) as [|c0 cs] eqn:Est; [destruct Ls; [cbn in K1; lia|discriminate]|]. rewrite <- Est.
    assert (map cd_err (map stage Ls) = map ex Ls) as -> by (rewrite !map_map; reflexivity).
    assert (nth (xargmin (map ex Ls)) (map stage Ls) c0 = stage best) as -> by (rewrite (nth_indep _ c0 (stage 0%nat)) by (rewrite map_length; exact K1); apply map_nth).
    cbn [cd_l cd_B stage]. fold s s1. rewrite ESB. f_equal. f_equal. rewrite !map_map. cbn [cd_l cd_conf]. rewrite map_id. f_equal.
  - intros cX X' H' E'. specialize (Hpr cX X' H' E').
    unfold elm_project, elm_predict in *. cbn [e_net with_net] in *. change (s_inputs (with_B s1 (Some (B best)))) with (s_inputs s1).
    destruct (check_arr (Arr2 cX X') (s_inputs s1)) as [x|]; [|discriminate]. cbn [rbind] in *. unfold predict. cbn [s_B with_B].
    change (project (with_B s1 (Some (B best))) x) with (project s1 x). rewrite Hpr. cbn [rbind]. f_equal.
    change (s_outputs (with_B s1 (Some (B best)))) with c.
    assert (forall h, In h H' -> length h = L) as HW'.
    { fold s in E'. destruct (check_arr (Arr2 cX X') (s_inputs s)) as [x0|]; [|discriminate]. cbn [rbind] in E'. destruct (@project_inv NumR _ _ _ E') as (_ & _ & ->).
      intros h Hh. apply in_map_iff in Hh as (y & <- & _). rewrite EL. exact (hrow_length (s_inputs s) (s_neurons s) y (wf_groups _ HW)). }
    assert (map (fun h => map (fun i => nth i h (@n0 NumR)) (seq 0 (Nat.min best L))) H' = map (firstn best) H') as ->.
    { apply map_ext_in. intros h Hh. specialize (HW' h Hh). etransitivity; [apply (firstn_keep (Nat.min best L) h); cbn [num NumR] in *; lia|]. symmetry. now apply head_min. }
    apply (mmul_outputs (Nat.min best L)); [apply HBl|]. apply Forall_forall. intros h Hh. apply in_map_iff in Hh as (h0 & <- & Hin). rewrite firstn_length.
    specialize (HW' h0 Hin). cbn [num NumR] in *. lia.
Qed.

(** ** pieces *)
Lemma slice_piece : forall {A} (l : list A) b i n, (0 < b)%Z -> n = Z.to_nat b ->
  slice l (fst (bounds b 0 (Z.of_nat (length l)) (Z.of_nat i))) (snd (bounds b 0 (Z.of_nat (length l)) (Z.of_nat i))) = piece n i l.
Proof.
  intros A l b i n Hb ->. unfold bounds, piece, slice. cbn [fst snd]. rewrite !Z.add_0_r.
  assert (forall z, (0 <= z)%Z -> py_bound (length l) z = Nat.min (Z.to_nat z) (length l)) as HP.
  { intros z Hz. unfold py_bound. destruct (Z.ltb_spec z 0); lia. }
  rewrite !HP by lia. replace (Z.to_nat (Z.of_nat i * b)) with (i * Z.to_nat b)%nat by lia.
  destruct (Nat.le_gt_cases (length l) (i * Z.to_nat b)) as [G|G].
  - rewrite (skipn_all2 l) by lia. rewrite (skipn_all2 (n := (i * Z.to_nat b)%nat) l) by lia. now rewrite !firstn_nil.
  - rewrite (Nat.min_l (i * Z.to_nat b)) by lia.
    assert (length (skipn (i * Z.to_nat b) l) = length l - i * Z.to_nat b)%nat as LS by apply skipn_length.
    destruct (Z.le_gt_cases ((Z.of_nat i + 1) * b) (Z.of_nat (length l))) as [G2|G2].
    + f_equal. rewrite Z.min_l by lia. lia.
    + rewrite !firstn_all2; [reflexivity|lia|]. rewrite LS. lia.
Qed.

(** ** the errors *)
Definition present (c : nat) (P : list (list R)) : bool := forallb (fun k => existsb (in_class k) P) (seq 0 c).
Lemma occurs_existsb : forall k P, existsb (in_class k) P = true <-> occurs k P.
Proof.
  intros k P. unfold occurs, in_class. rewrite existsb_exists. split; intros (t & H1 & H2); exists t; (split; [exact H1|]).
  - destruct (Req_EM_T (entry t k) 1); [assumption|discriminate].
  - destruct (Req_EM_T (entry t k) 1); [reflexivity|congruence].
Qed.
Lemma members_nil : forall k (P Q : list (list R)), length P = length Q -> (members P Q k = [] <-> existsb (in_class k) P = false).
Proof.
  intros k. unfold members. induction P as [|t P IH]; intros [|y Q] HL; try discriminate; [now cbn|]. cbn [combine filter existsb fst].
  destruct (in_class k t); cbn [orb]; [split; discriminate|]. apply IH. now injection HL.
Qed.
Lemma present_true : forall c P, present c P = true <-> forall k, (k < c)%nat -> occurs k P.
Proof.
  intros c P. unfold present. rewrite forallb_forall. split; intros H k Hk.
  - apply occurs_existsb. apply H. apply in_seq. lia.
  - apply occurs_existsb. apply H. apply in_seq in Hk. lia.
Qed.
Lemma present_false : forall c P, present c P = false -> exists k, (k < c)%nat /\ existsb (in_class k) P = false.
Proof.
  intros c P H. unfold present in H.
  assert (forall l, forallb (fun k => existsb (in_class k) P) l = false -> exists k, In k l /\ existsb (in_class k) P = false) as G.
  { induction l as [|a l IH]; cbn [forallb]; intros E; [discriminate|]. apply andb_false_iff in E as [E|E].
    - exists a. split; [now left|exact E].
    - destruct (IH E) as (k & K1 & K2). exists k. split; [now right|exact K2]. }
  destruct (G _ H) as (k & K1 & K2). exists k. split; [apply in_seq in K1; lia|exact K2].
Qed.

Definition wcx (c : nat) (ws : list R) (T Y : list (list R)) : @xnum NumR := if present c T then @Fin NumR (weighted_err ws T Y) else @XNaN NumR.
Lemma hp_error_wcx : forall (e : @elm NumR) ws c (T Y : list (list R)),
  e_class e = Some "wc"%string -> e_wc e = Some (fin_all ws) -> s_outputs (e_net e) = c -> length ws = c -> Rsum ws <> 0 -> (0 < e_batch e)%Z ->
  wide c T -> wide c Y -> length T = length Y ->
  @hp_error_ NumR (e_class e) (e_wc e) (e_batch e) c T Y 0 None = Ok (wcx c ws T Y).
Proof.
  intros e ws c T Y He Hw Ho Hlw Hs Hb HT HY Hl.
  assert (forall M : list (list R), range_of M 0 None = M) as ER by (intros M; reflexivity). unfold wcx.
  destruct (present c T) eqn:EP.
  - pose proof (hp_error_wc e ws (SArr (Arr2 c T)) (SArr (Arr2 c Y)) c T Y 0 None He Hw Ho Hlw Hs Hb (or_introl eq_refl) (or_introl eq_refl) HT HY Hl ltac:(lia)) as E.
    rewrite !ER in E. unfold hp_error in E. rewrite Ho in E. cbn [check_src check_arr] in E. rewrite Nat.eqb_refl in E. cbn [rbind Z.of_nat zcount option_map] in E.
    apply E. intros k Hk C. apply (members_nil k T Y Hl) in C. apply present_true with (k := k) in EP; auto. apply occurs_existsb in EP. congruence.
  - destruct (present_false _ _ EP) as (k & Hk & EK).
    pose proof (hp_error_wc_absent e ws (SArr (Arr2 c T)) (SArr (Arr2 c Y)) c T Y 0 None k He Hw Ho Hlw Hb (or_introl eq_refl) (or_introl eq_refl) HT HY Hl ltac:(lia) Hk) as E.
    rewrite !ER in E. unfold hp_error in E. rewrite Ho in E. cbn [check_src check_arr] in E. rewrite Nat.eqb_refl in E. cbn [rbind Z.of_nat zcount option_map] in E.
    apply E. now apply members_nil.
Qed.

Lemma bounds_len : forall b i n m bt, (0 < b)%Z -> bt = Z.to_nat b -> (n <= m * bt)%nat -> (m * bt < n + bt)%nat -> (i < m)%nat ->
  (snd (bounds b 0 (Z.of_nat n) (Z.of_nat i)) - fst (bounds b 0 (Z.of_nat n) (Z.of_nat i)))%Z = Z.of_nat (Nat.min bt (n - i * bt)).
Proof.
  intros b i n m bt Hb -> H1 H2 Hi. unfold bounds. cbn [fst snd]. rewrite !Z.add_0_r.
  assert (i * Z.to_nat b <= m * Z.to_nat b - Z.to_nat b)%nat by nia. nia.
Qed.
Lemma piece_length : forall {A} n i (l : list A), length (piece n i l) = Nat.min n (length l - i * n).
Proof. intros A n i l. unfold piece. now rewrite firstn_length, skipn_length. Qed.

Lemma fold_fin : forall (f : nat -> R) (g : nat -> nat) N l (x : R), INR N <> 0 ->
  fold_left (fun (x : @xnum NumR) i => xadd x (xdiv (xmul (@Fin NumR (f i)) (@Fin NumR (nofZ (Z.of_nat (g i))))) (@Fin NumR (nof_nat N)))) l (@Fin NumR x)
  = @Fin NumR (x + Rsum (map (fun i => INR (g i) / INR N * f i) l)).
Proof.
  intros f g N l. induction l as [|i l IH]; intros x HN; cbn [fold_left map].
  - change (Rsum []) with 0. now rewrite Rplus_0_r.
  - rewrite nof_nat_INR. cbn [xmul xdiv]. rewrite nofZ_INR, np_div_R by exact HN. cbn [xadd].
    rewrite nof_nat_INR in IH. rewrite IH by exact HN. f_equal. change (@nadd NumR) with Rplus. change (@nmul NumR) with Rmult.
    assert (forall a r, Rsum (a :: r) = a + Rsum r) as RC by reflexivity. rewrite RC. generalize (Rsum (map (fun i0 => INR (g i0) / INR N * f i0) l)). intros z.
    cbn [num NumR] in *. field. exact HN.
Qed.
Lemma fold_nan : forall (f : nat -> @xnum NumR) (w : nat -> @xnum NumR) N l, (forall i, exists a, w i = Fin a) ->
  (exists i, In i l /\ f i = XNaN) -> forall x, fold_left (fun x i => xadd x (xdiv (xmul (f i) (w i)) N)) l x = @XNaN NumR.
Proof.
  intros f w N l HW. 
  assert (forall q, fold_left (fun x i => xadd x (xdiv (xmul (f i) (w i)) N)) q XNaN = @XNaN NumR) as Z by (induction q as [|i q IH]; [reflexivity|exact IH]).
  induction l as [|i l IH]; intros (j & Hj & Ej) x; [destruct Hj|]. cbn [fold_left]. destruct Hj as [->|Hj]; [|apply IH; eauto].
  rewrite Ej. destruct (HW j) as [a ->]. cbn [xmul xdiv].
  assert (xadd x XNaN = @XNaN NumR) as -> by now destruct x. apply Z.
Qed.
Lemma fold_left_ext_in : forall {A B} (f g : A -> B -> A) l x, (forall x b, In b l -> f x b = g x b) -> fold_left f l x = fold_left g l x.
Proof.
  intros A B f g l. induction l as [|b l IH]; intros x H; [reflexivity|]. cbn [fold_left]. rewrite H by now left. apply IH. intros; apply H. now right.
Qed.
Lemma fold_left_map : forall {A B C} (f : A -> C -> A) (g : B -> C) l x, fold_left f (map g l) x = fold_left (fun x b => f x (g b)) l x.
Proof. intros A B C f g l. induction l as [|b l IH]; intros x; [reflexivity|]. cbn. apply IH. Qed.

Lemma xargmin_nan : forall (l : list (@xnum NumR)), Forall (fun x => x = XNaN) l -> xargmin l = 0%nat.
Proof.
  intros [|x l] H; [reflexivity|]. inversion H as [|? ? -> H']; subst. cbn [xargmin]. generalize 1%nat.
  induction l as [|y l IH]; intros n; [reflexivity|]. inversion H'; subst. cbn [xargmin_from xlt]. apply IH; auto.
Qed.

(** common part of the two theorems *)
Lemma validation_wc : forall (e : @elm NumR) fs ss dX dT (X T H : list (list R)) Ls ws m (ex : nat -> @xnum NumR),
  let s := e_net e in let L := getL s in let c := s_outputs s in let bt := Z.to_nat (e_batch e) in
  let B l := solve_corr s (Nat.min l L) (@head_HH NumR l (spec_HH L (s_norm s) ss)) (firstn l (spec_HT L c ss)) in
  let Y l := outputs_of c (B l) (map (firstn l) H) in
  (forall l, ex l = fold_left (fun x i => @xadd NumR x (@xdiv NumR (@xmul NumR (wcx c ws (piece bt i T) (piece bt i (Y l))) (@Fin NumR (nofZ (Z.of_nat (length (piece bt i T))))))
                                              (@Fin NumR (nof_nat (length T))))) (seq 0 m) (@Fin NumR 0)) ->
  let best := nth (xargmin (map ex Ls)) Ls 0%nat in
  wf_net s -> e_class e = Some "wc"%string -> e_wc e = Some (fin_all ws) -> length ws = c -> Rsum ws <> 0 -> (0 < e_batch e)%Z -> 0 < s_norm s ->
  f_HH fs = Some (L, spec_HH L (s_norm s) ss) -> f_HT fs = Some (c, spec_HT L c ss) -> good L ss ->
  data_ok e dX dT X T -> elm_project e (Arr2 (s_inputs s) X) = Ok H ->
  (length T <= m * bt)%nat -> (m * bt < length T + bt)%nat -> (xargmin (map ex Ls) < length Ls)%nat ->
  (forall l, ridge_solution (Nat.min l L) c (s_norm s) (map (cut l) ss) (B l)) /\
  exists e', validation_corr e fs dX dT Ls = (e', Ok (Ls, map ex Ls, map (fun l => counts "wc" c T (Y l)) Ls)) /\
    forall cX X' H', elm_project e (Arr2 cX X') = Ok H' -> elm_predict e' (Arr2 cX X') = Ok (outputs_of c (B best) (map (firstn best) H')).
Proof.
  intros e fs ss dX dT X T H Ls ws m ex s L c bt B Y Hex best HW Hcls Hwc Hlw Hs Hb Hn F1 F2 Hg HD HH Hm1 Hm2 K1.
  assert (usable s /\ wide (s_inputs s) X /\ H = map (hrow (s_neurons s)) X) as (HU & HX & EH).
  { unfold elm_project, check_arr in HH. fold s in HH. rewrite Nat.eqb_refl in HH. cbn [rbind] in HH. exact (@project_inv NumR _ _ _ HH). }
  pose proof HD as (_ & _ & HLen & _ & HT). fold s c in HT.
  assert (Z.of_nat m = ceil_div (Z.of_nat (length X)) (e_batch e)) as Em by (apply ceil_div_unique; [exact Hb|]; cbn [num NumR] in *; unfold bt in *; nia).
  set (rs := ranges (e_batch e) 0 (Z.of_nat (length X)) (ceil_div (Z.of_nat (length X)) (e_batch e))).
  assert (rs = map (fun i => bounds (e_batch e) 0 (Z.of_nat (length T)) (Z.of_nat i)) (seq 0 m)) as Ers.
  { unfold rs, ranges, zrange. rewrite <- Em, Nat2Z.id, map_map. cbn [num NumR] in *. now rewrite HLen. }
  assert (forall l, wide c (Y l)) as YW by (intros l; unfold Y, outputs_of, wide; apply Forall_forall; intros y Hy; apply in_map_iff in Hy as (h & <- & _); now rewrite map_length, seq_length).
  assert (forall l, length (Y l) = length T) as YL by (intros l; unfold Y, outputs_of; rewrite EH, !map_length; exact HLen).
  pose proof (vc_install e fs ss dX dT X T H Ls ex (fun l => counts "wc" c T (Y l)) HW Hb Hn F1 F2 Hg HD HH K1) as VI.
  rewrite Hcls in VI. apply VI. clear VI.
  fold s L c rs.
  assert (forall l, ridge_solution (Nat.min l L) c (s_norm s) (map (cut l) ss) (B l)) as HR by (intros l; exact (vc_cand_ridge e ss l Hn Hg)).
  assert (L = nneurons (s_neurons s)) as EL by (unfold L; exact (wf_getL _ HW)).
  pose proof (vc_loop_any e X T B "wc"%string (fun ab l => wcx c ws (slice T (fst ab) (snd ab)) (slice (Y l) (fst ab) (snd ab))) L Ls HW HU Hcls ltac:(cbn; auto) Hb HX HLen EL
    (fun l _ => proj1 (proj1 (HR l))) rs 0%Z (0 + Z.of_nat (length X))%Z (fun _ => @Fin NumR 0) (ranges_tiles _ _ _ Hb (Zle_0_nat _)) (Z.le_refl 0) (Z.le_refl _)) as HV.
  fold s c in HV. rewrite <- EH in HV. rewrite Z.add_0_l in HV.
  etransitivity; [|etransitivity; [apply HV|]].
  - f_equal.
  - intros ab l _ _. apply hp_error_wcx; auto.
    + now apply (@Forall_wide_slice NumR).
    + apply (@Forall_wide_slice NumR). apply YW.
    + assert (forall (P Q : list (list R)) a b, length P = length Q -> length (slice P a b) = length (slice Q a b)) as SL
        by (intros P Q a b E; unfold slice; rewrite !firstn_length, !skipn_length, E; reflexivity).
      apply SL. symmetry. exact (YL l).
  - f_equal. apply map_ext. intros l. specialize (YL l).
    assert (slice T 0 (Z.of_nat (length X)) = T) as E3 by (cbn [num NumR] in *; rewrite HLen; apply slice_all).
    assert (slice (Y l) 0 (Z.of_nat (length X)) = Y l) as E4 by (cbn [num NumR] in *; rewrite HLen, <- YL; apply slice_all).
    match goal with |- mkCand _ _ _ (counts _ _ ?p ?q) = _ => assert (p = T) as -> by exact E3; assert (q = Y l) as -> by exact E4 end. clear E3 E4.
    f_equal. rewrite Hex, Ers, fold_left_map. apply fold_left_ext_in. intros x i Hi. apply in_seq in Hi.
    assert (slice T (fst (bounds (e_batch e) 0 (Z.of_nat (length T)) (Z.of_nat i))) (snd (bounds (e_batch e) 0 (Z.of_nat (length T)) (Z.of_nat i))) = piece bt i T) as E1
      by (apply slice_piece; auto).
    assert (slice (Y l) (fst (bounds (e_batch e) 0 (Z.of_nat (length T)) (Z.of_nat i))) (snd (bounds (e_batch e) 0 (Z.of_nat (length T)) (Z.of_nat i))) = piece bt i (Y l)) as E2
      by (rewrite <- YL; apply slice_piece; auto).
    change (outputs_of c (B l) (map (firstn l) H)) with (Y l). cbn [num NumR] in *. rewrite E1, E2.
    rewrite (bounds_len (e_batch e) i (length T) m bt) by (auto; lia). rewrite piece_length, HLen. reflexivity.
Qed.

(** every piece of the targets has every class: the errors are the averages of the weighted errors of the pieces *)
Theorem validation_wc_finite : forall (e : @elm NumR) fs ss dX dT (X T H : list (list R)) Ls ws m,
  let s := e_net e in let L := getL s in let c := s_outputs s in let bt := Z.to_nat (e_batch e) in
  wf_net s -> e_class e = Some "wc"%string -> e_wc e = Some (fin_all ws) -> length ws = c -> Rsum ws <> 0 -> (0 < e_batch e)%Z -> 0 < s_norm s ->
  f_HH fs = Some (L, spec_HH L (s_norm s) ss) -> f_HT fs = Some (c, spec_HT L c ss) -> good L ss ->
  data_ok e dX dT X T -> X <> [] -> elm_project e (Arr2 (s_inputs s) X) = Ok H -> Ls <> [] ->
  (length T <= m * bt)%nat -> (m * bt < length T + bt)%nat -> (forall i k, (i < m)%nat -> (k < c)%nat -> occurs k (piece bt i T)) ->
  exists (B : nat -> list (list R)) e' best,
    let Y l := outputs_of c (B l) (map (firstn l) H) in
    let err l := Rsum (map (fun i => INR (length (piece bt i T)) / INR (length T) * weighted_err ws (piece bt i T) (piece bt i (Y l))) (seq 0 m)) in
    (forall l, In l Ls -> ridge_solution (Nat.min l L) c (s_norm s) (map (cut l) ss) (B l)) /\
    validation_corr e fs dX dT Ls = (e', Ok (Ls, map (fun l => @Fin NumR (err l)) Ls, map (fun l => counts "wc" c T (Y l)) Ls)) /\
    In best Ls /\ (forall l, In l Ls -> err best <= err l) /\
    forall cX X' H', elm_project e (Arr2 cX X') = Ok H' -> elm_predict e' (Arr2 cX X') = Ok (outputs_of c (B best) (map (firstn best) H')).
Proof.
  intros e fs ss dX dT X T H Ls ws m s L c bt HW Hcls Hwc Hlw Hs Hb Hn F1 F2 Hg HD HNe HH HLs Hm1 Hm2 Hocc.
  pose (B := fun l => solve_corr s (Nat.min l L) (@head_HH NumR l (spec_HH L (s_norm s) ss)) (firstn l (spec_HT L c ss))).
  pose (Y := fun l => outputs_of c (B l) (map (firstn l) H)).
  pose (err := fun l => Rsum (map (fun i => INR (length (piece bt i T)) / INR (length T) * weighted_err ws (piece bt i T) (piece bt i (Y l))) (seq 0 m))).
  assert (INR (length T) <> 0) as HN.
  { destruct HD as (_ & _ & HLen & _). apply not_0_INR. destruct X; [congruence|]. cbn [length num NumR] in *. lia. }
  pose proof (validation_wc e fs ss dX dT X T H Ls ws m (fun l => @Fin NumR (err l))) as V. cbn zeta in V. fold s L c bt in V.
  match type of V with ?P -> _ => assert P as EX end.
  { intros l. symmetry. etransitivity; [|etransitivity; [exact (fold_fin (fun i => weighted_err ws (piece bt i T) (piece bt i (Y l))) (fun i => length (piece bt i T)) (length T) (seq 0 m) 0 HN)|]].
    - apply fold_left_ext_in. intros x i Hi. unfold wcx. apply in_seq in Hi.
      assert (present c (piece bt i T) = true) as -> by (apply present_true; intros k Hk; apply Hocc; lia). reflexivity.
    - f_equal. apply Rplus_0_l. }
  specialize (V EX). clear EX. assert (map (fun l => @Fin NumR (err l)) Ls = map (@Fin NumR) (map err Ls)) as EM by now rewrite map_map.
  destruct (xargmin_spec (map err Ls)) as [K1 K2]; [destruct Ls; [congruence|discriminate]|].
  cbn zeta in K1, K2. rewrite <- EM, map_length in K1. rewrite <- EM in K2. clear EM. set (k := @xargmin NumR (map (fun l => @Fin NumR (err l)) Ls)) in *.
  destruct (V HW Hcls Hwc Hlw Hs Hb Hn F1 F2 Hg HD HH Hm1 Hm2 K1) as (V1 & e' & V2 & V3). clear V.
  exists B, e', (nth k Ls 0%nat). cbn zeta.
  assert (nth k (map err Ls) 0 = err (nth k Ls 0%nat)) as EB by (rewrite (nth_indep _ 0 (err 0%nat)) by (rewrite map_length; exact K1); apply map_nth).
  split; [intros l _; apply V1|]. split; [exact V2|]. split; [now apply nth_In|]. split; [|exact V3].
  intros l Hl. change (err (nth k Ls 0%nat) <= err l). rewrite <- EB. apply K2. now apply in_map.
Qed.

(** otherwise every error is NaN and the first size of the list is installed *)
Theorem validation_wc_nan : forall (e : @elm NumR) fs ss dX dT (X T H : list (list R)) l0 Ls ws m i k,
  let s := e_net e in let L := getL s in let c := s_outputs s in let bt := Z.to_nat (e_batch e) in
  wf_net s -> e_class e = Some "wc"%string -> e_wc e = Some (fin_all ws) -> length ws = c -> Rsum ws <> 0 -> (0 < e_batch e)%Z -> 0 < s_norm s ->
  f_HH fs = Some (L, spec_HH L (s_norm s) ss) -> f_HT fs = Some (c, spec_HT L c ss) -> good L ss ->
  data_ok e dX dT X T -> elm_project e (Arr2 (s_inputs s) X) = Ok H ->
  (length T <= m * bt)%nat -> (m * bt < length T + bt)%nat -> (i < m)%nat -> (k < c)%nat -> ~ occurs k (piece bt i T) ->
  exists (B : nat -> list (list R)) e',
    let Y l := outputs_of c (B l) (map (firstn l) H) in
    (forall l, ridge_solution (Nat.min l L) c (s_norm s) (map (cut l) ss) (B l)) /\
    validation_corr e fs dX dT (l0 :: Ls) = (e', Ok (l0 :: Ls, map (fun _ => @XNaN NumR) (l0 :: Ls), map (fun l => counts "wc" c T (Y l)) (l0 :: Ls))) /\
    forall cX X' H', elm_project e (Arr2 cX X') = Ok H' -> elm_predict e' (Arr2 cX X') = Ok (outputs_of c (B l0) (map (firstn l0) H')).
Proof.
  intros e fs ss dX dT X T H l0 Ls ws m i k s L c bt HW Hcls Hwc Hlw Hs Hb Hn F1 F2 Hg HD HH Hm1 Hm2 Hi Hk Hocc.
  pose (B := fun l => solve_corr s (Nat.min l L) (@head_HH NumR l (spec_HH L (s_norm s) ss)) (firstn l (spec_HT L c ss))).
  pose (Y := fun l => outputs_of c (B l) (map (firstn l) H)).
  pose proof (validation_wc e fs ss dX dT X T H (l0 :: Ls) ws m (fun _ => @XNaN NumR)) as V. cbn zeta in V. fold s L c bt in V.
  match type of V with ?P -> _ => assert P as EX end.
  { intros l. symmetry. apply (fold_nan (fun i => wcx c ws (piece bt i T) (piece bt i (Y l))) (fun i => @Fin NumR (nofZ (Z.of_nat (length (piece bt i T)))))); [eauto|].
    exists i. split; [apply in_seq; lia|]. unfold wcx.
    assert (present c (piece bt i T) = false) as ->; [|reflexivity].
    apply not_true_is_false. intros E. apply Hocc. now apply (proj1 (present_true c (piece bt i T)) E). }
  specialize (V EX). clear EX.
  assert (xargmin (map (fun _ => @XNaN NumR) (l0 :: Ls)) = 0%nat) as EA by (apply xargmin_nan; apply Forall_forall; intros x Hx; apply in_map_iff in Hx as (? & <- & _); reflexivity).
  rewrite EA in V.
  destruct (V HW Hcls Hwc Hlw Hs Hb Hn F1 F2 Hg HD HH Hm1 Hm2 (Nat.lt_0_succ _)) as (V1 & e' & V2 & V3). exists B, e'. cbn zeta. split; [exact V1|]. split; [exact V2|exact V3].
Qed.
End Main.
