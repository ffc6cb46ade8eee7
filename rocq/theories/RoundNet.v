(** Rounding error of whole networks with 'lin', 'sigm' and 'tanh' neurons (C107). *)
From Coq Require Import ZArith Reals Lra Permutation Floats.SpecFloat.
From Verif Require Import Base Num Mat LinAlg Slfn Strs Elm Hpelm MatFacts SplitProofs ElmFacts TrainThms RangeThms ErrThms SumOf Float Rounding RoundThms WfProofs SubThms FeatureThms ConvertR Spec.
Local Open Scope R_scope.

(** ---- specification ---- *)
Section Net.
Context {K : Num} (RD : rounded K).
Notation val := (r_val K RD).
Notation fin := (r_fin K RD).
Notation u := (r_u K RD).
Notation eta := (r_eta K RD).
Notation bnd := (bnd RD).
Notation vals := (vals RD).
Notation mags := (mags RD).

(** how exact the functions of the library are *)
Record library (v : R) : Prop := mkLib {
  l_v : 0 <= v; l_one : val n1 = 1;
  l_tanh : forall a, fin a -> fin (ntanh a) -> Rabs (val (ntanh a) - tanh (val a)) <= v;
  l_exp : forall a, fin a -> fin (nexp a) -> Rabs (val (nexp a) - exp (val a)) <= v * exp (val a) + eta }.
(** rounding error of x . w + b *)
Definition sum_error (x w : vec) (b : num) : R := bnd (length x + 1) (Rsum (map2 (fun a c => Rabs (val a) * Rabs (val c)) x w) + Rabs (val b)) (2 * INR (length x)).
Definition kappa (v : R) : R := v + u + u * v + (2 + u) * eta.
Definition lib_error (v : R) (f : ftype) : R := match f with Tanh => v | Sigm => (kappa v + u) / (1 - kappa v) + eta | _ => 0 end.
(** neurons one by one: function, input weights, bias *)
Definition cell : Type := (ftype * vec * num)%type.
Definition cells (ns : list (@neuron K)) : list cell := concat (map (fun n => map (fun j => (n_func n, mcol (n_W n) j, vget (n_B n) j)) (seq 0 (length (n_B n)))) ns).
Definition c_err (v : R) (x : vec) (c : cell) : R := let '(f, w, b) := c in sum_error x w b + lib_error v f.
(** the weighted sums do not overflow *)
Definition no_overflow (x : vec) (c : cell) : Prop := let '(f, w, b) := c in
  fin (nadd (dotv x w) b) /\ (f = Sigm -> fin (nadd n1 (nexp (nadd (dotv x w) b)))).
(** the same network with real numbers *)
Definition exact_neuron (n : @neuron K) : @neuron NumR := @mkNeuron NumR (n_num n) (n_func n) (vals (n_W n)) (map val (n_B n)).
Definition exact_model (e : @elm K) (e' : @elm NumR) : Prop :=
  s_inputs (e_net e') = s_inputs (e_net e) /\ s_outputs (e_net e') = s_outputs (e_net e) /\ s_neurons (e_net e') = map exact_neuron (s_neurons (e_net e)) /\ s_B (e_net e') = option_map vals (s_B (e_net e)).

(** ---- one neuron ---- *)
Lemma sum_bound : forall x w b, length x = length w -> fin (nadd (dotv x w) b) ->
  Rabs (val (nadd (dotv x w) b) - (inner (length x) (map val x) (map val w) + val b)) <= sum_error x w b.
Proof.
  intros x w b HL HF.
  pose (f := fun o : option (num * num) => match o with Some p => nmul (fst p) (snd p) | None => b end).
  pose (s := fun o : option (num * num) => match o with Some p => val (fst p) * val (snd p) | None => val b end).
  pose (A := fun o : option (num * num) => match o with Some p => Rabs (val (fst p)) * Rabs (val (snd p)) | None => Rabs (val b) end).
  pose (m := fun o : option (num * num) => match o with Some p => 1 | None => 0 end).
  set (l := map Some (combine x w) ++ [None]).
  assert (sum_of f l (nadd (dotv x w) b)) as S.
  { apply so_app; [|apply (so_one f None)]. unfold dotv. rewrite map2_combine. pose proof (so_nsum f (map Some (combine x w))) as Q. rewrite map_map in Q. exact Q. }
  destruct (sum_of_bound RD f s A m 1 l (nadd (dotv x w) b)) as [_ B]; [| |exact S|exact HF|].
  { intros [p|] _; unfold s, A, m; split; try lra. rewrite Rabs_mult. lra. }
  { intros [p|] _ HF'; unfold s, A, m, f in *; [apply mul_bound; exact HF'|]. rewrite Rminus_eq_0, Rabs_R0. apply bnd_pos; [apply Rabs_pos|lra]. }
  assert (forall g : option (num * num) -> R, Rsum (map g l) = Rsum (map (fun p => g (Some p)) (combine x w)) + g None) as ES.
  { intros g. unfold l. rewrite map_app, Rounding.Rsum_app, map_map. cbn. lra. }
  rewrite !ES in B. unfold s, A, m in B. rewrite Rsum_ones in B.
  assert (length (combine x w) = length x) as EL by (rewrite combine_length; lia). unfold l in B. rewrite app_length, map_length, EL in B. cbn [length] in B.
  replace (pred (length x + 1)) with (length x) in B by lia. 
  assert (Rsum (map (fun p => val (fst p) * val (snd p)) (combine x w)) = inner (length x) (map val x) (map val w)) as E1.
  { unfold inner. f_equal. rewrite (map_seq_combine (fun a b => val a * val b) x w HL). apply map_ext_in. intros j Hj. apply in_seq in Hj. rewrite !(entry_vals RD). reflexivity. }
  rewrite E1 in B. unfold sum_error. rewrite map2_combine. apply Rle_trans with (1 := B). apply bnd_mono; [lia| |].
  - split; [|lra]. pose proof (Rabs_pos (val b)). assert (0 <= Rsum (map (fun p => Rabs (val (fst p)) * Rabs (val (snd p))) (combine x w))); [|lra]. apply Rounding.Rsum_nonneg. intros p _. apply Rmult_le_pos; apply Rabs_pos.
  - pose proof (pos_INR (length x)). lra.
Qed.
Lemma sigm_error : forall v z, library v -> kappa v < 1 -> fin z -> fin (nadd n1 (nexp z)) -> fin (ndiv n1 (nadd n1 (nexp z))) ->
  Rabs (val (ndiv n1 (nadd n1 (nexp z))) - 1 / (1 + exp (val z))) <= (kappa v + u) / (1 - kappa v) + eta.
Proof.
  intros v z [Hv H1 _ He] Hk Fz Fs Fd. destruct (r_add K RD _ _ Fs) as (_ & Fe & Es). specialize (He z Fz Fe). rewrite H1 in Es.
  set (E := val (nexp z)) in *. set (S := val (nadd n1 (nexp z))) in *. set (e := exp (val z)) in *.
  pose proof (exp_pos (val z)) as Pe. fold e in Pe. pose proof (r_u_pos K RD) as Pu. pose proof (r_eta_pos K RD) as Pt.
  assert (0 <= u * v) as Puv by (apply Rmult_le_pos; auto). set (k := kappa v) in *. assert (k = v + u + u * v + (2 + u) * eta) as Ek by reflexivity.
  assert (Rabs (1 + E) <= 1 + e + v * e + eta) as B1. { replace (1 + E) with ((1 + e) + (E - e)) by ring. eapply Rle_trans; [apply Rabs_triang|]. rewrite (Rabs_right (1 + e)) by lra. lra. }
  assert (Rabs (S - (1 + e)) <= k * (1 + e)) as B2.
  { replace (S - (1 + e)) with ((S - (1 + E)) + (E - e)) by ring. eapply Rle_trans; [apply Rabs_triang|].
    assert (u * Rabs (1 + E) <= u * (1 + e + v * e + eta)) as B3 by (apply Rmult_le_compat_l; lra). rewrite Ek.
    assert (0 <= eta * e) by (apply Rmult_le_pos; lra). assert (0 <= u * e) by (apply Rmult_le_pos; lra). assert (0 <= u * (eta * e)) by (apply Rmult_le_pos; lra). assert (0 <= u * v * e) by (apply Rmult_le_pos; lra). nra. }
  assert (0 < 1 + e) as PD by lra.
  assert ((1 - k) * (1 + e) <= S) as LS. { apply Rabs_def2_le in B2 || (unfold Rabs in B2; destruct (Rcase_abs (S - (1 + e))); nra). }
  assert (0 < 1 - k) as Pk by lra. assert (0 < S) as PS by (pose proof (Rmult_lt_0_compat _ _ Pk PD); lra).
  assert (1 - k <= S) as LS1 by nra.
  destruct (r_div K RD _ _ Fd Fs) as (_ & Ed); [fold S; lra|]. fold S in Ed. rewrite H1 in Ed.
  assert (Rabs (1 / S) <= 1 / (1 - k)) as B4.
  { rewrite Rabs_right by (apply Rle_ge, Rlt_le; unfold Rdiv; apply Rmult_lt_0_compat; [lra|now apply Rinv_0_lt_compat]). unfold Rdiv. rewrite !Rmult_1_l. apply Rinv_le_contravar; lra. }
  assert (Rabs (1 / S - 1 / (1 + e)) <= k / (1 - k)) as B5.
  { replace (1 / S - 1 / (1 + e)) with (- (S - (1 + e)) * (1 / S) * / (1 + e)) by (field; lra).
    rewrite !Rabs_mult, Rabs_Ropp. rewrite (Rabs_right (/ (1 + e))) by (apply Rle_ge, Rlt_le; now apply Rinv_0_lt_compat).
    apply Rle_trans with (k * (1 + e) * (1 / (1 - k)) * / (1 + e)).
    - apply Rmult_le_compat_r; [apply Rlt_le; now apply Rinv_0_lt_compat|]. apply Rmult_le_compat; auto using Rabs_pos.
    - right. field. lra. }
  replace (val (ndiv n1 (nadd n1 (nexp z))) - 1 / (1 + e)) with ((val (ndiv n1 (nadd n1 (nexp z))) - 1 / S) + (1 / S - 1 / (1 + e))) by ring.
  eapply Rle_trans; [apply Rabs_triang|]. assert (u * Rabs (1 / S) <= u * (1 / (1 - k))) as B6 by (apply Rmult_le_compat_l; lra).
  replace ((k + u) / (1 - k)) with (k / (1 - k) + u * (1 / (1 - k))) by (field; lra). lra.
Qed.
Lemma neuron_rounding : forall v f x w b z, library v -> kappa v < 1 -> In f [Lin; Sigm; Tanh] -> length x = length w -> no_overflow x (f, w, b) -> fin (act f x w b) ->
  neuron_value (length x) f (map val x) (map val w) (val b) z -> Rabs (val (act f x w b) - z) <= c_err v x (f, w, b).
Proof.
  intros v f x w b z HV Hk Hf HL (F1 & F2) Fa NV. pose proof (sum_bound x w b HL F1) as SB. unfold c_err. set (zr := inner (length x) (map val x) (map val w) + val b) in *.
  destruct Hf as [<-|[<-|[<-|[]]]]; cbn [act neuron_value lib_error] in *; subst z; fold zr.
  - lra.
  - pose proof (sigm_error v (nadd (dotv x w) b) HV Hk F1 (F2 eq_refl) Fa) as A. pose proof (sigm_lip (val (nadd (dotv x w) b)) zr) as Q.
    match goal with |- Rabs (?a - ?c) <= _ => replace (a - c) with ((a - 1 / (1 + exp (val (nadd (dotv x w) b)))) + (1 / (1 + exp (val (nadd (dotv x w) b))) - c)) by ring end. eapply Rle_trans; [apply Rabs_triang|]. lra.
  - pose proof (l_tanh v HV _ F1 Fa) as A. pose proof (tanh_lip (val (nadd (dotv x w) b)) zr) as Q.
    match goal with |- Rabs (?a - ?c) <= _ => replace (a - c) with ((a - tanh (val (nadd (dotv x w) b))) + (tanh (val (nadd (dotv x w) b)) - c)) by ring end. eapply Rle_trans; [apply Rabs_triang|]. lra.
Qed.

(** ---- the network ---- *)
Lemma concat_map2 : forall {A B C} (f : A -> list B) (g : B -> C) l, map g (concat (map f l)) = concat (map (fun a => map g (f a)) l).
Proof. intros. rewrite concat_map, map_map. reflexivity. Qed.
Lemma hrow_cells : forall ns x, hrow ns x = map (fun c : cell => act (fst (fst c)) x (snd (fst c)) (snd c)) (cells ns).
Proof. intros ns x. unfold cells, hrow. rewrite concat_map2. f_equal. apply map_ext. intros n. rewrite map_map. reflexivity. Qed.
Lemma mcol_vals : forall W j, @mcol NumR (vals W) j = map val (mcol W j).
Proof.
  intros W j. unfold mcol, vals, Rounding.vals. rewrite !map_map. apply map_ext. intros r. exact (entry_vals RD r j).
Qed.
Lemma hrow_exact : forall ns x, @hrow NumR (map exact_neuron ns) (map val x) = map (fun c : cell => @act NumR (fst (fst c)) (map val x) (map val (snd (fst c))) (val (snd c))) (cells ns).
Proof.
  intros ns x. unfold cells, hrow. rewrite concat_map2, map_map. f_equal. apply map_ext. intros n. unfold nrow, exact_neuron. cbn [n_func n_W n_B]. rewrite map_length, map_map. unfold mkv. apply map_ext. intros j. cbn [fst snd].
  rewrite mcol_vals. f_equal. exact (entry_vals RD (n_B n) j).
Qed.
Lemma cells_in : forall ns f w b, In (f, w, b) (cells ns) -> exists n, In n ns /\ n_func n = f /\ length w = length (n_W n).
Proof.
  intros ns f w b H. unfold cells in H. apply in_concat in H as (l & Hl & Hin). apply in_map_iff in Hl as (n & <- & Hn). apply in_map_iff in Hin as (j & Ej & _). injection Ej as <- <- <-.
  exists n. split; [exact Hn|]. split; [reflexivity|]. unfold mcol. apply map_length.
Qed.
Lemma predict1_close : forall (B : mat) h1 h2 er k, length h1 = length h2 -> length er = length h1 ->
  (forall i, (i < length h1)%nat -> Rabs (entry h1 i - entry h2 i) <= entry er i) ->
  Rabs (predict1 (vals B) h1 k - predict1 (vals B) h2 k) <= predict1 (mags B) er k.
Proof.
  intros B h1 h2 er k L1 L2 HE. unfold predict1. rewrite L2, <- L1.
  assert (forall i, entry (nth i (mags B) []) k = Rabs (entry (nth i (vals B) []) k)) as EM.
  { intros i. unfold mags, vals, Rounding.mags, Rounding.vals. change (@nil R) with (map (fun x => Rabs (val x)) []) at 1. rewrite (map_nth (map (fun x => Rabs (val x)))). rewrite (entry_mags RD). f_equal.
    change (@nil R) with (map val []). rewrite (map_nth (map val)). symmetry. apply (entry_vals RD). }
  assert (forall l, (forall i, In i l -> (i < length h1)%nat) -> Rabs (Rsum (map (fun i => entry h1 i * entry (nth i (vals B) []) k) l) - Rsum (map (fun i => entry h2 i * entry (nth i (vals B) []) k) l)) <= Rsum (map (fun i => entry er i * entry (nth i (mags B) []) k) l)) as Q.
  { induction l as [|i l IH]; intros Hl; [cbn; rewrite Rminus_eq_0, Rabs_R0; lra|]. cbn [map]. unfold Rsum in *. cbn [fold_right].
    specialize (IH (fun i Hi => Hl i (or_intror Hi))). match goal with |- Rabs (?a + ?p - (?b + ?q)) <= _ => replace (a + p - (b + q)) with ((a - b) + (p - q)) by ring end.
    eapply Rle_trans; [apply Rabs_triang|]. apply Rplus_le_compat; [|exact IH]. rewrite <- Rmult_minus_distr_r, Rabs_mult, EM. apply Rmult_le_compat_r; [apply Rabs_pos|]. apply HE, Hl. now left. }
  apply Q. intros i Hi. apply in_seq in Hi. lia.
Qed.
Lemma dot_fin : forall h c, length h = length c -> fin (dotv h c) -> forall i, (i < length h)%nat -> fin (vget h i).
Proof.
  intros h c HL HF i Hi.
  assert (sum_of (fun p => nmul (fst p) (snd p)) (combine h c) (dotv h c)) as S by (unfold dotv; rewrite map2_combine; apply so_nsum).
  destruct (sum_of_bound RD (fun p => nmul (fst p) (snd p)) (fun p => val (fst p) * val (snd p))
    (fun p => Rabs (val (fst p)) * Rabs (val (snd p))) (fun _ => 1) 1 (combine h c) (dotv h c)) as [Q _]; [| |exact S|exact HF|].
  { intros p _. split; [|lra]. rewrite Rabs_mult. lra. }
  { intros p _ HF'. apply mul_bound. exact HF'. }
  specialize (Q (vget h i, vget c i)). destruct (r_mul K RD (vget h i) (vget c i)) as (A & _); [|exact A]. apply Q.
  unfold vget. rewrite <- (combine_nth h c i n0 n0 HL). apply nth_In. rewrite combine_length. lia.
Qed.
(** [ok] is what is assumed of the values in a neuron, [er] bounds its error *)
Theorem network_close : forall (ok : vec -> cell -> Prop) (er : vec -> cell -> R) e e' X B Y, wf_net (e_net e) -> exact_model e e' ->
  (forall n x w b z, In n (s_neurons (e_net e)) -> length x = length w -> ok x (n_func n, w, b) -> fin (act (n_func n) x w b) ->
     neuron_value (length x) (n_func n) (map val x) (map val w) (val b) z -> Rabs (val (act (n_func n) x w b) - z) <= er x (n_func n, w, b)) -> s_B (e_net e) = Some B ->
  elm_predict e (Arr2 (s_inputs (e_net e)) X) = Ok Y ->
  exists (H : mat) (Yx : list (list R)), elm_project e (Arr2 (s_inputs (e_net e)) X) = Ok H /\ @elm_predict NumR e' (@Arr2 NumR (s_inputs (e_net e)) (vals X)) = Ok Yx /\
    forall r k, (r < length X)%nat -> (k < s_outputs (e_net e))%nat -> (forall c, In c (cells (s_neurons (e_net e))) -> ok (nth r X []) c) -> fin (mget Y r k) ->
      Rabs (val (mget Y r k) - entry (nth r Yx []) k) <=
      bnd (length B) (predict1 (mags B) (nth r (mags H) []) k) (2 * INR (length B)) + predict1 (mags B) (map (er (nth r X [])) (cells (s_neurons (e_net e)))) k.
Proof.
  intros ok er e e' X B Y HW (EI & EO & EN & EB') HC EB EP.
  pose proof (wf_weights _ HW) as WB. rewrite EB in WB. cbn in WB. destruct WB as (LB & _).
  assert (exists H, elm_project e (Arr2 (s_inputs (e_net e)) X) = Ok H) as (H & EH).
  { unfold elm_predict, elm_project in *. destruct (check_arr _ _) as [x|]; cbn [rbind] in *; [|discriminate]. unfold predict in EP. rewrite EB in EP. destruct (project _ x) as [h|]; [eauto|discriminate]. }
  assert (usable (e_net e) /\ wide (s_inputs (e_net e)) X /\ H = map (hrow (s_neurons (e_net e))) X) as (HU & WX & EHr).
  { unfold elm_project, check_arr in EH. rewrite Nat.eqb_refl in EH. cbn [rbind] in EH. now apply project_inv. }
  assert (forall x, length (hrow (s_neurons (e_net e)) x) = length B) as LHr by (intros x; rewrite LB; exact (hrow_length _ _ x (wf_groups _ HW))).
  destruct (predict_rounding RD e X H B Y EH EB EP) as (_ & PB).
  { intros h Hh. rewrite EHr in Hh. apply in_map_iff in Hh as (x & <- & _). apply LHr. }
  set (cs := cells (s_neurons (e_net e))) in *.
  assert (length cs = length B) as Lcs. { rewrite <- (LHr []). rewrite hrow_cells, map_length. reflexivity. }
  exists H, (outputs_of (s_outputs (e_net e)) (vals B) (map (@hrow NumR (s_neurons (e_net e'))) (vals X))). split; [exact EH|]. split.
  - unfold elm_predict, check_arr. rewrite EI, Nat.eqb_refl. cbn [rbind]. unfold predict. rewrite EB', EB. cbn [option_map].
    rewrite (@project_ok NumR); [cbn [rbind]; apply f_equal; rewrite EO; apply (mmul_outputs (length B)); [unfold vals, Rounding.vals; apply map_length|]| |].
    + apply Forall_forall. intros h Hh. apply in_map_iff in Hh as (x & <- & Hx). unfold vals, Rounding.vals in Hx. apply in_map_iff in Hx as (x' & <- & _). rewrite EN, hrow_exact, map_length. exact Lcs.
    + destruct HU as (U1 & U2). split; [rewrite EN; intros C; apply map_eq_nil in C; contradiction|]. rewrite EN, EI. revert U2. clear. induction (s_neurons (e_net e)) as [|n ns IH]; intros U; [reflexivity|]. cbn [map existsb] in *. apply orb_false_elim in U as [U1 U2]. rewrite IH by exact U2. rewrite orb_false_r. unfold bad_group in *. cbn [exact_neuron n_func n_W]. unfold vals, Rounding.vals. rewrite map_length. exact U1.
    + rewrite EI. unfold wide, vals, Rounding.vals in *. apply Forall_map. eapply Forall_impl; [|exact WX]. intros x Hx. cbn beta. rewrite map_length. exact Hx.
  - intros r k Hr Hkk NO FY. specialize (PB r k Hr Hkk FY). set (x := nth r X []) in *.
    assert (length x = s_inputs (e_net e)) as Lx. { unfold wide in WX. rewrite Forall_forall in WX. apply WX. unfold x. apply nth_In. exact Hr. }
    assert (nth r (vals H) [] = map val (hrow (s_neurons (e_net e)) x)) as EHv.
    { rewrite EHr. unfold vals, Rounding.vals. rewrite map_map. rewrite (nth_map_lt _ X r [] []) by exact Hr. reflexivity. }
    assert (entry (nth r (outputs_of (s_outputs (e_net e)) (vals B) (map (@hrow NumR (s_neurons (e_net e'))) (vals X))) []) k = predict1 (vals B) (@hrow NumR (s_neurons (e_net e')) (map val x)) k) as EX.
    { unfold outputs_of, vals, Rounding.vals. rewrite !map_map. rewrite (nth_map_lt _ X r [] []) by exact Hr. fold x. unfold entry. rewrite (nth_map_lt _ (seq 0 _) k 0%nat 0) by (rewrite seq_length; exact Hkk). rewrite seq_nth by exact Hkk. reflexivity. }
    refine (Rle_trans _ _ _ (Req_le _ _ (f_equal (fun q => Rabs (val (mget Y r k) - q)) EX)) _). rewrite EHv in PB.
    match type of PB with Rabs (?a - ?p) <= _ => match goal with |- Rabs (_ - ?q) <= _ => replace (a - q) with ((a - p) + (p - q)) by ring end end.
    eapply Rle_trans; [apply Rabs_triang|]. apply Rplus_le_compat; [exact PB|].
    assert (forall i, (i < length B)%nat -> fin (vget (hrow (s_neurons (e_net e)) x) i)) as FH.
    { intros i Hi. assert (mget Y r k = dotv (hrow (s_neurons (e_net e)) x) (mcol B k)) as EY.
      { unfold elm_predict, elm_project, check_arr in *. rewrite Nat.eqb_refl in *. cbn [rbind] in *. unfold predict in EP. rewrite EB, EH in EP. cbn [rbind] in EP. apply Ok_inj in EP. subst Y H.
        rewrite mget_mmul by (rewrite ?map_length; assumption). rewrite (nth_map_lt _ X r [] []) by exact Hr. reflexivity. }
      rewrite EY in FY. apply (dot_fin _ (mcol B k)); [|exact FY|rewrite LHr; exact Hi]. rewrite LHr. unfold mcol. now rewrite map_length. }
    rewrite EN, hrow_exact. fold cs. apply predict1_close.
    + rewrite map_length, LHr, map_length. symmetry. exact Lcs.
    + rewrite !map_length, LHr. exact Lcs.
    + rewrite map_length, LHr. intros i Hi. specialize (FH i Hi). rewrite (entry_vals RD).
      assert (i < length cs)%nat as Hc by (rewrite Lcs; exact Hi). unfold entry. pose (d0 := ((Lin, [], n0) : cell)).
      rewrite !(nth_map_lt _ cs i d0 0) by exact Hc. unfold vget in *. rewrite hrow_cells in FH |- *. fold cs in FH |- *. rewrite (nth_map_lt _ cs i d0 n0) in FH |- * by exact Hc.
      assert (In (nth i cs d0) cs) as Hin by (apply nth_In; exact Hc). destruct (nth i cs d0) as [[f w] b]. cbn [fst snd] in *.
      destruct (cells_in _ _ _ _ Hin) as (n & Hn & <- & Lw).
      assert (length x = length w) as Lxw.
      { rewrite Lw, Lx. destruct HU as (_ & U2). assert (bad_group (s_inputs (e_net e)) n = false) as Bn. { destruct (bad_group (s_inputs (e_net e)) n) eqn:E; [|reflexivity]. assert (existsb (bad_group (s_inputs (e_net e))) (s_neurons (e_net e)) = true) by (apply existsb_exists; exists n; auto). congruence. }
        unfold bad_group in Bn. apply orb_false_elim in Bn as [_ Bn]. apply negb_false_iff, Nat.eqb_eq in Bn. now symmetry. }
      apply HC; auto. apply act_value; rewrite map_length; [reflexivity|now symmetry].
Qed.
Theorem network_rounding : forall v e e' X B Y, library v -> kappa v < 1 -> wf_net (e_net e) -> exact_model e e' ->
  (forall n, In n (s_neurons (e_net e)) -> In (n_func n) [Lin; Sigm; Tanh]) -> s_B (e_net e) = Some B ->
  elm_predict e (Arr2 (s_inputs (e_net e)) X) = Ok Y ->
  exists (H : mat) (Yx : list (list R)), elm_project e (Arr2 (s_inputs (e_net e)) X) = Ok H /\ @elm_predict NumR e' (@Arr2 NumR (s_inputs (e_net e)) (vals X)) = Ok Yx /\
    forall r k, (r < length X)%nat -> (k < s_outputs (e_net e))%nat -> (forall c, In c (cells (s_neurons (e_net e))) -> no_overflow (nth r X []) c) -> fin (mget Y r k) ->
      Rabs (val (mget Y r k) - entry (nth r Yx []) k) <=
      bnd (length B) (predict1 (mags B) (nth r (mags H) []) k) (2 * INR (length B)) + predict1 (mags B) (map (c_err v (nth r X [])) (cells (s_neurons (e_net e)))) k.
Proof.
  intros v e e' X B Y HV Hk HW HM HF EB EP. apply (network_close no_overflow (c_err v)); auto.
  intros n x w b z Hn HL HO Fa NV. apply neuron_rounding; auto.
Qed.
End Net.
