(** Training in another unit, in terms of what the user sees; a case with all hypotheses. *)
From Coq Require Import Reals Lra.
From Verif Require Import Base Num Mat LinAlg Slfn Strs Elm Mrsr Search Mss ElmFacts WfProofs SolveThms ErrThms MssThms WorksThms Refute4 LooMore MrsrSpec OpWorks OpDemo MatFacts RLin SelectThms TrainThms Scale ScaleSearch ScaleErr ScaleRank ScaleTrain.
Local Open Scope string_scope.
Local Open Scope list_scope.
Local Open Scope R_scope.
#[local] Existing Instance NumR.

(** an array argument in the other unit: every entry is multiplied *)
Definition in_unit (c : R) (a : @arr NumR) : @arr NumR :=
  match a with Arr1 v => @Arr1 NumR (map (Rmult c) v) | Arr2 n m => @Arr2 NumR n (map (map (Rmult c)) m) | x => x end.
Definition kw_in_unit (c : R) (kw : @kwargs NumR) : @kwargs NumR :=
  mkKw (kw_w kw) (kw_kmax kw) (kw_batch kw) (kw_k kw) (kw_Xv kw) (option_map (in_unit c) (kw_Tv kw)).
(** an error in the other unit *)
Definition err_in_unit (c : R) (cls : option string) (v : R) : R := match cls with None => c * c * v | Some _ => v end.
Definition xerr_in_unit (c : R) (cls : option string) (x : @xnum NumR) : @xnum NumR := match x with Fin v => @Fin NumR (err_in_unit c cls v) | y => y end.

Section S.
Context {SG : @Sing NumR} {BR : @Brent NumR} {SH : Shuffle}.
(** the library routines answer in the unit of their arguments *)
Definition unit_free (c : R) : Prop :=
  (forall A Y, @lstsq_sing NumR SG A (map (map (Rmult c)) Y) = map (map (Rmult c)) (@lstsq_sing NumR SG A Y)) /\
  (forall A Y, @lu_sing NumR SG A (map (map (Rmult c)) Y) = map (map (Rmult c)) (@lu_sing NumR SG A Y)) /\
  (forall y cm p1 p2, @brentq NumR BR y (c * cm) (map (Rmult c) p1) (map (Rmult c) p2) = @brentq NumR BR y cm p1 p2).
Lemma fac_err : forall c cls v, err_in_unit c cls v = fac c cls * v.
Proof. intros c [x|] v; cbn; ring. Qed.
Theorem train_unit : forall c e X T args kw e1 v, c <> 0 -> unit_free c -> no_class args ->
  (In "C" (map upper args) \/ In "OP" (map upper args) -> 0 < c) -> train e X T args kw = (e1, Ok v) ->
  exists e2, train e X (in_unit c T) args (kw_in_unit c kw) = (e2, Ok (option_map (err_in_unit c (e_class e1)) v)) /\
    s_neurons (e_net e2) = s_neurons (e_net e1) /\ e_class e2 = e_class e1 /\
    forall Z, elm_predict e2 Z = match elm_predict e1 Z with Ok Y => Ok (map (map (Rmult c)) Y) | Err x => Err x end.
Proof.
  intros c e X T args kw e1 v Hc (U1 & U2 & U3) HN HP E. pose proof (train_sc c Hc e X T args kw U1 HN (fun A => HP (or_introl A)) (fun A => conj (HP (or_intror A)) (conj U2 U3))) as Q.
  cbv zeta in Q. rewrite E in Q. cbn [fst snd] in Q. change (sarr c T) with (in_unit c T) in Q. change (skw c kw) with (kw_in_unit c kw) in Q.
  destruct (train e X (in_unit c T) args (kw_in_unit c kw)) as [e2 [v'|x]]; cbn [fst snd] in Q; [|contradiction]. destruct Q as [-> ->].
  eexists. split; [f_equal; f_equal; destruct v; cbn; [f_equal; symmetry; apply fac_err|reflexivity]|]. split; [reflexivity|]. split; [reflexivity|].
  intros Z. unfold elm_predict. change (s_inputs (e_net (se c (option_map (sc c) (s_B (e_net e1))) e1))) with (s_inputs (e_net e1)). destruct (check_arr Z _) as [z|]; [|reflexivity]. cbn [rbind].
  unfold predict. cbn [se sn e_net with_net s_B s_outputs]. destruct (s_B (e_net e1)) as [B|]; cbn [option_map]; [|reflexivity].
  change (project (sn c (Some (sc c B)) (e_net e1)) z) with (project (e_net e1) z). destruct (project (e_net e1) z) as [H|]; [|reflexivity]. cbn [rbind]. f_equal. exact (mmul_sc c (s_outputs (e_net e1)) H B).
Qed.
Theorem train_unit_fails : forall c e X T args kw e1 x, c <> 0 -> unit_free c -> no_class args ->
  (In "C" (map upper args) \/ In "OP" (map upper args) -> 0 < c) -> train e X T args kw = (e1, Err x) ->
  exists e2, train e X (in_unit c T) args (kw_in_unit c kw) = (e2, Err x).
Proof.
  intros c e X T args kw e1 x Hc (U1 & U2 & U3) HN HP E. pose proof (train_sc c Hc e X T args kw U1 HN (fun A => HP (or_introl A)) (fun A => conj (HP (or_intror A)) (conj U2 U3))) as Q.
  cbv zeta in Q. rewrite E in Q. cbn [fst snd] in Q. change (sarr c T) with (in_unit c T) in Q. change (skw c kw) with (kw_in_unit c kw) in Q.
  destruct (train e X (in_unit c T) args (kw_in_unit c kw)) as [e2 [v'|y]]; cbn [fst snd] in Q; [contradiction|]. subst. now exists e2.
Qed.
Theorem error_unit : forall c e T Y, c <> 0 -> (e_class e = None \/ (e_class e = Some "c" /\ 0 < c)) ->
  elm_error e (in_unit c T) (in_unit c Y) = match elm_error e T Y with Ok x => Ok (xerr_in_unit c (e_class e) x) | Err x => Err x end.
Proof.
  intros c e T Y Hc Ht. unfold elm_error. change (in_unit c) with (sarr c). rewrite !(check_sc c). destruct (check_arr T _) as [t|]; [|reflexivity]. cbn [rmap rbind]. destruct (check_arr Y _) as [y|]; [|reflexivity]. cbn [rmap rbind].
  pose proof (error_sc c Hc e t y Ht) as Q. cbn [num NumR] in *. rewrite Q. destruct (error_ e t y) as [[a| | |]|]; cbn; auto. f_equal. f_equal. symmetry. apply fac_err.
Qed.
Theorem ranking_unit : forall c (H T : list (list R)) m p kmax, 0 < c ->
  mrsr H (map (map (Rmult c)) T) m p kmax = mrsr H T m p kmax /\
  (unit_free c -> mrsr2 H (map (map (Rmult c)) T) m p kmax = mrsr2 H T m p kmax).
Proof. intros c H T m p kmax Hp. split; [exact (mrsr_sc c Hp H T m p kmax)|]. intros (_ & U2 & U3). exact (mrsr2_sc c Hp U3 U2 H T m p kmax). Qed.
End S.

(** ** a case *)
Definition no_sing : @Sing NumR := {| lstsq_sing := fun _ _ => []; pinv_sing := fun _ => []; lu_sing := fun _ _ => [] |}.
Definition no_brent : @Brent NumR := {| brentq := fun _ _ _ _ => None |}.
Definition no_shuffle : Shuffle := {| shuffle := fun _ l => l |}.
Theorem unit_case : exists (SG : @Sing NumR) (BR : @Brent NumR) (SH : Shuffle), (forall c, unit_free c) /\
  no_class ["LOO"; "OP"] /\ no_class ["LOO"; "C"] /\
  (exists e', train op_model (Arr2 2 op_H) (Arr2 1 op_T) ["LOO"; "OP"] no_kw = (e', Ok None)) /\
  (exists e', train loo_model (Arr2 1 loo_H) (Arr2 2 loo_T) ["LOO"; "C"] no_kw = (e', Ok None)).
Proof.
  exists no_sing, no_brent, no_shuffle. split; [intros c; split; [|split]; reflexivity|].
  split; [intros a [<-|[<-|[]]]; cbn; intuition discriminate|]. split; [intros a [<-|[<-|[]]]; cbn; intuition discriminate|].
  assert (@shuffles no_shuffle) as S by (intros i l; apply Permutation.Permutation_refl). split.
  - destruct op_model_ok as (W1 & W2 & W3 & W4 & W5 & (e1 & P1 & P2 & P3 & P4 & P5) & _ & _ & _ & W6 & W7).
    destruct (@op_data no_sing) as (D1 & D2 & D3 & D4 & _).
    eapply (@train_loo_rankable no_sing no_brent no_shuffle op_model op_H op_T ["LOO"; "OP"] no_kw e1 op_H); auto.
    + rewrite W3. lia.
    + rewrite W4, P4. lia.
    + discriminate.
    + rewrite W4, W3, P4. exact D4.
  - destruct (@loo_not_rate no_sing no_brent no_shuffle S) as (e' & E & _). now exists e'.
Qed.
