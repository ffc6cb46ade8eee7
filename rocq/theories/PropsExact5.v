(** Exact characterisations for C41, C44, C52 and C55. *)
From Coq Require Import Reals QArith Lra Lia.
From Verif Require Import Base Num Mat LinAlg Slfn Strs Elm Mrsr Search Mss Rbf ArgThms Hdf5Thms RbfThms Exact6 Demo Refute4 Refute5 PropsState Spec.
Local Open Scope string_scope.
Local Open Scope list_scope.

Section Any.
Context {K : Num} {SG : Sing} {BR : Brent} {SH : Shuffle}.

(** ** C55: the validation data of 'V' *)
Theorem C55_validation : forall e X T args kw e1 x t, parse_args e args kw = (e1, Ok tt) -> In "V" args ->
  accepted (s_inputs (e_net e)) X x -> accepted (s_outputs (e_net e)) T t -> length x = length t ->
  (forall Xv Tv xv tv, kw_Xv kw = Some Xv -> kw_Tv kw = Some Tv ->
     accepted (s_inputs (e_net e)) Xv xv -> accepted (s_outputs (e_net e)) Tv tv -> length xv = length tv ->
     train e X T args kw = train e X T args (with_val kw (Arr2 (s_inputs (e_net e)) xv) (Arr2 (s_outputs (e_net e)) tv))) /\
  ((forall Xv Tv xv tv, kw_Xv kw = Some Xv -> kw_Tv kw = Some Tv ->
     accepted (s_inputs (e_net e)) Xv xv -> accepted (s_outputs (e_net e)) Tv tv -> length xv <> length tv) ->
     train e X T args kw = (e1, Err AssertionError)).
Proof. exact validation_checks. Qed.
Example C55_validation_hyps : let kw := mkKw None None None None (Some (Arr2 2 demo_X)) (Some (Arr1 [n1; n0])) in
  (exists e1, parse_args (demo None "" None) ["V"] kw = (e1, Ok tt)) /\ accepted 2 (Arr2 2 demo_X) demo_X /\ accepted 2 (Arr2 2 demo_T) demo_T /\ length demo_X = length demo_T /\
  (forall Xv Tv xv tv, kw_Xv kw = Some Xv -> kw_Tv kw = Some Tv -> accepted 2 Xv xv -> accepted 2 Tv tv -> length xv <> length tv).
Proof.
  cbv zeta. split; [eexists; reflexivity|]. split; [reflexivity|]. split; [reflexivity|]. split; [reflexivity|].
  intros Xv Tv xv tv _ ET _ H. cbn in ET. injection ET as <-. discriminate H.
Qed.

(** ** C44: a number is returned only by cross-validation; the validation data, or the number of parts,
    of the selection asked for were given; without a selection all neurons stay *)
Theorem C44_selection : forall e X T args kw e' v, train e X T args kw = (e', Ok v) ->
  (v <> None <-> In "CV" args) /\
  (In "V" args -> exists Xv Tv, kw_Xv kw = Some Xv /\ kw_Tv kw = Some Tv) /\
  (In "CV" args -> exists k, kw_k kw = Some k /\ (3 <= k)%nat) /\
  ((forall k, In k selections -> ~ In k args) -> s_neurons (e_net e') = s_neurons (e_net e)).
Proof. exact selection_made. Qed.

(** ** C41: a requested length above the number of columns (mrsr) or of samples (mrsr2) *)
Theorem C41_clamp : forall X T m p kmax,
  mrsr X T m p kmax = mrsr X T m p (Nat.min kmax m) /\ mrsr2 X T m p kmax = mrsr2 X T m p (Nat.min kmax (length X)).
Proof. intros. split; [apply mrsr_clamp|apply mrsr2_clamp]. Qed.
End Any.

Section Rationals.
#[local] Existing Instance NumQ.
Context {SG : @Sing NumQ} {BR : @Brent NumQ} {SH : Shuffle}.
Example C44_selection_hyps : (exists e, v_run "V" = (e, Ok None)) /\ (exists e r, cv_run = (e, Ok (Some r))).
Proof.
  split; [destruct v_case as ((e & H & _) & _); eauto|]. destruct cv_other_model as (e & r & _ & _ & _ & H & _); eauto.
Qed.
Example C41_clamp_case : mrsr [[1; 0]; [2; 1]; [0; 1]] [[1]; [3]; [1]] 2 1 7 = mrsr [[1; 0]; [2; 1]; [0; 1]] [[1]; [3]; [1]] 2 1 2.
Proof. vm_compute. reflexivity. Qed.
End Rationals.

Section Reals.
#[local] Existing Instance NumR.
Local Open Scope R_scope.
(** ** C52: the widths are the positive ones among (u - 1/2) * 2 * s + m, in the order drawn, with m and s the mean
    and the standard deviation of the measured distances, of the metric that [kind] names *)
Theorem C52_values : forall fuel d X k kind ix1 ix2 (u : nat -> R) W B,
  a_choice (length X) (rbf_Nk (length X) k) ix1 -> a_choice (length X) k ix2 ->
  @rbf_param NumR fuel d X k kind ix1 ix2 u = Some (Ok (W, B)) ->
  exists ds n, length ds = length ix1 /\
    (forall i, (i < length ix1)%nat -> distance_named kind (nth i X []) (nth (pair_of ix1 i) X []) (nth i ds 0)) /\
    B = pick (pop_std ds) (pop_mean ds) u n /\ length B = k.
Proof. exact rbf_values. Qed.
Theorem C52_metric : forall kind x y r r', distance_named kind x y r -> distance_named kind x y r' -> r = r'.
Proof. exact named_fun. Qed.
Example C52_values_hyps : let X := [[0]; [2]; [5]] in
  a_choice (length X) (rbf_Nk (length X) 1) [1; 0]%nat /\ a_choice (length X) 1 [2]%nat /\
  exists W, @rbf_param NumR 1 1 X 1 "rbf_l1" [1; 0]%nat [2]%nat (fun _ => 1 / 2) = Some (Ok (W, [2])).
Proof.
  cbv zeta. split; [split; [reflexivity|repeat constructor]|]. split; [split; [reflexivity|repeat constructor]|].
  eexists. rewrite rbf_steps; [|discriminate|split; [reflexivity|repeat constructor]|split; [reflexivity|repeat constructor]].
  set (q := @dist_stats NumR _). assert (exists s, q = Some (2, s)) as [s ->].
  { unfold q. cbn [map Rbf.pairs combine seq length fst snd Nat.eqb pair_dist]. 
    match goal with |- context [@dist_stats NumR ?l] => assert (l = [2; 2]) as -> end.
    { unfold pair_dist. cbn [rkind_of index fst snd nth rdist map2]. cbn. unfold Rminus. rewrite !Rplus_0_r.
      f_equal; [|f_equal]; rewrite ?Rplus_0_l, ?Rabs_Ropp, ?Ropp_0, ?Rplus_0_r; apply Rabs_right; lra. }
    destruct (dist_stats_some [2; 2] ltac:(discriminate)) as (s & _ & E). exists s. etransitivity; [exact E|]. assert (Rsum [2; 2] / INR (length [2; 2]) = 2) as -> by (cbn; field). reflexivity. }
  cbn [widths option_map app]. 
  assert (@width NumR (2, s) (1 / 2) = 2) as EW. { unfold width. rewrite half_R. cbn [fst snd nadd nmul nsub n1 NumR]. lra. }
  match goal with |- option_map _ (if nltb n0 ?w then _ else _) = _ => assert (w = 2) as -> by exact EW end.
  assert (@nltb NumR n0 2 = true) as ->. { cbn [nltb n0 NumR]. unfold Rltb. destruct (Rlt_dec 0 2); [reflexivity|lra]. }
  cbn [length Nat.eqb option_map]. reflexivity.
Qed.
End Reals.

Print Assumptions C55_validation.
Print Assumptions C44_selection.
Print Assumptions C41_clamp.
Print Assumptions C52_values.
Print Assumptions C52_metric.
