(** Weighted errors of no samples; loading in another precision: the forms used in PropsExact3. *)
From Coq Require Import Reals QArith Lra Lia.
From Verif Require Import Base Num Mat LinAlg Slfn Strs Elm Hpelm MatFacts ElmFacts RangeThms WfProofs AccProofs TrainThms
  ErrThms LoadThms SubThms RegMore Convert ConvertR Spec.
Local Open Scope nat_scope.

Section Reals.
#[local] Existing Instance NumR.
Local Open Scope R_scope.
Context {SG : Sing}.
Theorem error_weighted_empty : forall e ws c, e_class e = Some "wc"%string -> e_wc e = Some (fin_all ws) -> s_outputs (e_net e) = c ->
  length ws = c -> Rsum ws <> 0 -> elm_error e (Arr2 c []) (Arr2 c []) = Ok (Fin 0).
Proof.
  intros e ws c H1 H2 H3 H4 H5. transitivity (Ok (Fin (weighted_err ws [] []))); [apply (elm_error_wc e ws c [] [] H1 H2 H3 H4 H5); constructor|].
  f_equal. f_equal. unfold weighted_err. assert (forall k, class_rate [] [] k = 0) as HZ by (intros k; unfold class_rate; cbn; lra).
  assert (forall l a, Rsum (map2 (fun k w => class_rate [] [] k * w) (seq a (length l)) l) = 0) as HS.
  { induction l as [|x l IH]; intros a; [reflexivity|]. cbn [length seq map2]. unfold Rsum in *. cbn [fold_right]. rewrite IH, HZ. lra. }
  rewrite HS. unfold Rdiv. lra.
Qed.
Theorem hp_error_weighted_empty : forall e ws dT dY c (T Y : list (list R)) istart icount,
  e_class e = Some "wc"%string -> e_wc e = Some (fin_all ws) -> s_outputs (e_net e) = c -> length ws = c -> (0 < c)%nat -> (0 < e_batch e)%Z ->
  holds_data dT c T -> holds_data dY c Y -> wide c T -> wide c Y -> length T = length Y -> (istart <= length T)%nat ->
  range_of T istart icount = [] -> hp_error e dT dY (Z.of_nat istart) (zcount icount) = Ok XNaN.
Proof.
  intros e ws dT dY c T Y istart icount H1 H2 H3 H4 Hc H5 H6 H7 H8 H9 H10 H11 HR.
  apply (hp_error_wc_absent e ws dT dY c T Y istart icount 0); auto. rewrite HR. reflexivity.
Qed.
Theorem loaded_close : forall u eta f g (e new : @elm NumR) B X Y,
  (forall x, Rabs (f x - x) <= u * Rabs x + eta) ->
  wf_net (e_net e) -> usable (e_net e) -> (forall n, In n (s_neurons (e_net e)) -> In (n_func n) [Lin; Sigm; Tanh]) ->
  s_B (e_net e) = Some B -> e_accel new = None -> elm_predict e (Arr2 (s_inputs (e_net e)) X) = Ok Y ->
  exists e' Y', load_as f g new (output_format e) = (e', Ok tt) /\ elm_predict e' (Arr2 (s_inputs (e_net e)) X) = Ok Y' /\
    length Y' = length X /\ length Y = length X /\
    forall i k, (i < length X)%nat -> (k < s_outputs (e_net e))%nat ->
      let x := nth i X [] in
      let move n j := Rsum (map2 (fun xi row => Rabs xi * (u * Rabs (entry row j) + eta)) x (n_W n)) + (u * Rabs (entry (n_B n) j) + eta) in
      let moves := concat (map (fun n => map (move n) (seq 0 (length (n_B n)))) (s_neurons (e_net e))) in
      Rabs (entry (nth i Y' []) k - entry (nth i Y []) k) <=
        Rsum (map (fun j => let b := Rabs (entry (nth j B []) k) in
          Rabs (entry (hidden e x) j) * (u * b + eta) + entry moves j * (b + (u * b + eta))) (seq 0 (nneurons (s_neurons (e_net e))))).
Proof.
  intros u eta f g e new B X Y Hf HW HU Ht HB Ha HP.
  destruct (loaded_predictions u eta f Hf g e new B X Y HW HU Ht HB Ha HP) as (e' & Y' & A1 & A2 & A3 & A4 & A5).
  exists e', Y'. do 4 (split; [assumption|]). intros i k Hi Hk. cbv zeta.
  eapply Rle_trans; [exact (A5 i k Hi Hk)|]. right. unfold output_moves, feature_moves, group_moves, moves, hidden.
  assert (forall (q : R -> R -> R) (p : list R -> R) (x : list R) (W : list (list R)), map2 q x (map p W) = map2 (fun xi row => q xi (p row)) x W) as HM.
  { intros q p x. induction x as [|a x IH]; intros [|r W]; cbn [map map2]; [reflexivity..|]. now rewrite IH. }
  f_equal. apply map_ext. intros j. cbv zeta. f_equal. f_equal. f_equal. f_equal. apply map_ext. intros n. apply map_ext. intros c.
  f_equal. f_equal. apply HM.
Qed.
End Reals.

Section Any.
Context {K : Num} {SG : Sing}.
Theorem load_structure {K' : Num} : forall (f : @num K -> @num K') g (e : @elm K) (new : @elm K'),
  wf_net (e_net e) -> (s_neurons (e_net e) <> [] \/ s_B (e_net e) = None) -> e_accel new = None ->
  exists e', load_as f g new (output_format e) = (e', Ok tt) /\
    s_inputs (e_net e') = s_inputs (e_net e) /\ s_outputs (e_net e') = s_outputs (e_net e) /\ e_class e' = e_class e /\
    map (fun n => (n_num n, n_func n)) (s_neurons (e_net e')) = map (fun n => (n_num n, n_func n)) (s_neurons (e_net e)) /\
    map n_W (s_neurons (e_net e')) = map (fun n => map (map f) (n_W n)) (s_neurons (e_net e)) /\
    map n_B (s_neurons (e_net e')) = map (fun n => map f (n_B n)) (s_neurons (e_net e)) /\
    s_B (e_net e') = option_map (map (map f)) (s_B (e_net e)) /\ s_norm (e_net e') = g (s_norm (e_net e)) /\
    wf_net (e_net e') /\ no_data (e_net e').
Proof.
  intros f g e new HW Hn Ha. destruct (load_converts f g e new HW Hn Ha) as (e' & E & O & HW' & HD & _). exists e'.
  pose proof (f_equal sv_inputs O) as E1. pose proof (f_equal sv_outputs O) as E2. pose proof (f_equal sv_class O) as E3.
  pose proof (f_equal sv_neurons O) as E4. pose proof (f_equal sv_B O) as E5. pose proof (f_equal sv_norm O) as E6.
  cbn [output_format convert sv_inputs sv_outputs sv_class sv_neurons sv_B sv_norm] in *.
  rewrite E4, !map_map. repeat (split; [assumption || reflexivity|]). exact HD.
Qed.
End Any.
