(** Exact characterisations for C03, C07, C20 and C30; loading in another precision: C95. *)
From Coq Require Import Reals QArith Lra Lia SpecFloat.
From Verif Require Import Base Num Mat LinAlg Slfn Strs Elm Hpelm MatFacts ElmFacts RangeThms WfProofs AccProofs TrainThms IncrThms WeightFacts
  ErrThms LoadThms SubThms RegMore Float Rounding Cast Convert ConvertR Exact3 Exact4 Demo PropsError PropsState PropsRound Spec.
Local Open Scope nat_scope.

Section Reals.
#[local] Existing Instance NumR.
Local Open Scope R_scope.
Context {SG : Sing}.

(** ** C03: automatic class weights are those of the first part.  The calls succeed if, and only if,
    every class of the later parts occurs in the first part; then the result is that of one call
    with all the data and the weights of the first part *)
Theorem C03_automatic_exact : forall e b X0 T0 ks0 ps ks,
  no_data (e_net e) -> usable (e_net e) -> is_wc e = true -> e_wc e = None ->
  Forall (call_ok (s_inputs (e_net e)) (s_outputs (e_net e))) ((b, (X0, T0)) :: ps) ->
  Forall2 (has_class (s_outputs (e_net e))) T0 ks0 -> Forall2 (has_class (s_outputs (e_net e))) (parts_T ps) ks ->
  ((forall k, In k ks -> In k ks0) ->
   exists e' H, run_all part_call e ((b, (X0, T0)) :: ps) = (e', Ok tt) /\
     elm_project e (Arr2 (s_inputs (e_net e)) (X0 ++ parts_X ps)) = Ok H /\
     let ss := samples (map (auto_weight ks0) (ks0 ++ ks)) H (T0 ++ parts_T ps) in
     get_corr (e_net e') = Ok (Some (spec_HH (getL (e_net e)) (s_norm (e_net e)) ss,
                                     spec_HT (getL (e_net e)) (s_outputs (e_net e)) ss))) /\
  (forall e', run_all part_call e ((b, (X0, T0)) :: ps) = (e', Ok tt) -> forall k, In k ks -> In k ks0).
Proof. exact incremental_auto. Qed.
Example C03_automatic_hyps : let e := demo None "wc" None in
  no_data (e_net e) /\ usable (e_net e) /\ is_wc e = true /\ e_wc e = None /\
  Forall (call_ok (s_inputs (e_net e)) (s_outputs (e_net e))) [(1%Z, (demo_X, demo_T)); (7%Z, (skipn 1 demo_X, skipn 1 demo_T))] /\
  Forall2 (has_class (s_outputs (e_net e))) demo_T [0; 1; 0]%nat /\
  Forall2 (has_class (s_outputs (e_net e))) (parts_T [(7%Z, (skipn 1 demo_X, skipn 1 demo_T))]) [1; 0]%nat /\
  (forall k, In k [1; 0]%nat -> In k [0; 1; 0]%nat).
Proof.
  cbv zeta. change (s_inputs (e_net (demo None "wc" None))) with 2%nat. change (s_outputs (e_net (demo None "wc" None))) with 2%nat.
  split; [split; reflexivity|]. split; [split; [discriminate|reflexivity]|]. split; [reflexivity|]. split; [reflexivity|].
  split; [repeat constructor; discriminate|].
  assert (has_class 2 [1; 0] 0 /\ has_class 2 [0; 1] 1) as [A B].
  { split; (split; [reflexivity|]); (split; [lia|]); intros [|[|j]] Hj; try reflexivity; lia. }
  split; [repeat (apply Forall2_cons; [first [exact A|exact B]|]); apply Forall2_nil|].
  split; [repeat (apply Forall2_cons; [first [exact A|exact B]|]); apply Forall2_nil|].
  intros k [<-|[<-|[]]]; cbn; auto.
Qed.

(** ** C07: what the default solver returns for any HH, and when it is what was installed *)
Theorem C07_default_exact : forall s L HH HT, s_L s = Some L -> s_kind s = Fast ->
  is_mat L L HH -> is_mat L (s_outputs s) HT ->
  exists s' HH', set_corr s L L HH L (s_outputs s) HT = (s', Ok tt) /\ get_corr s' = Ok (Some (HH', HT)) /\ is_mat L L HH' /\
    (forall i j, (i < L)%nat -> (j < L)%nat ->
       entry (nth i HH' []) j = if (j <? i)%nat then entry (nth i HH []) j + entry (nth j HH []) i else entry (nth i HH []) j) /\
    (HH' = HH <-> forall i j, (i < j)%nat -> (j < L)%nat -> entry (nth i HH []) j = 0).
Proof. exact corr_default_exact. Qed.
Example C07_default_hyps : let s := e_net (demo None "" None) in
  s_L s = Some 3%nat /\ s_kind s = Fast /\ is_mat 3 3 [[2; 1; 0]; [1; 2; 0]; [0; 0; 1]] /\ is_mat 3 (s_outputs s) [[1; 0]; [0; 1]; [1; 1]].
Proof. repeat split; repeat constructor. Qed.

(** ** C20: weighted classification.  No samples at all: ELM.error returns 0; HPELM.error on an empty range within the data returns NaN *)
Theorem C20_weighted_elm : forall e ws c, e_class e = Some "wc"%string -> e_wc e = Some (fin_all ws) -> s_outputs (e_net e) = c ->
  length ws = c -> Rsum ws <> 0 -> elm_error e (Arr2 c []) (Arr2 c []) = Ok (Fin 0).
Proof. exact error_weighted_empty. Qed.
Theorem C20_weighted_hpelm : forall e ws dT dY c (T Y : list (list R)) istart icount,
  e_class e = Some "wc"%string -> e_wc e = Some (fin_all ws) -> s_outputs (e_net e) = c -> length ws = c -> (0 < c)%nat -> (0 < e_batch e)%Z ->
  holds_data dT c T -> holds_data dY c Y -> wide c T -> wide c Y -> length T = length Y -> (istart <= length T)%nat ->
  range_of T istart icount = [] -> hp_error e dT dY (Z.of_nat istart) (zcount icount) = Ok XNaN.
Proof. exact hp_error_weighted_empty. Qed.
Example C20_weighted_hyps : let e := demo None "wc" (Some [1; 2]) in
  e_class e = Some "wc"%string /\ e_wc e = Some (fin_all [1; 2]) /\ s_outputs (e_net e) = 2%nat /\ Rsum [1; 2] <> 0 /\ (0 < e_batch e)%Z /\
  holds_data (SArr (Arr2 2 err_T)) 2 err_T /\ holds_data (SFile (Some (2%nat, err_Y))) 2 err_Y /\ (3 <= length err_T)%nat /\
  range_of err_T 3 None = [] /\ range_of err_T 1 (Some 0%nat) = [].
Proof.
  cbv zeta. split; [reflexivity|]. split; [reflexivity|]. split; [reflexivity|]. split; [unfold Rsum; cbn; lra|]. split; [reflexivity|].
  split; [now left|]. split; [now right|]. split; [cbn; lia|]. split; reflexivity.
Qed.

(** ** C95: predictions of a model whose parameters were rounded on loading (lin, sigm and tanh neurons, otherwise exact arithmetic):
    [move] bounds the move of the argument of a neuron, and both output weights and neuron outputs contribute *)
Theorem C95_predictions : forall u eta f g (e new : @elm NumR) B X Y,
  (forall x, Rabs (f x - x) <= u * Rabs x + eta) ->
  wf_net (e_net e) -> usable (e_net e) -> (forall n, In n (s_neurons (e_net e)) -> In (n_func n) [Lin; Sigm; Tanh]) ->
  s_B (e_net e) = Some B -> e_accel new = None -> elm_predict e (Arr2 (s_inputs (e_net e)) X) = Ok Y ->
  exists e' Y', load_as f g new (output_format e) = (e', Ok tt) /\ elm_predict e' (Arr2 (s_inputs (e_net e)) X) = Ok Y' /\
    length Y' = length X /\ length Y = length X /\
    forall i k, (i < length X)%nat -> (k < s_outputs (e_net e))%nat ->
      let x := nth i X [] in
      let move n j := Rsum (map2 (fun xi row => Rabs xi * (u * Rabs (entry row j) + eta)) x (n_W n)) + (u * Rabs (entry (n_B n) j) + eta) in
      let moves := concat (map (fun n => map (move n) (seq 0 (length (n_B n)))) (s_neurons (e_net e))) in
      Rabs (entry (nth i Y' []) k - entry (nth i Y []) k) <=
        Rsum (map (fun j => let b := Rabs (entry (nth j B []) k) in
          Rabs (entry (hidden e x) j) * (u * b + eta) + entry moves j * (b + (u * b + eta))) (seq 0 (nneurons (s_neurons (e_net e))))).
Proof. exact loaded_close. Qed.
Definition conv_demo : elm := let e := demo None "" None in with_net e (with_B (e_net e) (Some [[1; 2]; [3; 4]; [5; 6]])).
Example C95_predictions_hyps :
  (forall x, Rabs (x * (1 + / 16777216) - x) <= / 16777216 * Rabs x + 0) /\
  wf_net (e_net conv_demo) /\ usable (e_net conv_demo) /\ (forall n, In n (s_neurons (e_net conv_demo)) -> In (n_func n) [Lin; Sigm; Tanh]) /\
  s_B (e_net conv_demo) = Some [[1; 2]; [3; 4]; [5; 6]] /\ e_accel (demo None "" None) = None /\
  exists Y, elm_predict conv_demo (Arr2 (s_inputs (e_net conv_demo)) demo_X) = Ok Y.
Proof.
  assert (wf_net (e_net conv_demo)) as HW.
  { constructor; cbn; try exact I; repeat constructor; cbn; auto; intuition discriminate. }
  assert (usable (e_net conv_demo)) as HU by (split; [discriminate|reflexivity]).
  split. { intros x. replace (x * (1 + / 16777216) - x) with (/ 16777216 * x) by ring. rewrite Rabs_mult, (Rabs_right (/ _)) by lra. lra. }
  split; [exact HW|]. split; [exact HU|]. split. { intros n [<-|[<-|[]]]; cbn; auto. }
  split; [reflexivity|]. split; [reflexivity|].
  eexists. apply (predict_outputs conv_demo _ demo_X (wf_groups _ HW) HU eq_refl); repeat constructor.
Qed.
End Reals.

(** ** C30: with files and without, on every solver: the same model, except that the basic solver loses norm on the diagonal *)
Section Any.
Context {K : Num} {SG : Sing}.
Theorem C30_exact : forall (e : elm) fX fT istart icount fs e1 o e2 fs',
  no_data (e_net e) -> s_L (e_net e) = Some (nneurons (s_neurons (e_net e))) ->
  hp_add_data e fX fT istart icount None = (e1, o, Ok tt) ->
  hp_add_data e fX fT istart icount (Some fs) = (e2, fs', Ok tt) ->
  (s_kind (e_net e) <> Basic -> e2 = e1) /\
  (s_kind (e_net e) = Basic -> exists HH HT HH', get_corr (e_net e1) = Ok (Some (HH, HT)) /\
     get_corr (e_net e2) = Ok (Some (HH', HT)) /\ e2 = with_net e1 (with_corr (e_net e1) (Some HH') (Some HT)) /\
     HH' = mk (getL (e_net e)) (getL (e_net e)) (fun i j => if (i =? j)%nat then nsub (mget HH i j) (s_norm (e_net e)) else mget HH i j)).
Proof. exact files_memory_exact. Qed.

(** ** C95: loading changes the numbers only *)
Theorem C95_structure {K' : Num} : forall (f : @num K -> @num K') g (e : @elm K) (new : @elm K'),
  wf_net (e_net e) -> (s_neurons (e_net e) <> [] \/ s_B (e_net e) = None) -> e_accel new = None ->
  exists e', load_as f g new (output_format e) = (e', Ok tt) /\
    s_inputs (e_net e') = s_inputs (e_net e) /\ s_outputs (e_net e') = s_outputs (e_net e) /\ e_class e' = e_class e /\
    map (fun n => (n_num n, n_func n)) (s_neurons (e_net e')) = map (fun n => (n_num n, n_func n)) (s_neurons (e_net e)) /\
    map n_W (s_neurons (e_net e')) = map (fun n => map (map f) (n_W n)) (s_neurons (e_net e)) /\
    map n_B (s_neurons (e_net e')) = map (fun n => map f (n_B n)) (s_neurons (e_net e)) /\
    s_B (e_net e') = option_map (map (map f)) (s_B (e_net e)) /\ s_norm (e_net e') = g (s_norm (e_net e)) /\
    wf_net (e_net e') /\ no_data (e_net e').
Proof. exact load_structure. Qed.
End Any.
Example C30_exact_hyps {SG : @Sing NumQ} : forall a, In a [None; Some "GPU"%string; Some "basic"%string] -> let e := @demo NumQ a "" None in
  no_data (e_net e) /\ s_L (e_net e) = Some (nneurons (s_neurons (e_net e))) /\
  is_ok (snd (hp_add_data e (SArr (Arr2 2 demo_X)) (SArr (Arr2 2 demo_T)) 0 None None)) = true /\
  is_ok (snd (hp_add_data e (SArr (Arr2 2 demo_X)) (SArr (Arr2 2 demo_T)) 0 None (Some (mkFs None None)))) = true.
Proof. intros a [<-|[<-|[<-|[]]]]; cbv zeta; (split; [split; reflexivity|]); (split; [reflexivity|]); split; vm_compute; reflexivity. Qed.

Section Precisions.
Context (fe ft fe' ft' : spec_float -> spec_float).

(** single into double: the same numbers; back into single: the same model *)
Theorem C95_wider : forall (e : @elm (Num32 fe ft)) (new : @elm (Num64 fe' ft')) (new2 : @elm (Num32 fe ft)),
  wf_net (e_net e) -> (s_neurons (e_net e) <> [] \/ s_B (e_net e) = None) -> e_accel new = None -> e_accel new2 = None ->
  in_format 24 128 sf (output_format e) ->
  exists e1 e2, load_float 53 1024 fe' ft' sf new (output_format e) = (e1, Ok tt) /\
    in_format 53 1024 sf (output_format e1) /\
    map (fun x => sf_val (sf x)) (params (output_format e1)) = map (fun x => sf_val (sf x)) (params (output_format e)) /\
    load_float 24 128 fe ft sf new2 (output_format e1) = (e2, Ok tt) /\ output_format e2 = output_format e.
Proof. intros e new new2. apply (load_wider fe ft fe' ft' 24 128 53 1024 e new new2); lia. Qed.

(** double into single: every parameter is rounded once, by at most 2^-24 of itself (2^-150 near 0); what was in single precision is kept *)
Theorem C95_narrower : forall (e : @elm (Num64 fe' ft')) (new : @elm (Num32 fe ft)),
  wf_net (e_net e) -> (s_neurons (e_net e) <> [] \/ s_B (e_net e) = None) -> e_accel new = None ->
  exists e1, load_float 24 128 fe ft sf new (output_format e) = (e1, Ok tt) /\
    in_format 24 128 sf (output_format e1) /\
    params (output_format e1) = map (fun x => cast 24 128 (sf x)) (params (output_format e)) /\
    (forall x, In x (params (output_format e)) -> sf_fin (sf x) -> (Rabs (sf_val (sf x)) < p2 127)%R ->
       sf_fin (cast 24 128 (sf x)) /\
       (Rabs (sf_val (cast 24 128 (sf x)) - sf_val (sf x)) <= p2 (- 24) * Rabs (sf_val (sf x)) + p2 (- 150))%R) /\
    (in_format 24 128 sf (output_format e) -> params (output_format e1) = params (output_format e)).
Proof. intros e new. apply (load_narrower fe ft fe' ft' 24 128 53 1024 e new); lia. Qed.
End Precisions.

(** 1/10 in single precision, 1/10 and 1/5 in double precision; loading into single changes the weight 1/10 *)
Definition conv_model {K : Num} (a b : num) : elm :=
  mkElm (mkSlfn Fast 2 2 n0 [mkNeuron 2 Lin [[a; n1]; [n1; n0]] [b; n1]] (Some 2) (Some [[a; n1]; [n1; b]]) None None) 10 true None None None false None.
Lemma conv_wf {K : Num} : forall a b, wf_net (e_net (conv_model a b)).
Proof. intros a b. constructor; cbn; try exact I; repeat constructor; cbn; auto; intuition discriminate. Qed.
Lemma conv_params {K : Num} : forall a b, params (output_format (conv_model a b)) = [a; n1; n1; n0; b; n1; a; n1; n1; b].
Proof. reflexivity. Qed.
Definition s_tenth : @num (Num32 no_fun no_fun) := S754_finite false 13421773 (-27).
Definition w_tenth : @num (Num64 no_fun no_fun) := S754_finite false 7205759403792794 (-56).
Definition w_fifth : @num (Num64 no_fun no_fun) := S754_finite false 7205759403792794 (-55).
Example C95_hyps : let e32 := conv_model s_tenth s_tenth in let e64 := conv_model w_tenth w_fifth in
  wf_net (e_net e32) /\ wf_net (e_net e64) /\
  s_neurons (e_net e32) <> [] /\ s_neurons (e_net e64) <> [] /\ e_accel e32 = None /\ e_accel e64 = None /\
  in_format 24 128 sf (output_format e32) /\
  Forall (fun x => sf_fin (sf x) /\ (Rabs (sf_val (sf x)) < p2 127)%R) (params (output_format e64)) /\
  cast 24 128 w_tenth <> w_tenth.
Proof.
  cbv zeta. split; [apply conv_wf|]. split; [apply conv_wf|]. split; [discriminate|]. split; [discriminate|]. split; [reflexivity|]. split; [reflexivity|].
  split. { intros x Hx. rewrite conv_params in Hx. repeat (destruct Hx as [<-|Hx]; [reflexivity|]). destruct Hx. }
  split.
  - assert (forall m e, (Z.pos m < 2 ^ 53)%Z -> (e <= 0)%Z -> sf_fin (S754_finite false m e) /\ (Rabs (sf_val (S754_finite false m e)) < p2 127)%R) as HB.
    { intros m e Hm He. split; [exact I|]. cbn [sf_val sf_sign]. pose proof (p2_pos e) as P. pose proof (p2_le e 0 He) as L.
      change (p2 0) with 1%R in L. assert (IZR (Z.pos m) < p2 53)%R as LM by (rewrite p2_pow by lia; now apply IZR_lt).
      assert (0 < IZR (Z.pos m))%R as PM by (apply IZR_lt; lia). pose proof (p2_le 53 127 ltac:(lia)). rewrite Rmult_1_l, Rabs_right by nra. nra. }
    assert (sf_fin (@sf 53 1024 no_fun no_fun n0) /\ (Rabs (sf_val (@sf 53 1024 no_fun no_fun n0)) < p2 127)%R) as H0.
    { split; [exact I|]. change (sf_val (@sf 53 1024 no_fun no_fun n0)) with 0%R. rewrite Rabs_R0. apply p2_pos. }
    assert (sf_fin (@sf 53 1024 no_fun no_fun n1) /\ (Rabs (sf_val (@sf 53 1024 no_fun no_fun n1)) < p2 127)%R) as H1.
    { assert (@n1 (Num64 no_fun no_fun) = S754_finite false 4503599627370496 (-52)) as E by (vm_compute; reflexivity).
      unfold sf. change (@n1 (NumF 53 1024 no_fun no_fun)) with (@n1 (Num64 no_fun no_fun)). rewrite E. apply HB; lia. }
    rewrite conv_params.
    repeat (apply Forall_cons; [first [exact H0|exact H1|apply HB; lia]|]). apply Forall_nil.
  - vm_compute. discriminate.
Qed.

Print Assumptions C03_automatic_exact.
Print Assumptions C07_default_exact.
Print Assumptions C20_weighted_elm.
Print Assumptions C20_weighted_hpelm.
Print Assumptions C95_predictions.
Print Assumptions C30_exact.
Print Assumptions C95_structure.
Print Assumptions C95_wider.
Print Assumptions C95_narrower.
