(** Corollaries used in PropsSelect.v, and the demonstration model of its Examples. *)
From Coq Require Import Reals Lra Permutation.
From Verif Require Import Base Num Mat LinAlg Slfn Strs Elm Mrsr Search Mss MatFacts SplitProofs Spec ElmFacts RLin
  AccProofs TrainProofs RidgeProofs WfProofs TrainThms IncrThms SolveThms NeuronThms ErrThms SearchThms SelectThms RankThms SubThms MssThms LooThms SelThms FoldThms CvThms WorksThms Demo Refute4.
Local Open Scope R_scope.
#[local] Existing Instance NumR.

Lemma search_in_range : forall (ev : Z -> res R) lo L eL size, (0 <= lo)%Z -> (lo <= L)%Z -> (L <= Z.of_nat size)%Z ->
  (exists m k t, @search_from NumR ev (@init_table NumR size L eL) lo L = Ok (m, k, t) /\ (lo <= k <= L)%Z) \/
  (exists x i, (lo <= i <= L)%Z /\ ev i = Err x /\ @search_from NumR ev (@init_table NumR size L eL) lo L = Err x).
Proof.
  intros ev lo L eL size H1 H2 H3. destruct (search_from_spec ev lo L eL size H1 H2 H3) as [(m & k & t & A & B & _)|Q]; [left|right; exact Q].
  exists m, k, t. auto.
Qed.

Section Cor.
Context {SG : @Sing NumR} {BR : @Brent NumR} {SH : Shuffle}.

Lemma train_cv_returns : forall e X T args kw k e1 H e' v, shuffles ->
  wf_net (e_net e) -> 0 < s_norm (e_net e) ->
  parse_args e args kw = (e1, Ok tt) -> smem "V" args = false -> smem "CV" args = true -> kw_k kw = Some k ->
  (forall ws w, kw_w kw = Some ws -> In w ws -> 0 <= w) ->
  length X = length T -> wide (s_outputs (e_net e)) T ->
  elm_project e (Arr2 (s_inputs (e_net e)) X) = Ok H ->
  train e (Arr2 (s_inputs (e_net e)) X) (Arr2 (s_outputs (e_net e)) T) args kw = (e', Ok v) ->
  exists split err_t, v = Some err_t /\ k_fold (length H) k split /\
    cv_error e' (s_norm (e_net e)) H T k split test_part (fun _ => seq 0 (nneurons (s_neurons (e_net e)))) err_t.
Proof.
  intros. destruct (train_cv_selects e X T args kw k e1 H e' v) as (sp & ranks & L & full & n & et & Q1 & _ & Q2 & _ & _ & _ & _ & _ & Q3 & _); auto.
  exists sp, et. auto.
Qed.

Lemma train_fitted : forall e X T args kw e1 H e' v, shuffles ->
  wf_net (e_net e) -> 0 < s_norm (e_net e) ->
  parse_args e args kw = (e1, Ok tt) -> is_wc e1 = false ->
  smem "V" args = true /\ (exists Xv Tv, kw_Xv kw = Some (Arr2 (s_inputs (e_net e)) Xv) /\ kw_Tv kw = Some (Arr2 (s_outputs (e_net e)) Tv)) \/
  smem "V" args = false /\ smem "CV" args = true /\ (exists k, kw_k kw = Some k) \/
  smem "V" args = false /\ smem "CV" args = false /\ smem "LOO" args = true ->
  (forall ws w, kw_w kw = Some ws -> In w ws -> 0 <= w) ->
  (0 < e_batch e1)%Z -> X <> [] -> length X = length T -> wide (s_outputs (e_net e)) T ->
  elm_project e (Arr2 (s_inputs (e_net e)) X) = Ok H ->
  train e (Arr2 (s_inputs (e_net e)) X) (Arr2 (s_outputs (e_net e)) T) args kw = (e', Ok v) ->
  exists ix, columns (nneurons (s_neurons (e_net e))) ix /\ fitted e e' ix H T.
Proof.
  intros e X T args kw e1 H e' v shuf HW Hn HP Hwc Hargs Hw Hb HX HL WT HPr E.
  assert (weighting e1 T (repeat 1 (length T))) as Hws by now constructor.
  destruct Hargs as [(HV & Xv & Tv & E1 & E2)|[(HV & HCV & k & Ek)|(HV & HCV & HLOO)]].
  - destruct (train_v_selects e X T Xv Tv args kw e1 H (repeat 1 (length T)) e' v) as (_ & Hv & rank & L & full & k & _ & HR & _ & HS & HF & _); auto.
    exists (firstn k rank). split; [apply columns_firstn, HR|exact HF].
  - destruct (train_cv_selects e X T args kw k e1 H e' v) as (sp & ranks & L & full & n & et & _ & H3 & _ & _ & HR & _ & _ & HS & _ & HF & _); auto.
    exists (firstn n (nth (k - 1) ranks [])). split; [apply columns_firstn, (HR (k - 1)%nat); lia|exact HF].
  - destruct (train_loo_selects e X T args kw e1 H (repeat 1 (length T)) e' v) as (_ & rank & L & full & k & HR & _ & HS & HF & _); auto.
    exists (firstn k rank). split; [apply columns_firstn, HR|exact HF].
Qed.
End Cor.

#[local] Existing Instance no_shuffle.
Lemma no_shuffle_ok : shuffles.
Proof. intros i l. apply Permutation_refl. Qed.

Definition sel_kw : @kwargs NumR := mkKw None None None (Some 3%nat) (Some (Arr2 2 demo_X)) (Some (Arr2 2 demo_T)).

Lemma demo_selects {SG : @Sing NumR} {BR : @Brent NumR} : forall args, In args [["V"]; ["V"; "c"]; ["CV"]; ["CV"; "ml"]; ["LOO"]; ["LOO"; "c"]]%string ->
  let e := demo None "" None in
  wf_net (e_net e) /\ 0 < s_norm (e_net e) /\ s_inputs (e_net e) = 2%nat /\ s_outputs (e_net e) = 2%nat /\
  length (@demo_X NumR) = 3%nat /\ length (@demo_T NumR) = 3%nat /\ wide 2 (@demo_T NumR) /\ (exists H, elm_project e (Arr2 2 demo_X) = Ok H) /\
  (exists e1, parse_args e args sel_kw = (e1, Ok tt) /\ ErrThms.plain (e_class e1) /\ is_wc e1 = false /\ weighting e1 demo_T (repeat 1 3) /\
     simple_ranking e1 /\ ranked_size e1 (nneurons (s_neurons (e_net e))) = 3%nat /\ (0 < e_batch e1)%Z /\ all_ranked e1 3 3) /\
  (exists e' v, train e (Arr2 2 demo_X) (Arr2 2 demo_T) args sel_kw = (e', Ok v)).
Proof.
  intros args HA e.
  assert (wf_net (e_net e)) as HW by (constructor; cbn; try exact I; repeat constructor; cbn; auto; intuition discriminate).
  assert (0 < s_norm (e_net e)) as Hn by exact Rlt_0_1.
  assert (wide 2 (@demo_T NumR)) as WT by repeat constructor.
  assert (exists H, elm_project e (Arr2 2 demo_X) = Ok H) as [H HP] by (apply get_ok; vm_compute; reflexivity).
  split; [exact HW|]. split; [exact Hn|]. split; [reflexivity|]. split; [reflexivity|]. split; [reflexivity|]. split; [reflexivity|]. split; [exact WT|]. split; [eauto|].
  assert (exists e1, parse_args e args sel_kw = (e1, Ok tt) /\ ErrThms.plain (e_class e1) /\ is_wc e1 = false /\ weighting e1 demo_T (repeat 1 3) /\
     simple_ranking e1 /\ ranked_size e1 (nneurons (s_neurons (e_net e))) = 3%nat /\ (0 < e_batch e1)%Z /\ all_ranked e1 3 3) as HE.
  { unfold ErrThms.plain. destruct HA as [<-|[<-|[<-|[<-|[<-|[<-|[]]]]]]]; (apply run_ok; [reflexivity|]);
      (split; [cbn; auto|]); (split; [reflexivity|]); (split; [apply (W_plain _ (@demo_T NumR)); reflexivity|]); (split; [left; reflexivity|]); (split; [reflexivity|]); (split; [reflexivity|]); (split; [reflexivity|left; reflexivity]). }
  split; [exact HE|]. destruct HE as (e1 & H1 & H2 & _ & _ & H3 & H4 & H5 & _).
  destruct HA as [<-|[<-|[<-|[<-|[<-|[<-|[]]]]]]].
  1,2: destruct (train_v_works e demo_X demo_T demo_X demo_T _ sel_kw e1 H H HW Hn (le_S 1 1 (le_n 1)) H1) as (e' & E); auto; try discriminate; try exact no_shuffle_ok; try (rewrite H4; lia); eauto.
  1,2: destruct (train_cv_works e demo_X demo_T _ sel_kw 3 e1 H no_shuffle_ok HW Hn (le_S 1 1 (le_n 1)) H1) as (e' & w & E); auto; try (cbn; lia); try (rewrite H4; lia); eauto.
  all: destruct (train_loo_works e demo_X demo_T _ sel_kw e1 H no_shuffle_ok HW Hn (le_S 1 1 (le_n 1)) H1) as (e' & E); auto; try discriminate; try (rewrite H4; lia); eauto.
Qed.
