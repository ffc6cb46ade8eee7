(** Rounding error of HPELM.predict (C109), from RoundRbf and C15. *)
From Coq Require Import ZArith Reals Lra Permutation Floats.SpecFloat.
From Verif Require Import Base Num Mat LinAlg Slfn Strs Elm Hpelm MatFacts SplitProofs ElmFacts TrainThms RangeThms ErrThms SumOf Float Rounding RoundThms WfProofs SubThms FeatureThms ConvertR RoundNet LibDouble RoundRbf Spec.
Local Open Scope R_scope.

Lemma nth_range_of : forall {A} (l : list A) i c d r, (r < length (range_of l i c))%nat -> nth r (range_of l i c) d = nth (i + r) l d.
Proof.
  assert (forall A (l : list A) i d r, nth r (skipn i l) d = nth (i + r) l d) as S.
  { intros A l i d r. revert l. induction i as [|i IH]; intros [|a l]; cbn; auto. destruct r; reflexivity. }
  intros A l i [c|] d r H; cbn [range_of] in *; [|apply S]. rewrite <- S. rewrite firstn_length in H.
  rewrite <- (firstn_skipn c (skipn i l)) at 2. rewrite app_nth1; [reflexivity|]. rewrite firstn_length. exact H.
Qed.

Lemma predict_length : forall {K : Num} e c X Y, elm_predict e (Arr2 c X) = Ok Y -> length Y = length X.
Proof. intros K e c X Y E. destruct (predict_slices e c X Y E) as (g & B & _ & _ & _ & -> & _). apply map_length. Qed.

Section Hp.
Context {K : Num} (RD : rounded K).
Theorem hp_network_rounding : signs RD -> forall v e e' X B Y d d' fY fY' istart icount Y', library RD v -> kappa RD v < 1 -> wf_net (e_net e) -> exact_model RD e e' ->
  (forall n, In n (s_neurons (e_net e)) -> In (n_func n) [Lin; Sigm; Tanh; RbfL1; RbfL2]) -> s_B (e_net e) = Some B ->
  elm_predict e (Arr2 (s_inputs (e_net e)) X) = Ok Y ->
  (0 < e_batch e)%Z -> (0 < @e_batch NumR e')%Z -> (istart <= length X)%nat -> holds_data d (s_inputs (e_net e)) X -> @holds_data NumR d' (s_inputs (e_net e)) (vals RD X) ->
  fY = DNew \/ fY = DFile -> fY' = DNew \/ fY' = DFile ->
  hp_predict e d fY (Z.of_nat istart) (zcount icount) = Ok Y' ->
  exists (H : mat) (Yx : list (list R)), elm_project e (Arr2 (s_inputs (e_net e)) X) = Ok H /\
    @hp_predict NumR e' d' fY' (Z.of_nat istart) (zcount icount) = Ok Yx /\ length Y' = length (range_of X istart icount) /\
    forall r k, (r < length Y')%nat -> (k < s_outputs (e_net e))%nat ->
      (forall c, In c (cells (s_neurons (e_net e))) -> in_range RD (nth (istart + r) X []) c) -> r_fin K RD (mget Y' r k) ->
      Rabs (r_val K RD (mget Y' r k) - entry (nth r Yx []) k) <=
      bnd RD (length B) (predict1 (mags RD B) (nth (istart + r) (mags RD H) []) k) (2 * INR (length B)) +
      predict1 (mags RD B) (map (any_err RD v (nth (istart + r) X [])) (cells (s_neurons (e_net e)))) k.
Proof.
  intros HS v e e' X B Y d d' fY fY' istart icount Y' HV Hk HW HM HF EB EP Hb Hb' Hi Hd Hd' Hf Hf' EH.
  destruct (any_network_rounding RD HS v e e' X B Y HV Hk HW HM HF EB EP) as (H & Yx & E1 & E2 & HB).
  rewrite (hp_predict_range e d _ X Y fY istart icount Hb Hd Hi EP Hf) in EH. apply Ok_inj in EH. subst Y'.
  assert (length Y = length X) as LY by exact (predict_length _ _ _ _ EP).
  assert (length Yx = length X) as LYx. { refine (eq_trans (@predict_length NumR _ _ _ _ E2) _). unfold vals. apply map_length. }
  assert (forall A A' (l : list A) (l' : list A'), length l = length l' -> length (range_of l istart icount) = length (range_of l' istart icount)) as LR.
  { intros A A' l l' E. destruct icount; cbn [range_of]; rewrite ?firstn_length, !skipn_length, E; reflexivity. }
  exists H, (range_of Yx istart icount). split; [exact E1|]. split.
  { apply (@hp_predict_range NumR e' d' (s_inputs (e_net e)) (vals RD X) Yx fY' istart icount Hb' Hd'); auto. unfold vals. rewrite map_length. exact Hi. }
  split; [apply LR; exact LY|]. intros r k Hr Hkk HO HFn.
  assert (istart + r < length X)%nat as HrX. { rewrite (LR _ _ Y X LY) in Hr. destruct icount; cbn [range_of] in Hr; rewrite ?firstn_length, skipn_length in Hr; lia. }
  assert (mget (range_of Y istart icount) r k = mget Y (istart + r) k) as EM by (unfold mget; rewrite (nth_range_of Y istart icount [] r Hr); reflexivity).
  rewrite EM in *. rewrite (nth_range_of Yx istart icount []) by (rewrite (LR _ _ Yx Y) by congruence; exact Hr). apply HB; auto.
Qed.
End Hp.
