(** validation_corr with files given by name. *)
From Verif Require Import Base Num Mat LinAlg Slfn Strs Elm Hpelm Files FilesThms FilesUse.
Section Any.
Context {K : Num} {SG : Sing}.
Theorem validation_named : forall e p a b Xv Tv Ls e1 p1 r, p_left p = [] -> f_validation e p a b Xv Tv Ls = (e1, p1, r) ->
  validation_corr e (mkFs (p_store p a) (p_store p b)) (src_of p Xv) (src_of p Tv) Ls = (e1, r) /\ (forall n, p_store p1 n = p_store p n).
Proof.
  intros e p a b Xv Tv Ls e1 p1 r L. unfold f_validation. pose proof (check_src_hp e p Xv Tv L) as A.
  assert (S : p_left (fst (f_check e p Xv Tv)) = [] /\ forall n, p_store (fst (f_check e p Xv Tv)) n = p_store p n).
  { unfold f_check. destruct (f_check1 p Xv _ _) as [q [x|x]] eqn:E; destruct (check1_state _ _ _ _ _ _ L E) as (L1 & S1); [|auto].
    destruct (f_check1 q Tv _ _) as [q2 [t|t]] eqn:E2; destruct (check1_state _ _ _ _ _ _ L1 E2) as (L2 & S2); cbn [fst]; (split; [exact L2|intros n; rewrite S2; apply S1]). }
  destruct (f_check e p Xv Tv) as [q [[X T]|x]]; cbn [fst snd] in *; destruct S as (L1 & S1).
  - unfold f_corr. rewrite !may_open_free by auto. cbn [andb]. cbv beta iota. rewrite !S1.
    assert (B : validation_corr e (mkFs (p_store p a) (p_store p b)) (as_X e X) (as_T e T) Ls = validation_corr e (mkFs (p_store p a) (p_store p b)) (src_of p Xv) (src_of p Tv) Ls).
    { assert (C : hp_check e (as_X e X) (as_T e T) = hp_check e (src_of p Xv) (src_of p Tv)).
      { rewrite as_check, (hp_check_len _ _ _ _ _ (eq_sym A)), Nat.eqb_refl. exact A. }
      unfold validation_corr. rewrite C. reflexivity. }
    rewrite B. destruct (validation_corr e (mkFs (p_store p a) (p_store p b)) (src_of p Xv) (src_of p Tv) Ls) as [e2 r2]. intros [= <- <- <-]. auto.
  - intros [= <- <- <-]. split; [|exact S1]. unfold validation_corr. rewrite <- A. reflexivity.
Qed.
End Any.
