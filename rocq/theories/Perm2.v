(** Reordering the samples: structure selection and training (C104; reals). *)
From Coq Require Import Reals Lra Permutation.
From Verif Require Import Base Num Mat LinAlg Slfn Strs Elm Mrsr Search Mss MatFacts SplitProofs Spec ElmFacts RLin
  AccProofs TrainProofs RidgeProofs WfProofs TrainThms IncrThms SolveThms NeuronThms ErrThms SearchThms SelectThms RankThms SubThms MssThms LooThms SelThms
  LoadTrain RegMore ErrMore RegOrder OrderThms SumOf HpCheck Exact8 ScaleErr Perm Spec.
Local Open Scope string_scope.
Local Open Scope list_scope.
Local Open Scope R_scope.
#[local] Existing Instance NumR.

Lemma eval_ext : forall (ev ev' : Z -> res R), (forall i, ev' i = ev i) -> forall pts t, @eval_points NumR ev' t pts = @eval_points NumR ev t pts.
Proof.
  intros ev ev' H. induction pts as [|i r IH]; intros t; cbn [eval_points]; [reflexivity|]. destruct (zget t i) as [v|]; [|reflexivity]. cbn [rbind]. destruct (neqb v minus1); [|apply IH].
  rewrite H. destruct (ev i); [apply IH|reflexivity].
Qed.
Lemma search_ext : forall (ev ev' : Z -> res R), (forall i, ev' i = ev i) -> forall fuel t a b c d f, @search NumR fuel ev' t a b c d f = @search NumR fuel ev t a b c d f.
Proof.
  intros ev ev' H. induction fuel as [|n IH]; intros t a b c d f; cbn [search]; [reflexivity|]. rewrite (eval_ext ev ev' H).
  destruct (@eval_points NumR ev t [a; b; c; d; f]) as [t1|]; [|reflexivity]. cbn [rbind].
  do 5 (match goal with |- rbind ?r _ = rbind ?r _ => destruct r; [|reflexivity] end; cbn [rbind]).
  match goal with |- context [if ?q || ?r then (_, _, _) else _] => destruct (q || r) end; [|match goal with |- context [if ?q || ?r then (_, _, _) else _] => destruct (q || r) end]; match goal with |- context [(2 <? ?z)%Z] => destruct (2 <? z)%Z end; try apply IH; reflexivity.
Qed.
Lemma search_from_ext : forall (ev ev' : Z -> res R), (forall i, ev' i = ev i) -> forall t a L, @search_from NumR ev' t a L = @search_from NumR ev t a L.
Proof. intros. now apply search_ext. Qed.

Section Ix.
Variable N : nat.
Variable ix : list nat.
Hypothesis Hix : Permutation ix (seq 0 N).
Notation pm := (pr ix (@nil R)).
Notation pv := (pr ix 0).

Lemma forallb_perm : forall {A} (g : A -> bool) l l', Permutation l l' -> forallb g l = forallb g l'.
Proof. intros A g l l' H. induction H; cbn; try congruence. now rewrite !andb_assoc, (andb_comm (g x)). Qed.
Lemma project_pr : forall s X, length X = N -> @project NumR s (pm X) = rmap pm (@project NumR s X).
Proof.
  intros s X HX. unfold project. destruct (s_neurons s) as [|n0 ns] eqn:En; [reflexivity|]. rewrite <- En. destruct (existsb _ _); [reflexivity|]. destruct (existsb _ _); [reflexivity|].
  pose proof (forallb_perm (fun x => length x =? s_inputs s)%nat _ _ (pr_perm N ix Hix (@nil R) X HX)) as Q. cbn [num NumR] in *. rewrite Q. destruct (forallb _ X); [|reflexivity].
  cbn [rmap rbind]. f_equal. now apply (pr_map N ix Hix (@hrow NumR (s_neurons s))).
Qed.
Lemma project_len : forall s X H, length X = N -> @project NumR s X = Ok H -> length H = N.
Proof. intros s X H HX E. unfold project in E. destruct (s_neurons s); [discriminate|]. do 2 (destruct (existsb _ _); [discriminate|]). destruct (forallb _ _); [|discriminate]. injection E as <-. now rewrite map_length. Qed.

Context {SG : @Sing NumR} {BR : @Brent NumR} {SH : Shuffle}.
Lemma sub_error_pr : forall e HH HT Hv Tv jx, length Hv = N -> length Tv = N -> @sub_error NumR SG e HH HT (pm Hv) (pm Tv) jx = @sub_error NumR SG e HH HT Hv Tv jx.
Proof.
  intros e HH HT Hv Tv jx H1 H2. unfold sub_error. rewrite (csel_pr N ix Hix) by auto. rewrite (mmul_pr N ix Hix) by now apply csel_len. rewrite (error_pr N ix Hix); auto. now apply mmul_len, csel_len.
Qed.
Lemma full_error_pr : forall e HH HT Hv Tv, length Hv = N -> length Tv = N -> @full_error NumR SG e HH HT (pm Hv) (pm Tv) = @full_error NumR SG e HH HT Hv Tv.
Proof. intros e HH HT Hv Tv H1 H2. unfold full_error. rewrite (mmul_pr N ix Hix) by auto. rewrite (error_pr N ix Hix); auto. now apply mmul_len. Qed.
Lemma press_R_pr : forall n H P, length H = N -> @press_R NumR n (pm H) P = pv (@press_R NumR n H P).
Proof. intros n H P HH. unfold press_R. now apply (pr_map N ix Hix (fun h => @nsub NumR n1 (@dotv NumR (@mkv NumR n (fun j => @dotv NumR h (@mcol NumR P j))) h))). Qed.
Lemma loo_error_pr : forall e n H HH HT T, length H = N -> length T = N -> @loo_error NumR e n (pm H) HH HT (pm T) = @loo_error NumR e n H HH HT T.
Proof.
  intros e n H HH HT T H1 H2. unfold loo_error. destruct (inv n HH) as [P|]; [|reflexivity]. cbn [rbind]. rewrite (mmul_pr N ix Hix) by auto. rewrite press_R_pr by auto. rewrite (press_pr N ix Hix); auto; [now apply mmul_len|].
  unfold press_R. now rewrite map_length.
Qed.
Lemma select_v_pr : forall e Xv Tv, length Xv = N -> length Tv = N -> @select_v NumR SG BR SH e (pm Xv) (pm Tv) = @select_v NumR SG BR SH e Xv Tv.
Proof.
  intros e Xv Tv HX HT. unfold select_v. destruct (need_corr _) as [[HH HTm]|]; [|reflexivity]. cbn [rbind]. rewrite project_pr by auto.
  destruct (@project NumR (e_net e) Xv) as [Hv|] eqn:EP; [|reflexivity]. cbn [rbind rmap]. pose proof (project_len _ _ _ HX EP) as HH0.
  rewrite (ranking_pr N ix Hix) by auto. destruct (ranking _ _ _ _ _) as [[rank L]|]; [|reflexivity]. cbn [rbind]. rewrite full_error_pr by auto.
  destruct (full_error _ _ _ _ _) as [err|]; [|reflexivity]. cbn [rbind]. destruct (L =? 0)%nat; [reflexivity|]. cbv zeta.
  erewrite search_from_ext; [reflexivity|]. intros i. cbv beta. now rewrite sub_error_pr by auto.
Qed.
Lemma select_loo_pr : forall e H T, length H = N -> length T = N -> @select_loo NumR SG BR SH e (pm H) (pm T) = @select_loo NumR SG BR SH e H T.
Proof.
  intros e H T HX HT. unfold select_loo. destruct (need_corr _) as [[HH HTm]|]; [|reflexivity]. cbn [rbind].
  rewrite (ranking_pr N ix Hix) by auto. destruct (ranking _ _ _ _ _) as [[rank L]|]; [|reflexivity]. cbn [rbind]. rewrite loo_error_pr by auto.
  destruct (loo_error _ _ _ _ _ _) as [err|]; [|reflexivity]. cbn [rbind]. destruct (L =? 0)%nat; [reflexivity|]. cbv zeta.
  erewrite search_from_ext; [reflexivity|]. intros i. cbv beta zeta. rewrite (csel_pr N ix Hix) by auto. rewrite loo_error_pr; auto. now apply csel_len.
Qed.
Lemma wide_pr : forall c (M : list (list R)), length M = N -> @wide NumR c M -> @wide NumR c (pm M).
Proof. intros c M HM W. unfold wide in *. apply (Permutation_Forall (Permutation_sym (pr_perm N ix Hix (@nil R) M HM)) W). Qed.
Lemma add_batch_pr : forall s X T, length X = N -> length T = N -> @wide NumR (s_outputs s) T -> @add_batch NumR s (pm X) (pm T) None = @add_batch NumR s X T None.
Proof.
  intros s X T HX HT W. unfold add_batch. rewrite project_pr by auto. destruct (@project NumR s X) as [H|] eqn:EP; [|reflexivity]. cbn [rbind rmap]. pose proof (project_len _ _ _ HX EP) as HH.
  pose proof (fit_wide _ _ W) as Q. pose proof (fit_wide _ _ (wide_pr _ _ HT W)) as Q'. cbn [num NumR] in *. rewrite Q, Q'. rewrite !(pr_len N ix Hix), HT, HH, Nat.eqb_refl.
  unfold add_HH. rewrite !(tdot_pr N ix Hix) by auto. reflexivity.
Qed.
Lemma refit_pr : forall e X T best, length X = N -> length T = N -> @wide NumR (s_outputs (e_net e)) T -> @refit NumR SG e (pm X) (pm T) best = @refit NumR SG e X T best.
Proof. intros e X T best HX HT W. unfold refit. rewrite add_batch_pr; auto. Qed.
End Ix.

(** ** the accumulated sums *)
Lemma holds_det : forall k L A B M, @holds k L A M -> @holds k L B M -> A = B.
Proof. intros k L A B M [A1 A2] [B1 B2]. apply (@mat_ext NumR L L); auto. intros i j Hi Hj. rewrite A2, B2 by auto. reflexivity. Qed.

Lemma joint_index : forall (X T X' T' : list (list R)), length X = length T -> length X' = length T' -> Permutation (combine X T) (combine X' T') ->
  exists ix, Permutation ix (seq 0 (length X)) /\ X' = pr ix [] X /\ T' = pr ix [] T.
Proof.
  intros X T X' T' HL HL' P. destruct (perm_index ([], []) _ _ P) as (ix & Pix & E). rewrite combine_length, <- HL, Nat.min_id in Pix. exists ix. split; [exact Pix|].
  split.
  - rewrite <- (combine_fst X' T' HL'), E. transitivity (pr ix [] (map fst (combine X T))); [apply (pr_map (length X) ix Pix); rewrite combine_length; lia|now rewrite combine_fst].
  - rewrite <- (combine_snd X' T' HL'), E. transitivity (pr ix [] (map snd (combine X T))); [apply (pr_map (length X) ix Pix); rewrite combine_length; lia|now rewrite combine_snd].
Qed.

Section Train.
Context {SG : @Sing NumR} {BR : @Brent NumR} {SH : Shuffle}.
Lemma add_data_pr : forall e g X T X' T', Acc (e_net e) [] -> usable (e_net e) -> (0 < e_batch e)%Z -> X <> [] -> length X = length T -> length X' = length T' ->
  @wide NumR (s_inputs (e_net e)) X -> @wide NumR (s_outputs (e_net e)) T -> @weights_ok e g T -> Permutation (combine X T) (combine X' T') ->
  exists e2, add_data e X T = (e2, Ok tt) /\ add_data e X' T' = (e2, Ok tt) /\ s_outputs (e_net e2) = s_outputs (e_net e).
Proof.
  intros e g X T X' T' HA HU Hb HX HL HL' WX WT HW P.
  assert (Permutation X X') as PX by (rewrite <- (combine_fst X T HL), <- (combine_fst X' T' HL'); now apply Permutation_map).
  assert (Permutation T T') as PT by (rewrite <- (combine_snd X T HL), <- (combine_snd X' T' HL'); now apply Permutation_map).
  assert (X' <> []) as HX' by (intros ->; apply Permutation_sym, Permutation_nil in PX; contradiction).
  destruct (add_data_acc e g X T [] HA HU Hb HX HL WX WT HW) as (s1 & E1 & A1 & C1 & N1).
  destruct (add_data_acc e g X' T' [] HA HU Hb HX' HL' (Permutation_Forall PX WX) (Permutation_Forall PT WT) (weights_ok_perm _ _ _ _ PT HW)) as (s2 & E2 & A2 & C2 & N2).
  assert (s2 = s1) as ->.
  { cbn [app] in A1, A2. rewrite samples_map in A1, A2 by auto.
    pose proof (Permutation_map (fun p => (g (snd p), hrow (s_neurons (e_net e)) (fst p), snd p)) P) as PS.
    unfold Acc in A1, A2. rewrite C1 in A1. rewrite C2 in A2. destruct (s_HH s1) as [hh1|]; [|congruence]. destruct (s_HH s2) as [hh2|]; [|congruence].
    unfold with_corr in A1, A2. cbn [s_HH s_HT s_kind s_norm s_outputs] in A1, A2. unfold getL in A1, A2. cbn [s_L] in A1, A2.
    destruct (s_HT s1) as [ht1|]; [|contradiction]. destruct (s_HT s2) as [ht2|]; [|contradiction]. destruct A1 as [A1 ->], A2 as [A2 ->].
    rewrite (OrderThms.spec_HH_perm _ _ _ _ (Permutation_sym PS)) in A2. rewrite (OrderThms.spec_HT_perm _ _ _ _ (Permutation_sym PS)) in C2. rewrite (holds_det _ _ _ _ _ A2 A1) in C2. rewrite C1. exact C2. }
  rewrite <- (fill_wc_perm e T T' PT) in E2. exists (with_net (fill_wc e T) s1). split; [exact E1|]. split; [exact E2|]. cbn [e_net with_net]. rewrite C1. reflexivity.
Qed.

(** ** cross-validation: samples may change places inside each part *)
Lemma part_index : forall N ix P, Permutation ix (seq 0 N) -> (forall i, In i P -> (i < N)%nat) -> Permutation (map (fun j => nth j ix 0%nat) P) P ->
  exists jx, Permutation jx (seq 0 (length P)) /\ forall M : list (list R), length M = N -> @rsel NumR (pr ix [] M) P = pr jx [] (@rsel NumR M P).
Proof.
  intros N ix P Hix HP PP. destruct (perm_index 0%nat _ _ (Permutation_sym PP)) as (jx & Pj & E). exists jx. split; [exact Pj|]. intros M HM.
  unfold rsel. transitivity (map (fun i => nth i M []) (map (fun j => nth j ix 0%nat) P)).
  - rewrite map_map. apply map_ext_in. intros j Hj. exact (nth_pr N ix Hix (@nil R) M j (HP j Hj)).
  - rewrite E. symmetry. exact (eq_sym (pr_map (length P) jx Pj (fun i => nth i M []) 0%nat [] P eq_refl)).
Qed.
Definition same_parts (N k : nat) (ix : list nat) : Prop := Permutation ix (seq 0 N) /\ forall j, (j < N)%nat -> (nth j ix 0 mod k)%nat = (j mod k)%nat.
Lemma fold_perm : forall N k ix i, same_parts N k ix -> Permutation (map (fun j => nth j ix 0%nat) (fold_idx N k i)) (fold_idx N k i).
Proof.
  intros N k ix i [Hix HM]. unfold fold_idx. eapply Permutation_trans; [|apply (filter_perm _ _ _ Hix)].
  match goal with |- Permutation _ (filter ?g ix) => assert (filter g ix = filter g (map (fun k => nth k ix 0%nat) (seq 0 N))) as -> by (now rewrite (ix_nth N ix Hix)) end. rewrite filter_map_c. apply Permutation_map.
  erewrite filter_ext_in; [reflexivity|]. intros j Hj. apply in_seq in Hj. cbv beta. rewrite HM by lia. reflexivity.
Qed.
Lemma fold_in : forall N k i j, In j (fold_idx N k i) -> (j < N)%nat.
Proof. intros N k i j H. unfold fold_idx in H. apply filter_In, proj1, in_seq in H. lia. Qed.
Lemma folds_perm : forall N k ix is_, same_parts N k ix -> Permutation (map (fun j => nth j ix 0%nat) (concat (map (fold_idx N k) is_))) (concat (map (fold_idx N k) is_)).
Proof. intros N k ix is_ H. induction is_ as [|i r IH]; [constructor|]. cbn [map concat]. rewrite map_app. apply Permutation_app; [now apply fold_perm|exact IH]. Qed.
Lemma folds_in : forall N k is_ j, In j (concat (map (fold_idx N k) is_)) -> (j < N)%nat.
Proof. intros N k is_ j H. apply in_concat in H as (l & Hl & Hj). apply in_map_iff in Hl as (i & <- & _). now apply fold_in in Hj. Qed.

Definition fold_like (a b : @fold_data NumR) : Prop :=
  fd_HH b = fd_HH a /\ fd_HT b = fd_HT a /\ fd_rank b = fd_rank a /\
  (exists n jx, Permutation jx (seq 0 n) /\ length (fd_Hv a) = n /\ length (fd_Tv a) = n /\ fd_Hv b = pr jx [] (fd_Hv a) /\ fd_Tv b = pr jx [] (fd_Tv a)) /\
  (exists n jx, Permutation jx (seq 0 n) /\ length (fd_Ht a) = n /\ length (fd_Tt a) = n /\ fd_Ht b = pr jx [] (fd_Ht a) /\ fd_Tt b = pr jx [] (fd_Tt a)).
Definition folds_like (a b : elm * res (list (@fold_data NumR) * nat)) : Prop :=
  fst b = fst a /\ match snd a, snd b with
  | Ok (fa, la), Ok (fb, lb) => Forall2 fold_like fa fb /\ lb = la
  | Err x, Err y => y = x
  | _, _ => False
  end.
Lemma wide_rsel : forall c N (T : list (list R)) P, length T = N -> (forall j, In j P -> (j < N)%nat) -> @wide NumR c T -> @wide NumR c (@rsel NumR T P).
Proof.
  intros c N T P HT HP W. unfold wide, rsel in *. apply Forall_forall. intros r Hr. apply in_map_iff in Hr as (j & <- & Hj). rewrite Forall_forall in W. apply W, nth_In. apply HP in Hj. cbn [num NumR] in *. lia.
Qed.
Lemma build_folds_pr : forall N k ix X T, same_parts N k ix -> length X = N -> length T = N -> forall is_ e L, @wide NumR (s_outputs (e_net e)) T ->
  folds_like (@build_folds NumR SG BR SH e X T N k is_ L) (@build_folds NumR SG BR SH e (pr ix [] X) (pr ix [] T) N k is_ L).
Proof.
  intros N k ix X T SP HX HT. induction is_ as [|i r IH]; intros e L W; cbn [build_folds]; [repeat split; constructor|].
  unfold fold_parts. set (items := map (fun j => ((i + j) mod k)%nat) (seq 0 k)). set (tr := concat (map (fold_idx N k) (firstn (k - 2) items))).
  set (vl := fold_idx N k (nth (k - 2) items 0%nat)). set (ts := fold_idx N k (nth (k - 1) items 0%nat)).
  destruct (part_index N ix tr (proj1 SP) (folds_in N k _) (folds_perm N k ix _ SP)) as (jr & Pr & Er).
  destruct (part_index N ix vl (proj1 SP) (fold_in N k _) (fold_perm N k ix _ SP)) as (jv & Pv & Ev).
  destruct (part_index N ix ts (proj1 SP) (fold_in N k _) (fold_perm N k ix _ SP)) as (jt & Pt & Et).
  pose proof (Er X HX) as ErX. pose proof (Er T HT) as ErT. pose proof (Ev X HX) as EvX. pose proof (Ev T HT) as EvT. pose proof (Et X HX) as EtX. pose proof (Et T HT) as EtT.
  cbn [num NumR] in *. rewrite ErX, ErT, EvX, EvT, EtX, EtT. clear Er Ev Et ErX ErT EvX EvT EtX EtT.
  assert (forall (M : list (list R)) P, length (@rsel NumR M P) = length P) as RL by (intros; unfold rsel; apply map_length). cbn [num NumR] in RL.
  rewrite (add_batch_pr (length tr) jr Pr); auto. 2: { apply (wide_rsel _ N); auto. exact (folds_in N k _). }
  destruct (@add_batch NumR (reset (e_net e)) (@rsel NumR X tr) (@rsel NumR T tr) None) as [s1 [[]|x]] eqn:Ea; [|repeat split].
  assert (s_outputs s1 = s_outputs (e_net e)) as Eo.
  { pose proof (@add_batch_outputs NumR (reset (e_net e)) (@rsel NumR X tr) (@rsel NumR T tr) None) as Q. rewrite Ea in Q. exact Q. }
  destruct (need_corr (get_corr s1)) as [hc|x]; cbn [rbind]; [|repeat split].
  rewrite (project_pr (length vl) jv Pv), (project_pr (length ts) jt Pt) by auto.
  destruct (@project NumR s1 (@rsel NumR X vl)) as [Hv|x] eqn:Epv; cbn [rbind rmap]; [|repeat split].
  destruct (@project NumR s1 (@rsel NumR X ts)) as [Ht|x] eqn:Ept; cbn [rbind rmap]; [|repeat split].
  pose proof (project_len (length vl) _ _ _ (RL X vl) Epv) as LHv. pose proof (project_len (length ts) _ _ _ (RL X ts) Ept) as LHt.
  rewrite (ranking_pr (length vl) jv Pv) by auto.
  destruct (ranking (with_net e s1) i (getL s1) Hv (@rsel NumR T vl)) as [rl|x]; cbn [rbind]; [|repeat split].
  specialize (IH (with_net e s1) (snd rl)). cbn [e_net with_net] in IH. rewrite Eo in IH. specialize (IH W). unfold folds_like in IH.
  destruct (build_folds (with_net e s1) X T N k r (snd rl)) as [e2 [[fa la]|x]], (build_folds (with_net e s1) (pr ix [] X) (pr ix [] T) N k r (snd rl)) as [e3 [[fb lb]|y]]; cbn [fst snd] in IH; destruct IH as [IH1 IH2]; try contradiction.
  - destruct IH2 as [IH2 ->]. unfold folds_like. cbn [fst snd]. split; [exact IH1|]. split; [|reflexivity]. constructor; [|exact IH2]. unfold fold_like. cbn [fd_HH fd_HT fd_rank fd_Hv fd_Tv fd_Ht fd_Tt].
    split; [reflexivity|]. split; [reflexivity|]. split; [reflexivity|]. split; [exists (length vl), jv|exists (length ts), jt]; auto.
  - unfold folds_like. cbn [fst snd]. auto.
Qed.
Lemma avg_like : forall (f f' : @fold_data NumR -> res R), (forall a b, fold_like a b -> f' b = f a) -> forall k fa fb, Forall2 fold_like fa fb -> forall acc,
  @avg_folds NumR f' k fb acc = @avg_folds NumR f k fa acc.
Proof. intros f f' H k fa fb F. induction F as [|a b fa fb Hab F IH]; intros acc; cbn [avg_folds]; [reflexivity|]. rewrite (H a b Hab). destruct (f a); [apply IH|reflexivity]. Qed.
Lemma select_cv_like : forall e fa fb k L, Forall2 fold_like fa fb -> @select_cv NumR SG e fb k L = @select_cv NumR SG e fa k L.
Proof.
  intros e fa fb k L F. unfold select_cv.
  assert (forall a b, fold_like a b -> @full_error NumR SG e (fd_HH b) (fd_HT b) (fd_Hv b) (fd_Tv b) = @full_error NumR SG e (fd_HH a) (fd_HT a) (fd_Hv a) (fd_Tv a)) as F1.
  { intros a b (E1 & E2 & _ & (n & jx & P & L1 & L2 & E3 & E4) & _). rewrite E1, E2, E3, E4. now apply (full_error_pr n jx P). }
  assert (forall a b, fold_like a b -> @full_error NumR SG e (fd_HH b) (fd_HT b) (fd_Ht b) (fd_Tt b) = @full_error NumR SG e (fd_HH a) (fd_HT a) (fd_Ht a) (fd_Tt a)) as F2.
  { intros a b (E1 & E2 & _ & _ & (n & jx & P & L1 & L2 & E3 & E4)). rewrite E1, E2, E3, E4. now apply (full_error_pr n jx P). }
  rewrite (avg_like _ _ F1 k fa fb F), (avg_like _ _ F2 k fa fb F).
  destruct (avg_folds _ k fa n0) as [err|]; [|reflexivity]. cbn [rbind]. destruct (L =? 0)%nat; [reflexivity|]. cbv zeta.
  erewrite search_from_ext.
  2: { intros i. cbv beta. match goal with |- context [@avg_folds NumR ?g k fb n0] => rewrite (avg_like (fun fd => @sub_error NumR SG e (fd_HH fd) (fd_HT fd) (fd_Hv fd) (fd_Tv fd) (slice (fd_rank fd) 0 i)) g) with (fa := fa) end; [reflexivity| |exact F].
    intros a b (E1 & E2 & E5 & (n & jx & P & L1 & L2 & E3 & E4) & _). rewrite E1, E2, E3, E4, E5. now apply (sub_error_pr n jx P). }
  match goal with |- rbind ?r _ = rbind ?r _ => destruct r as [[[mm kopt] tb]|]; [|reflexivity] end. cbn [rbind]. match goal with |- rbind ?r _ = rbind ?r _ => destruct r; [|reflexivity] end. cbn [rbind].
  do 3 f_equal. f_equal. clear -F. induction F as [|a b fa fb Hab F IH]; [reflexivity|]. destruct F; [apply Hab|exact IH].
Qed.
Lemma build_outputs : forall e X T N k is_ L, s_outputs (e_net (fst (@build_folds NumR SG BR SH e X T N k is_ L))) = s_outputs (e_net e).
Proof.
  intros e X T N k is_. revert e. induction is_ as [|i r IH]; intros e L; cbn [build_folds]; [reflexivity|]. destruct (fold_parts N k i) as [[tr vl] ts].
  pose proof (@add_batch_outputs NumR (reset (e_net e)) (rsel X tr) (rsel T tr) None) as Q. change (s_outputs (reset (e_net e))) with (s_outputs (e_net e)) in Q.
  destruct (add_batch _ _ _ _) as [s1 [[]|x]]; cbn [fst] in Q.
  2: { cbn [fst e_net with_net]. exact Q. }
  destruct (rbind _ _) as [[fd L1]|x]; [|cbn [fst e_net with_net]; exact Q]. specialize (IH (with_net e s1) L1). destruct (build_folds _ _ _ _ _ _ _) as [e2 [[fds L2]|x]]; cbn [fst e_net with_net] in *; congruence.
Qed.

(** ** training *)
Lemma train_basic_pr : forall e X T X' T' e2, add_data e X T = (e2, Ok tt) -> add_data e X' T' = (e2, Ok tt) -> @train_basic NumR SG e X' T' = @train_basic NumR SG e X T.
Proof. intros e X T X' T' e2 E1 E2. unfold train_basic. cbn [num NumR] in *. now rewrite E1, E2. Qed.

Theorem train_v_pr : forall e X T X' T' e2 ix jx N M Xv Tv, add_data e X T = (e2, Ok tt) -> add_data e X' T' = (e2, Ok tt) -> @wide NumR (s_outputs (e_net e2)) T ->
  Permutation ix (seq 0 N) -> length X = N -> length T = N -> X' = pr ix [] X -> T' = pr ix [] T ->
  Permutation jx (seq 0 M) -> length Xv = M -> length Tv = M ->
  @train_v NumR SG BR SH e X' T' (pr jx [] Xv) (pr jx [] Tv) = @train_v NumR SG BR SH e X T Xv Tv.
Proof.
  intros e X T X' T' e2 ix jx N M Xv Tv E1 E2 W Pi HX HT -> -> Pj HXv HTv. unfold train_v. cbn [num NumR] in *. rewrite E1, E2. rewrite (select_v_pr M jx Pj) by auto.
  destruct (select_v e2 Xv Tv) as [[[k rank] t]|x]; [|reflexivity]. cbn [lift_err]. now rewrite (refit_pr N ix Pi) by auto.
Qed.
Theorem train_loo_pr : forall e X T X' T' e2 ix N, add_data e X T = (e2, Ok tt) -> add_data e X' T' = (e2, Ok tt) -> @wide NumR (s_outputs (e_net e2)) T ->
  Permutation ix (seq 0 N) -> length X = N -> length T = N -> X' = pr ix [] X -> T' = pr ix [] T ->
  @train_loo NumR SG BR SH e X' T' = @train_loo NumR SG BR SH e X T.
Proof.
  intros e X T X' T' e2 ix N E1 E2 W Pi HX HT -> ->. unfold train_loo. rewrite (project_pr N ix Pi) by auto. destruct (@project NumR (e_net e) X) as [H|] eqn:EP; [|reflexivity]. cbn [rmap rbind lift_err].
  pose proof (project_len N _ _ _ HX EP) as HH. cbn [num NumR] in *. rewrite E1, E2. rewrite (select_loo_pr N ix Pi) by auto.
  destruct (select_loo e2 H T) as [[[k rank] t]|x]; [|reflexivity]. cbn [lift_err]. now rewrite (refit_pr N ix Pi) by auto.
Qed.
Theorem train_cv_pr : forall e X T k ix N, same_parts N k ix -> length X = N -> length T = N -> @wide NumR (s_outputs (e_net e)) T ->
  @train_cv NumR SG BR SH e (pr ix [] X) (pr ix [] T) k = @train_cv NumR SG BR SH e X T k.
Proof.
  intros e X T k ix N SP HX HT W. unfold train_cv. pose proof (pr_len N ix (proj1 SP) (@nil R) X) as Q. cbn [num NumR] in *. rewrite Q, HX.
  pose proof (build_folds_pr N k ix X T SP HX HT (seq 0 k) e (getL (e_net e)) W) as B. pose proof (build_outputs e X T N k (seq 0 k) (getL (e_net e))) as Eo. unfold folds_like in B. cbn [num NumR] in *.
  match type of B with fst ?b = fst ?a /\ _ => destruct a as [e1 [[fa la]|x]], b as [e2 [[fb lb]|y]] end; cbn [fst snd] in *; destruct B as [-> B]; try contradiction.
  - destruct B as [F ->]. rewrite (select_cv_like e1 fa fb k la F). destruct (select_cv e1 fa k la) as [[[[kopt rank] err] t]|x]; [|reflexivity]. cbn [lift_err]. rewrite (refit_pr N ix (proj1 SP)); auto. now rewrite Eo.
  - now rewrite B.
Qed.

(** the same keywords up to the order of the validation samples *)
Inductive reordered : kwargs -> kwargs -> Prop :=
| ro_same : forall kw, reordered kw kw
| ro_val : forall w km b k cx ct Xv Tv Xv' Tv', length Xv = length Tv -> length Xv' = length Tv' -> Permutation (combine Xv Tv) (combine Xv' Tv') ->
    reordered (mkKw w km b k (Some (Arr2 cx Xv)) (Some (Arr2 ct Tv))) (mkKw w km b k (Some (Arr2 cx Xv')) (Some (Arr2 ct Tv'))).

Lemma pr_id : forall {A} (d : A) l, pr (seq 0 (length l)) d l = l.
Proof. intros A d l. unfold pr. induction l as [|a l IH]; [reflexivity|]. cbn [length seq map nth]. f_equal. rewrite <- seq_shift, map_map. exact IH. Qed.
Lemma check_len : forall e X T x t, @checkdata NumR e X T = Ok (x, t) -> length x = length t.
Proof. intros e X T x t E. unfold checkdata in E. destruct (check_arr X _); [|discriminate]. cbn [rbind] in E. destruct (check_arr T _); [|discriminate]. cbn [rbind] in E. destruct (_ =? _)%nat eqn:Q; [|discriminate]. injection E as <- <-. now apply Nat.eqb_eq. Qed.
Lemma check2 : forall e X T, length X = length T -> @checkdata NumR e (Arr2 (s_inputs (e_net e)) X) (Arr2 (s_outputs (e_net e)) T) = Ok (X, T).
Proof. intros e X T HL. unfold checkdata, check_arr. rewrite !Nat.eqb_refl. cbn [rbind]. cbn [num NumR] in *. now rewrite HL, Nat.eqb_refl. Qed.

Theorem train_order : forall e X T X' T' H args kw kw' e1 ws, wf_net (e_net e) -> parse_args e args kw = (e1, Ok tt) -> smem "CV" args = false -> (0 < e_batch e1)%Z ->
  X <> [] -> length X = length T -> length X' = length T' -> Permutation (combine X T) (combine X' T') ->
  @wide NumR (s_outputs (e_net e)) T -> weighting e1 T ws -> elm_project e (Arr2 (s_inputs (e_net e)) X) = Ok H -> reordered kw kw' ->
  train e (Arr2 (s_inputs (e_net e)) X') (Arr2 (s_outputs (e_net e)) T') args kw' = train e (Arr2 (s_inputs (e_net e)) X) (Arr2 (s_outputs (e_net e)) T) args kw.
Proof.
  intros e X T X' T' H args kw kw' e1 ws HW HP HCV Hb HX HL HL' P WT Hws HPr RO.
  destruct (elm_project_inv _ _ _ HPr) as (HU & WX & ->). pose proof (parse_args_ok _ _ _ _ HP) as EN.
  destruct (weighting_ok e1 T ws) as (g & -> & Hg & _); auto. { rewrite EN. exact WT. }
  assert (Acc (e_net e1) []) as HA by (rewrite EN; reflexivity).
  destruct (joint_index X T X' T' HL HL' P) as (ix & Pi & EX & ET).
  destruct (add_data_pr e1 g X T X' T' HA ltac:(rewrite EN; exact HU) Hb HX HL HL' ltac:(rewrite EN; exact WX) ltac:(rewrite EN; exact WT) Hg P) as (e2 & A1 & A2 & Eo).
  assert (@wide NumR (s_outputs (e_net e2)) T) as W2 by (rewrite Eo, EN; exact WT).
  assert (parse_args e args kw' = (e1, Ok tt)) as HP' by (rewrite <- HP; destruct RO; [reflexivity|]; now apply parse_args_ignored).
  unfold train. rewrite !check2 by auto. rewrite HP, HP', HCV.
  destruct (smem "V" args).
  - destruct RO as [kw|w km b k cx ct Xv Tv Xv' Tv' L1 L2 PV]; cbn [kw_Xv kw_Tv].
    + destruct (kw_Xv kw) as [xv|]; [|reflexivity]. destruct (kw_Tv kw) as [tv|]; [|reflexivity].
      destruct (checkdata e1 xv tv) as [[x t]|err] eqn:EC; [|reflexivity]. pose proof (check_len _ _ _ _ _ EC) as LV. cbn [lift_err fst snd].
      pose proof (train_v_pr e1 X T X' T' e2 ix (seq 0 (length x)) (length X) (length x) x t A1 A2 W2 Pi eq_refl (eq_sym HL) EX ET (Permutation_refl _) eq_refl (eq_sym LV)) as Q.
      pose proof (pr_id (@nil R) x) as I1. pose proof (eq_trans (f_equal (fun n => pr (seq 0 n) (@nil R) t) LV) (pr_id (@nil R) t)) as I2. cbv beta in I2. cbn [num NumR] in *. rewrite I1, I2 in Q. exact Q.
    + unfold checkdata, check_arr. destruct (cx =? _)%nat; [|reflexivity]. cbn [rbind]. destruct (ct =? _)%nat; [|reflexivity]. cbn [rbind]. cbn [num NumR] in *. rewrite L1, L2, !Nat.eqb_refl. cbn [lift_err fst snd].
      destruct (joint_index Xv Tv Xv' Tv' L1 L2 PV) as (jx & Pj & -> & ->). exact (train_v_pr e1 X T X' T' e2 ix jx (length X) (length Xv) Xv Tv A1 A2 W2 Pi eq_refl (eq_sym HL) EX ET Pj eq_refl (eq_sym L1)).
  - destruct (smem "LOO" args).
    + exact (train_loo_pr e1 X T X' T' e2 ix (length X) A1 A2 W2 Pi eq_refl (eq_sym HL) EX ET).
    + exact (train_basic_pr e1 X T X' T' e2 A1 A2).
Qed.

(** with 'CV' *)
Theorem train_order_cv : forall e X T args kw k e1 ix, parse_args e args kw = (e1, Ok tt) -> smem "V" args = false -> smem "CV" args = true -> kw_k kw = Some k ->
  length X = length T -> @wide NumR (s_outputs (e_net e)) T -> Permutation ix (seq 0 (length X)) -> (forall j, (j < length X)%nat -> (nth j ix 0 mod k)%nat = (j mod k)%nat) ->
  train e (Arr2 (s_inputs (e_net e)) (map (fun i => nth i X []) ix)) (Arr2 (s_outputs (e_net e)) (map (fun i => nth i T []) ix)) args kw =
  train e (Arr2 (s_inputs (e_net e)) X) (Arr2 (s_outputs (e_net e)) T) args kw.
Proof.
  intros e X T args kw k e1 ix HP HV HCV Hk HL WT Pi HM. pose proof (parse_args_ok _ _ _ _ HP) as EN.
  change (map (fun i => nth i X []) ix) with (pr ix [] X). change (map (fun i => nth i T []) ix) with (pr ix [] T).
  unfold train, checkdata, check_arr. rewrite !Nat.eqb_refl. cbn [rbind]. pose proof (pr_len (length X) ix Pi (@nil R)) as Q. cbn [num NumR] in *. rewrite !Q, <- HL, !Nat.eqb_refl, HP, HV, HCV, Hk.
  destruct (3 <=? k)%nat; [|reflexivity]. apply (train_cv_pr e1 X T k ix (length X)); auto; [split; assumption|]. rewrite EN. exact WT.
Qed.
End Train.

Theorem ranking_order {SG : @Sing NumR} {BR : @Brent NumR} : forall (H T H' T' : list (list R)) m p kmax, length H = length T -> length H' = length T' -> Permutation (combine H T) (combine H' T') ->
  mrsr H' T' m p kmax = mrsr H T m p kmax /\ mrsr2 H' T' m p kmax = mrsr2 H T m p kmax.
Proof.
  intros H T H' T' m p kmax HL HL' P. destruct (joint_index H T H' T' HL HL' P) as (ix & Pi & -> & ->). split; [now apply (mrsr_pr (length H) ix Pi)|now apply (mrsr2_pr (length H) ix Pi)].
Qed.
