(** HDF5 files given by name: C85-C87; str(model): C88.  The calls and the table of open files are in
    Files.v; [names], [reads], [writes], [stays] (FilesThms.v) list the files a call names. *)
From Coq Require Import QArith.
From Verif Require Import Base Num Mat LinAlg Slfn Strs Elm Mss Hpelm Files FilesThms FilesUse Str StrThms Demo Refute10 Refute11.
Local Open Scope string_scope.
Local Open Scope list_scope.
Local Open Scope nat_scope.

Section Any.
Context {K : Num} {SG : Sing}.
Context (junk : option (nat * mat)).

(** ** C85: files named in calls can be used again *)
(** after calls that return normally exactly the data files stay open, each as often
    as it was named; deleting the model closes them *)
Theorem C85_open_files : forall cs e p e1 p1 os, usual cs -> f_run junk cs e p = (e1, p1, os) -> forallb is_ok os = true ->
  p_opened p1 = rev (flat_map stays cs) ++ p_opened p /\ p_left p1 = p_left p /\ handles (f_del p1) = p_left p.
Proof.
  intros cs e p e1 p1 os U E H. destruct (run_summary junk _ _ _ _ _ _ U E) as (_ & A & _). destruct (A H) as (B & C).
  split; [exact B|]. split; [exact C|]. exact C.
Qed.
(** a file the model has read can never be written again before the model is deleted *)
Theorem C85_blocked : forall c e p e1 p1 n cs e2 p2 os d e3 p3 r,
  odd_async c = false -> f_call junk c e p = (e1, p1, Ok tt) -> In n (stays c) ->
  usual cs -> f_run junk cs e1 p1 = (e2, p2, os) ->
  match d with
  | FCPredict _ (GFile m) _ _ | FCProject _ (GFile m) _ _ | FCMake m _ | FCNormalize m _ => m = n
  | _ => False
  end ->
  f_call junk d e2 p2 = (e3, p3, r) -> is_ok r = false /\ forall m, p_store p3 m = p_store p2 m.
Proof.
  intros c e p e1 p1 n cs e2 p2 os d e3 p3 r D E I U F M G.
  destruct (call_summary junk _ _ _ _ _ _ D E) as (_ & A & _). destruct (A eq_refl) as (B & _).
  destruct (run_summary junk _ _ _ _ _ _ U F) as ((k & O) & _).
  assert (J : In n (p_opened p2)). { rewrite O, B, !in_app_iff, <- in_rev. auto. }
  destruct (open_file_blocks junk d e2 p2 e3 p3 r n) as (R & _ & S); auto.
  destruct d; try contradiction; reflexivity.
Qed.
(** otherwise the methods do with the named files what they do with their contents *)
Theorem C85_train_partial : forall e p X T args kw i n e1 p1 r, p_left p = [] ->
  f_train e p X T args kw i n = (e1, p1, r) -> hp_train e (src_of p X) (src_of p T) args kw i n = (e1, r).
Proof. exact train_named. Qed.
Theorem C85_predict_partial : forall e p X y i n p1 r, p_left p = [] -> ~ In y (names X ++ p_opened p) ->
  f_predict junk e p X (GFile y) i n = (p1, r) ->
  match hp_predict e (src_of p X) DFile i n with
  | Ok Y => r = Ok None /\ p_store p1 y = Some (s_outputs (e_net e), Y)
  | Err x => r = Err x
  end.
Proof. exact (predict_named junk). Qed.
Theorem C85_project_partial : forall e p X y i n p1 r, p_left p = [] -> ~ In y (names X ++ p_opened p) ->
  f_project junk e p X (GFile y) i n = (p1, r) ->
  match hp_project e (src_of p X) DFile i n with
  | Ok H => r = Ok None /\ p_store p1 y = Some (getL (e_net e), H)
  | Err x => r = Err x
  end.
Proof. exact (project_named junk). Qed.
Theorem C85_error_partial : forall e p T Y i n p1 r, p_left p = [] -> f_error e p T Y i n = (p1, r) ->
  hp_error e (src_of p T) (src_of p Y) i n = r.
Proof. exact error_named. Qed.

(** ** C86: files given as input are never changed *)
Theorem C86_only_outputs : forall cs e p e1 p1 os n, usual cs -> f_run junk cs e p = (e1, p1, os) ->
  (forall c, In c cs -> ~ In n (writes c)) -> p_store p1 n = p_store p n.
Proof. intros cs e p e1 p1 os n U E. apply (run_summary junk _ _ _ _ _ _ U E). Qed.
(** even if the name is also given as output, in the same call or later *)
Theorem C86_same_call : forall c e p e1 p1 r n, odd_async c = false -> f_call junk c e p = (e1, p1, r) ->
  In n (p_opened p1) -> p_store p1 n = p_store p n.
Proof.
  intros c e p e1 p1 r n D E I. destruct (call_summary junk _ _ _ _ _ _ D E) as (_ & _ & S & _).
  destruct (S n) as [(_ & N)|Q]; [contradiction|exact Q].
Qed.
Theorem C86_later : forall cs e p e1 p1 os n, usual cs -> f_run junk cs e p = (e1, p1, os) ->
  In n (p_opened p) -> p_store p1 n = p_store p n.
Proof. intros cs e p e1 p1 os n U E. apply (run_summary junk _ _ _ _ _ _ U E). Qed.

(** ** C87: correlation files given by name *)
Theorem C87_add_data_partial : forall e p X T i n a b e1 p1 r, p_left p = [] -> a <> b ->
  ~ In a (names X ++ names T ++ p_opened p) -> ~ In b (names X ++ names T ++ p_opened p) ->
  f_add_data e p X T i n (Some (a, b)) = (e1, p1, r) ->
  hp_add_data e (src_of p X) (src_of p T) i n (Some (mkFs (p_store p a) (p_store p b))) =
    (e1, Some (mkFs (p_store p1 a) (p_store p1 b)), r).
Proof. exact add_data_named. Qed.
Theorem C87_solve_corr : forall e p a b e1 p1 r, p_left p = [] -> f_solve_corr e p a b = (e1, p1, r) ->
  p1 = p /\ hp_solve_corr e (mkFs (p_store p a) (p_store p b)) = (e1, r).
Proof. exact solve_corr_named. Qed.
Theorem C87_same_name : forall e p X T i n a e1 p1 r, getL (reset (e_net e)) <> s_outputs (e_net e) ->
  f_add_data e p X T i n (Some (a, a)) = (e1, p1, r) -> is_ok r = false.
Proof. exact same_name. Qed.
End Any.

Section Rationals.
#[local] Existing Instance NumQ.
(** predict into a file whose error was computed; normalize_hdf5 of training data; the
    output of a failing predict *)
Theorem C85_refuted {SG : @Sing NumQ} :
  (exists cs, usual cs /\ snd (f_run None (cs ++ [FCPredict cx (GFile "y.h5") 0 None]) one_lin two_files) =
     [Ok tt; Ok tt; Ok tt; Err ValueError] /\ nth_error cs 1 = Some (FCPredict cx (GFile "y.h5") 0 None)) /\
  (let nrm := FCNormalize "x.h5" (fun v => v) in
   snd (f_run None [nrm; train_xt; nrm] one_lin two_files) = [Ok tt; Ok tt; Err ValueError]) /\
  snd (f_run None [train_xt; FCPredict cx (GFile "y.h5") (-2) None; FCMake "y.h5" (1, [[0%Q]])] one_lin two_files) =
    [Ok tt; Err ValueError; Err ValueError].
Proof.
  split; [|exact (conj normalize_late left_open)].
  exists [train_xt; FCPredict cx (GFile "y.h5") 0 None; FCError ct (GName "y.h5") 0 None].
  exact (conj eq_refl (conj predict_twice eq_refl)).
Qed.
Theorem C87_same_name_refuted {SG : @Sing NumQ} :
  let r1 := f_add_data one_lin two_files cx ct 0 None (Some ("h.h5", "h.h5")) in
  let r2 := f_add_data one_lin two_files cx ct 0 None (Some ("h.h5", "g.h5")) in
  snd r1 = Ok tt /\ p_store (snd (fst r1)) "h.h5" = Some (1, [[19%Q]]) /\
  p_store (snd (fst r2)) "h.h5" = Some (1, [[6%Q]]) /\ p_store (snd (fst r2)) "g.h5" = Some (1, [[13%Q]]).
Proof. destruct (one_name _ eq_refl) as (A & B & C & D). exact (conj C (conj D (conj A B))). Qed.

(** the hypotheses hold: a history that reads and writes, and returns normally *)
Example C85_hyps {SG : @Sing NumQ} : let cs := [train_xt; FCPredict cx (GFile "y.h5") 0 None; FCError ct (GName "y.h5") 0 None] in
  usual cs /\ forallb is_ok (snd (f_run None cs one_lin two_files)) = true /\
  flat_map stays cs = ["x.h5"; "t.h5"; "x.h5"; "t.h5"; "y.h5"] /\ p_left two_files = [] /\
  ~ In "y.h5" (names cx ++ p_opened two_files).
Proof.
  cbv zeta. split; [reflexivity|]. split; [vm_compute; reflexivity|]. split; [reflexivity|]. split; [reflexivity|].
  cbn. intros [H|[]]. discriminate.
Qed.
Example C86_hyps {SG : @Sing NumQ} : let c := FCPredict cx (GFile "x.h5") 0 None in
  In "x.h5" (writes c) /\
  snd (f_run None [train_xt; c] one_lin two_files) = [Ok tt; Err ValueError] /\
  p_store (snd (fst (f_run None [train_xt; c] one_lin two_files))) "x.h5" = Some (1, [[1%Q]; [2%Q]]).
Proof. cbv zeta. split; [left; reflexivity|]. split; vm_compute; reflexivity. Qed.
Example C87_hyps {SG : @Sing NumQ} : ~ In "h.h5" (names cx ++ names ct ++ p_opened two_files) /\
  snd (f_run None [FCAdd cx ct 0 None (Some ("h.h5", "g.h5")); FCSolve "h.h5" "g.h5"; FCAdd cx ct 0 (Some 1%Z) (Some ("h.h5", "g.h5"))] one_lin two_files) =
    [Ok tt; Ok tt; Ok tt] /\
  getL (reset (e_net (lin_model 1 1 "" None 1000 None 1%Q 2 [[1%Q; 2%Q]] [0%Q; 0%Q]))) <> 1.
Proof.
  split; [cbn; intros [H|[H|[]]]; discriminate|]. split; [vm_compute; reflexivity|]. vm_compute. discriminate.
Qed.
End Rationals.

(** ** C88: str(model) *)
Theorem C88_format {K : Num} : forall uname e, elm_str uname e = (first_line e ++ newline ++ second_line uname e)%string.
Proof. exact str_format. Qed.
Theorem C88_determines {K : Num} : forall uname e e', pure (s_neurons (e_net e)) -> pure (s_neurons (e_net e')) ->
  (elm_str uname e = elm_str uname e' <->
   s_inputs (e_net e) = s_inputs (e_net e') /\ s_outputs (e_net e) = s_outputs (e_net e') /\
   sizes (s_neurons (e_net e)) = sizes (s_neurons (e_net e'))).
Proof. exact str_determines. Qed.
Example C88_hyps {K : Num} {SG : Sing} : forall uname, let e := lin_model 2 1 "" None 1000 None n1 3 [[n1; n0; n1]; [n0; n1; n1]] [n0; n0; n0] in
  pure (s_neurons (e_net e)) /\ first_line e = "ELM with 2 inputs and 1 outputs" /\ second_line uname e = "Hidden layer neurons: 3 lin".
Proof. intros uname. cbv zeta. split; [reflexivity|]. split; reflexivity. Qed.
Print Assumptions C85_open_files.
Print Assumptions C85_blocked.
Print Assumptions C85_train_partial.
Print Assumptions C85_predict_partial.
Print Assumptions C85_project_partial.
Print Assumptions C85_error_partial.
Print Assumptions C86_only_outputs.
Print Assumptions C86_same_call.
Print Assumptions C86_later.
Print Assumptions C87_add_data_partial.
Print Assumptions C87_solve_corr.
Print Assumptions C87_same_name.
Print Assumptions C85_refuted.
Print Assumptions C87_same_name_refuted.
Print Assumptions C88_format.
Print Assumptions C88_determines.
