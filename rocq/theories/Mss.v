(** Model structure selection: hpelm/mss_v.py, mss_cv.py, mss_loo.py and the
    public training method ELM.train (elm.py:150-205). *)
From Verif Require Import Base Num Mat LinAlg Slfn Strs Elm Mrsr Search.
Local Open Scope string_scope.

(** np.random.shuffle: the i-th call applied to a vector. *)
Class Shuffle := { shuffle : nat -> list nat -> list nat }.

Section Mss.
Context {K : Num} {SG : Sing} {BR : Brent} {SH : Shuffle}.

(** elm.py:517-540 _ranking; [i] numbers the calls of np.random.shuffle.  L =
    number of neurons = columns of H; p = columns of T.  A negative kmax is not
    modelled. *)
Definition ranking (e : elm) (i L : nat) (H T : mat) : res (list nat * nat) :=
  let p := s_outputs (e_net e) in
  if e_op e then
    let L' := match e_kmax e with Some k => Nat.min k L | None => L end in
    let? r := (if (p <? 10)%nat then mrsr H T L p L' else mrsr2 H T L p L') in
    Ok (r, L')
  else Ok (shuffle i (seq 0 L), L).

(** An error value that enters the search must be finite. *)
Definition xfin (x : xnum) : res num :=
  match x with Fin a => Ok a | _ => Err NonFinite end.

(** err * 0.01 / L *)
Definition penalty_of (err : num) (L : nat) : num :=
  ndiv (nmul err (ndiv n1 (nof_nat 100))) (nof_nat L).

Definition nof_Z (z : Z) : num := nof_nat (Z.to_nat z).

(** HH[rank1, :][:, rank1] *)
Definition sub_HH (HH : mat) (ix : list nat) : mat := csel (rsel HH ix) ix.

(** Validation error of the model that keeps the neurons [ix]:
    mss_v.py:55-59, mss_cv.py:87-91. *)
Definition sub_error (e : elm) (HH HT Hv Tv : mat) (ix : list nat) : res num :=
  let B := solve_corr (e_net e) (length ix) (sub_HH HH ix) (rsel HT ix) in
  let Yv := mmul (s_outputs (e_net e)) (csel Hv ix) B in
  let? x := error_ e Tv Yv in xfin x.

(** Error of the complete model: mss_v.py:25, 31-32 ; mss_cv.py:60-62, 116-118. *)
Definition full_error (e : elm) (HH HT Hv Tv : mat) : res num :=
  let B := solve_corr (e_net e) (getL (e_net e)) HH HT in
  let? x := error_ e Tv (mmul (s_outputs (e_net e)) Hv B) in xfin x.

(** The last lines of the three functions (mss_v.py:80-82): keep the neurons,
    accumulate all the data in one batch, solve. *)
Definition refit (e : elm) (X T : mat) (best : list nat) : elm * res unit :=
  let s := prune (e_net e) best in
  match add_batch s X T None with
  | (s1, Err x) => (with_net e s1, Err x)
  | (s1, Ok _) => let (s2, r) := solve s1 in (with_net e s2, r)
  end.

Definition lift_err {A} (e : elm) (r : res A) (k : A -> elm * res (option num)) : elm * res (option num) :=
  match r with Ok a => k a | Err x => (e, Err x) end.
Definition done (er : elm * res unit) (v : option num) : elm * res (option num) :=
  (fst er, match snd er with Ok _ => Ok v | Err x => Err x end).

Definition need_corr (r : res (option (mat * mat))) : res (mat * mat) :=
  match r with Ok (Some p) => Ok p | Ok None => Err TypeError | Err x => Err x end.

(** Everything train_v computes before pruning: (k_opt, rank, table). *)
Definition select_v (e : elm) (Xv Tv : mat) : res (Z * list nat * (num * list num)) :=
  let net := e_net e in
  let? hc := need_corr (get_corr net) in
  let (HH, HT) := hc in
  let? Hv := project net Xv in
  let L0 := getL net in
  let? rl := ranking e 0 L0 Hv Tv in
  let (rank, L) := rl in
  let? err := full_error e HH HT Hv Tv in
  if (L =? 0)%nat then Err NonFinite
  else
    let pen := penalty_of err L in
    let tbl := init_table L0 (Z.of_nat L) (nadd err (nmul (nof_nat L) pen)) in
    let ev := fun idx => let? v := sub_error e HH HT Hv Tv (slice rank 0 idx) in
                         Ok (nadd v (nmul (nof_Z idx) pen)) in
    let? r := search_from ev tbl 1 (Z.of_nat L) in
    let '(m, k, t) := r in Ok (k, rank, (m, t)).

(** mss_v.py:11-82 train_v *)
Definition train_v (e : elm) (X T Xv Tv : mat) : elm * res (option num) :=
  match add_data e X T with
  | (e1, Err x) => (e1, Err x)
  | (e1, Ok _) =>
    lift_err e1 (select_v e1 Xv Tv) (fun r =>
      let '(k, rank, _) := r in
      done (refit e1 X T (slice rank 0 k)) None)
  end.

(** ** Cross-validation *)
(** np.arange(N)[i::k] *)
Definition fold_idx (N k i : nat) : list nat :=
  filter (fun n => n mod k =? i)%nat (seq 0 N).

(** mss_cv.py:37-41: indices of the training, validation and test parts of split i *)
Definition fold_parts (N k i : nat) : list nat * list nat * list nat :=
  let items := map (fun j => ((i + j) mod k)%nat) (seq 0 k) in
  (concat (map (fold_idx N k) (firstn (k - 2) items)),
   fold_idx N k (nth (k - 2) items O), fold_idx N k (nth (k - 1) items O)).

Record fold_data := mkFold {
  fd_HH : mat; fd_HT : mat; fd_Hv : mat; fd_Tv : mat; fd_Ht : mat; fd_Tt : mat; fd_rank : list nat }.

(** mss_cv.py:36-54 loop.  [L] is overwritten by _ranking in each iteration. *)
Fixpoint build_folds (e : elm) (X T : mat) (N k : nat) (is_ : list nat) (L : nat)
  : elm * res (list fold_data * nat) :=
  match is_ with
  | [] => (e, Ok ([], L))
  | i :: r =>
    let '(tr, vl, ts) := fold_parts N k i in
    let s0 := reset (e_net e) in
    match add_batch s0 (rsel X tr) (rsel T tr) None with
    | (s1, Err x) => (with_net e s1, Err x)
    | (s1, Ok _) =>
      let e1 := with_net e s1 in
      let one :=
        let? hc := need_corr (get_corr s1) in
        let? Hv := project s1 (rsel X vl) in
        let? Ht := project s1 (rsel X ts) in
        let? rl := ranking e1 i (getL s1) Hv (rsel T vl) in
        Ok (mkFold (fst hc) (snd hc) Hv (rsel T vl) Ht (rsel T ts) (fst rl), snd rl) in
      match one with
      | Err x => (e1, Err x)
      | Ok (fd, L1) =>
        match build_folds e1 X T N k r L1 with
        | (e2, Ok (fds, L2)) => (e2, Ok (fd :: fds, L2))
        | (e2, Err x) => (e2, Err x)
        end
      end
    end
  end.

(** mss_cv.py:58-62 / 84-91 / 114-118: sum of f(part) / k *)
Fixpoint avg_folds (f : fold_data -> res num) (k : nat) (fds : list fold_data) (acc : num) : res num :=
  match fds with
  | [] => Ok acc
  | fd :: r => let? v := f fd in avg_folds f k r (nadd acc (ndiv v (nof_nat k)))
  end.

(** mss_cv.py:56-118: (k_opt, rank of the last split, err_t, table) *)
Definition select_cv (e : elm) (fds : list fold_data) (k L : nat)
  : res (Z * list nat * num * list num) :=
  let? err := avg_folds (fun fd => full_error e (fd_HH fd) (fd_HT fd) (fd_Hv fd) (fd_Tv fd)) k fds n0 in
  if (L =? 0)%nat then Err NonFinite
  else
    let pen := penalty_of err L in
    let tbl := init_table L (Z.of_nat L) (nadd err (nmul (nof_nat L) pen)) in
    let ev := fun idx =>
      let? v := avg_folds (fun fd => sub_error e (fd_HH fd) (fd_HT fd) (fd_Hv fd) (fd_Tv fd)
                                               (slice (fd_rank fd) 0 idx)) k fds n0 in
      Ok (nadd v (nmul (nof_Z idx) pen)) in
    let? r := search_from ev tbl 3 (Z.of_nat L) in
    let '(m, kopt, t) := r in
    let? err_t := avg_folds (fun fd => full_error e (fd_HH fd) (fd_HT fd) (fd_Ht fd) (fd_Tt fd)) k fds n0 in
    Ok (kopt, fd_rank (last fds (mkFold [] [] [] [] [] [] [])), err_t, t).

(** mss_cv.py:11-127 train_cv *)
Definition train_cv (e : elm) (X T : mat) (k : nat) : elm * res (option num) :=
  match build_folds e X T (length X) k (seq 0 k) (getL (e_net e)) with
  | (e1, Err x) => (e1, Err x)
  | (e1, Ok (fds, L)) =>
    lift_err e1 (select_cv e1 fds k L) (fun r =>
      let '(kopt, rank, err_t, _) := r in
      done (refit e1 X T (slice rank 0 kopt)) (Some err_t))
  end.

(** ** Leave-one-out *)
(** mss_loo.py:33-37 / 65-69: PRESS error of the model with the columns of H;
    n = number of columns *)
Definition press_R (n : nat) (H P : mat) : vec :=
  map (fun h => nsub n1 (dotv (mkv n (fun j => dotv h (mcol P j))) h)) H.
Definition loo_error (e : elm) (n : nat) (H HH HT T : mat) : res num :=
  let c := s_outputs (e_net e) in
  let? P := inv n HH in
  let B := mmul c P HT in
  let? x := press_ e T (mmul c H B) (press_R n H P) in xfin x.

Definition select_loo (e : elm) (H T : mat) : res (Z * list nat * list num) :=
  let net := e_net e in
  let? hc := need_corr (get_corr net) in
  let (HH, HT) := hc in
  let L0 := getL net in
  let? rl := ranking e 0 L0 H T in
  let (rank, L) := rl in
  let? err := loo_error e L0 H HH HT T in
  if (L =? 0)%nat then Err NonFinite
  else
    let pen := penalty_of err L in
    let tbl := init_table L0 (Z.of_nat L) (nadd err (nmul (nof_nat L) pen)) in
    let ev := fun idx =>
      let ix := slice rank 0 idx in
      let? v := loo_error e (length ix) (csel H ix) (sub_HH HH ix) (rsel HT ix) T in
      Ok (nadd v (nmul (nof_Z idx) pen)) in
    let? r := search_from ev tbl 1 (Z.of_nat L) in
    let '(m, k, t) := r in Ok (k, rank, t).

(** mss_loo.py:11-93 train_loo *)
Definition train_loo (e : elm) (X T : mat) : elm * res (option num) :=
  lift_err e (project (e_net e) X) (fun H =>
    match add_data e X T with
    | (e1, Err x) => (e1, Err x)
    | (e1, Ok _) =>
      lift_err e1 (select_loo e1 H T) (fun r =>
        let '(k, rank, _) := r in done (refit e1 X T (slice rank 0 k)) None)
    end).

(** elm.py:202-204 basic training *)
Definition train_basic (e : elm) (X T : mat) : elm * res (option num) :=
  match add_data e X T with
  | (e1, Err x) => (e1, Err x)
  | (e1, Ok _) => let (s, r) := solve (e_net e1) in done (with_net e1 s, r) None
  end.

(** elm.py:182-204 train.  The result is the error returned by 'CV', else None. *)
Definition train (e : elm) (X T : arr) (args : list string) (kw : kwargs) : elm * res (option num) :=
  match checkdata e X T with
  | Err x => (e, Err x)
  | Ok (x, t) =>
    match parse_args e args kw with
    | (e1, Err err) => (e1, Err err)
    | (e1, Ok _) =>
      if smem "V" args then
        match kw_Xv kw, kw_Tv kw with
        | Some Xv, Some Tv =>
          lift_err e1 (checkdata e1 Xv Tv) (fun v => train_v e1 x t (fst v) (snd v))
        | _, _ => (e1, Err AssertionError)
        end
      else if smem "CV" args then
        match kw_k kw with
        | Some k => if (3 <=? k)%nat then train_cv e1 x t k else (e1, Err AssertionError)
        | None => (e1, Err AssertionError)
        end
      else if smem "LOO" args then train_loo e1 x t
      else train_basic e1 x t
    end
  end.
End Mss.
