(** HDF5 files by name: which files a call of HPELM opens, writes and leaves open,
    inside one Python process.  Hpelm.v models the same methods on file contents;
    here the contents come from a store of named files and the table of open files
    kept by PyTables is modelled (its default policy, see [compat]). *)
From Verif Require Import Base Num Mat LinAlg Slfn Strs Elm Hpelm.
Local Open Scope string_scope.

(** mode given to tables.open_file *)
Inductive fmode := MR | MA | MW.
(** PyTables (tables/file.py open_file, policy 'default'): a file that is already open
    with mode [old] may be opened once more with mode [new]; otherwise ValueError *)
Definition compat (new old : fmode) : bool :=
  match new, old with
  | MR, MR => true
  | MA, MA | MA, MW => true
  | _, _ => false
  end.

Section Files.
Context {K : Num} {SG : Sing}.
(** what a method that fails while it fills a file leaves in that file *)
Context (junk : option (nat * mat)).

(** One process.  [p_store]: the files; [p_opened]: self.opened_hdf5 of the model
    (elm.py:94), newest first, all opened with mode "r"; [p_left]: other open files of the process. *)
Record proc := mkProc {
  p_store : string -> option (nat * mat);
  p_opened : list string;
  p_left : list (string * fmode) }.

Definition handles (p : proc) : list (string * fmode) := map (fun n => (n, MR)) (p_opened p) ++ p_left p.
Definition may_open (p : proc) (n : string) (m : fmode) : bool :=
  forallb (fun h => negb (fst h =? n) || compat m (snd h)) (handles p).
Definition put (p : proc) (n : string) (v : option (nat * mat)) : proc :=
  mkProc (fun m => if m =? n then v else p_store p m) (p_opened p) (p_left p).
Definition push (p : proc) (n : string) : proc := mkProc (p_store p) (n :: p_opened p) (p_left p).
Definition leave (p : proc) (n : string) (m : fmode) : proc := mkProc (p_store p) (p_opened p) ((n, m) :: p_left p).

(** a data argument: an array or a file name *)
Inductive fsrc := GArr (a : arr) | GName (n : string).
Definition src_of (p : proc) (a : fsrc) : src := match a with GArr x => SArr x | GName n => SFile (p_store p n) end.

(** elm.py:546-566 (X) and 568-590 (T): the bare except of X turns every failure of
    open_file into IOError, "except IOError" of T lets the ValueError of PyTables pass *)
Definition f_check1 (p : proc) (a : fsrc) (dim : nat) (isT : bool) : proc * res mat :=
  match a with
  | GArr x => (p, check_arr x dim)
  | GName n =>
    match p_store p n with
    | None => (p, Err IOError)
    | Some _ => if may_open p n MR then (push p n, check_src (src_of p a) dim)
                else (p, Err (if isT then ValueError else IOError))
    end
  end.
Definition f_check (e : elm) (p : proc) (X T : fsrc) : proc * res (mat * mat) :=
  match f_check1 p X (s_inputs (e_net e)) false with
  | (p1, Err x) => (p1, Err x)
  | (p1, Ok x) =>
    match f_check1 p1 T (s_outputs (e_net e)) true with
    | (p2, Err y) => (p2, Err y)
    | (p2, Ok t) => (p2, if (length x =? length t)%nat then Ok (x, t) else Err AssertionError)
    end
  end.
(** the checked matrices, given to the functions of Hpelm.v *)
Definition as_X (e : elm) (X : mat) : src := SFile (Some (s_inputs (e_net e), X)).
Definition as_T (e : elm) (T : mat) : src := SFile (Some (s_outputs (e_net e), T)).

(** hdf5_tools.py:20-69 _prepare_fHH with file names *)
Definition p_prepare1 (p : proc) (n : string) (rows cols : nat) (fresh : mat) : proc * res unit :=
  match p_store p n with
  | Some (w, m) =>
    if may_open p n MR then
      (p, if (length m =? rows)%nat && (w =? cols)%nat then Ok tt else Err AssertionError)
    else (p, Err ValueError)
  | None => if may_open p n MW then (put p n (Some (cols, fresh)), Ok tt) else (p, Err ValueError)
  end.
Definition p_prepare (s : slfn) (p : proc) (nHH nHT : string) : slfn * proc * res unit :=
  let s := reset s in
  let L := getL s in
  let c := s_outputs s in
  match p_prepare1 p nHH L L (scaled_eye L (s_norm s)) with
  | (p1, Err x) => (s, p1, Err x)
  | (p1, Ok _) => let (p2, r) := p_prepare1 p1 nHT L c (zero_mat L c) in (s, p2, r)
  end.
(** hp_elm.py:168-170, hdf5_tools.py:72-94 _write_fHH with file names *)
Definition p_add (p : proc) (n : string) (M : mat) : proc * res unit :=
  if may_open p n MA then
    match p_store p n with
    | Some (w, m) => (put p n (Some (w, madd m M)), Ok tt)
    | None => (p, Err IOError)
    end
  else (p, Err ValueError).
Definition p_write (s : slfn) (p : proc) (nHH nHT : string) : slfn * proc * res unit :=
  match get_corr s with
  | Ok (Some (HH, HT)) =>
    let HH' := sub_norm (getL s) (s_norm s) HH in
    let s' := match s_kind s with Basic => with_corr s (Some HH') (s_HT s) | _ => s end in
    match p_add p nHH HH' with
    | (p1, Err x) => (s', p1, Err x)
    | (p1, Ok _) => let (p2, r) := p_add p1 nHT HT in (s', p2, r)
    end
  | _ => (s, p, Err TypeError)
  end.

(** hp_elm.py:96-170 add_data *)
Definition f_add_data (e : elm) (p : proc) (X T : fsrc) (istart : Z) (icount : option Z) (corr : option (string * string))
  : elm * proc * res unit :=
  match s_neurons (e_net e) with
  | [] => (e, p, Err AssertionError)
  | _ =>
    match f_check e p X T with
    | (p1, Err x) => (e, p1, Err x)
    | (p1, Ok (Xm, Tm)) =>
      let '(e0, p2, r0) :=
        match corr with
        | None => (e, p1, Ok tt)
        | Some (a, b) => let '(s, p', r) := p_prepare (e_net e) p1 a b in (with_net e s, p', r)
        end in
      match r0 with
      | Err x => (e0, p2, Err x)
      | Ok _ =>
        match hp_add_data e0 (as_X e0 Xm) (as_T e0 Tm) istart icount None with
        | (e1, _, Err x) => (e1, p2, Err x)
        | (e1, _, Ok _) =>
          match corr with
          | None => (e1, p2, Ok tt)
          | Some (a, b) => let '(s2, p3, r) := p_write (e_net e1) p2 a b in (with_net e1 s2, p3, r)
          end
        end
      end
    end
  end.

(** hp_elm.py:57-94 train: the opened nodes, not the names, go to add_data *)
Definition f_train (e : elm) (p : proc) (X T : fsrc) (args : list string) (kw : kwargs) (istart icount : option Z)
  : elm * proc * res unit :=
  match f_check e p X T with
  | (p1, Err x) => (e, p1, Err x)
  | (p1, Ok (Xm, Tm)) => let (e1, r) := hp_train e (as_X e Xm) (as_T e Tm) args kw istart icount in (e1, p1, r)
  end.

(** hp_elm.py:613-649 _checkcorr: opened and closed; the bare except gives IOError *)
Definition f_corr (p : proc) (nHH nHT : string) : res corrfs :=
  if may_open p nHH MR && may_open p nHT MR then Ok (mkFs (p_store p nHH) (p_store p nHT)) else Err IOError.
Definition f_solve_corr (e : elm) (p : proc) (nHH nHT : string) : elm * proc * res unit :=
  match f_corr p nHH nHT with
  | Err x => (e, p, Err x)
  | Ok fs => let (e1, r) := hp_solve_corr e fs in (e1, p, r)
  end.

(** where predict and project put their result *)
Inductive fdest := GNew | GFile (n : string) | GOut (a : arr).
(** hp_elm.py:206-239, 262-297: make_hdf5 opens the file with "w" and closes it; the
    file is opened with "a" for the loop.  A failure leaves the open file behind. *)
Definition f_store (p : proc) (n : string) (cols : nat) (cnt : Z) (r : res mat) : proc * res (option mat) :=
  if may_open p n MW then
    match r with
    | Ok Y => (put p n (Some (cols, Y)), Ok None)
    | Err x => (leave (put p n junk) n (if (cnt <? 0)%Z then MW else MA), Err x)
    end
  else (p, Err ValueError).
(** hp_elm.py:183-239 predict.  The result: None, or the contents of the array *)
Definition f_predict (e : elm) (p : proc) (X : fsrc) (Y : fdest) (istart : Z) (icount : option Z)
  : proc * res (option mat) :=
  match s_neurons (e_net e), s_B (e_net e) with
  | [], _ => (p, Err AssertionError)
  | _, None => (p, Err AssertionError)
  | _, Some _ =>
    match f_check1 p X (s_inputs (e_net e)) false with
    | (p1, Err x) => (p1, Err x)
    | (p1, Ok Xm) =>
      let cnt := clip_count icount (length Xm) istart in
      match nbatches cnt (e_batch e) with
      | Err x => (p1, Err x)
      | Ok _ =>
        match Y with
        | GNew => (p1, let? M := hp_predict e (as_X e Xm) DNew istart icount in Ok (Some M))
        | GOut a => (p1, let? M := hp_predict e (as_X e Xm) (DArr a) istart icount in Ok (Some M))
        | GFile n => f_store p1 n (s_outputs (e_net e)) cnt (hp_predict e (as_X e Xm) DFile istart icount)
        end
      end
    end
  end.
(** hp_elm.py:241-297 project *)
Definition f_project (e : elm) (p : proc) (X : fsrc) (H : fdest) (istart : Z) (icount : option Z)
  : proc * res (option mat) :=
  match s_neurons (e_net e) with
  | [] => (p, Err AssertionError)
  | _ =>
    match f_check1 p X (s_inputs (e_net e)) false with
    | (p1, Err x) => (p1, Err x)
    | (p1, Ok Xm) =>
      let cnt := clip_count icount (length Xm) istart in
      match nbatches cnt (e_batch e) with
      | Err x => (p1, Err x)
      | Ok _ =>
        match H with
        | GNew => (p1, let? M := hp_project e (as_X e Xm) DNew istart icount in Ok (Some M))
        | GOut a => (p1, let? M := hp_project e (as_X e Xm) (DArr a) istart icount in Ok (Some M))
        | GFile n => f_store p1 n (getL (e_net e)) cnt (hp_project e (as_X e Xm) DFile istart icount)
        end
      end
    end
  end.

(** hp_elm.py:299-326 error: both arguments are checked as T *)
Definition f_error (e : elm) (p : proc) (T Y : fsrc) (istart : Z) (icount : option Z) : proc * res xnum :=
  let c := s_outputs (e_net e) in
  match f_check1 p T c true with
  | (p1, Err x) => (p1, Err x)
  | (p1, Ok t) =>
    match f_check1 p1 Y c true with
    | (p2, Err x) => (p2, Err x)
    | (p2, Ok y) => (p2, hp_error_ (e_class e) (e_wc e) (e_batch e) c t y istart icount)
    end
  end.

(** hp_elm.py:391-460 validation_corr *)
Definition f_validation (e : elm) (p : proc) (nHH nHT : string) (Xv Tv : fsrc) (Ls : list nat)
  : elm * proc * res (list nat * list xnum * list mat) :=
  match f_check e p Xv Tv with
  | (p1, Err x) => (e, p1, Err x)
  | (p1, Ok (X, T)) =>
    match f_corr p1 nHH nHT with
    | Err x => (e, p1, Err x)
    | Ok fs => let (e1, r) := validation_corr e fs (as_X e X) (as_T e T) Ls in (e1, p1, r)
    end
  end.

(** hp_elm.py:481-516: what add_data_async does in the main process before it starts the
    readers: the files opened by _checkdata are in opened_hdf5, the two newest are closed *)
Definition f_async_start (e : elm) (p : proc) (X T : fsrc) : proc * res (mat * mat) :=
  match s_neurons (e_net e) with
  | [] => (p, Err AssertionError)
  | _ =>
    match f_check e p X T with
    | (p1, Err x) => (p1, Err x)
    | (p1, Ok q) =>
      match p_opened p1 with
      | _ :: _ :: l => (mkProc (p_store p1) l (p_left p1), Ok q)
      | _ => (mkProc (p_store p1) [] (p_left p1), Err IndexError)
      end
    end
  end.

(** hp_elm.py:464-479 train_async up to the same point *)
Definition f_train_async_start (e : elm) (p : proc) (X T : fsrc) (args : list string) (kw : kwargs)
  : elm * proc * res (mat * mat) :=
  match f_check e p X T with
  | (p1, Err x) => (e, p1, Err x)
  | (p1, Ok _) =>
    match parse_args e args kw with
    | (e1, Err x) => (e1, p1, Err x)
    | (e1, Ok _) => let (p2, r) := f_async_start e1 p1 X T in (e1, p2, r)
    end
  end.

(** elm.py:470-473 __del__ *)
Definition f_del (p : proc) : proc := mkProc (p_store p) [] (p_left p).

(** hdf5_tools.py make_hdf5 (162) and normalize_hdf5 (98) called by the user: the file
    is opened with "w" / "a" and closed; [v]: its new contents (see Hdf5.v) *)
Definition f_make (p : proc) (n : string) (v : nat * mat) : proc * res unit :=
  if may_open p n MW then (put p n (Some v), Ok tt) else (p, Err ValueError).
Definition f_normalize (p : proc) (n : string) (f : nat * mat -> nat * mat) : proc * res unit :=
  if may_open p n MA then
    match p_store p n with
    | Some v => (put p n (Some (f v)), Ok tt)
    | None => (p, Err IOError)
    end
  else (p, Err ValueError).

(** Histories: the calls of one model and of the file tools in one process *)
Inductive fcall :=
| FCTrain (X T : fsrc) (args : list string) (kw : kwargs) (istart icount : option Z)
| FCAdd (X T : fsrc) (istart : Z) (icount : option Z) (corr : option (string * string))
| FCSolve (nHH nHT : string)
| FCPredict (X : fsrc) (Y : fdest) (istart : Z) (icount : option Z)
| FCProject (X : fsrc) (H : fdest) (istart : Z) (icount : option Z)
| FCError (T Y : fsrc) (istart : Z) (icount : option Z)
| FCValidation (nHH nHT : string) (X T : fsrc) (Ls : list nat)
| FCAsync (X T : fsrc)
| FCTrainAsync (X T : fsrc) (args : list string) (kw : kwargs)
| FCMake (n : string) (v : nat * mat)
| FCNormalize (n : string) (f : nat * mat -> nat * mat)
| FCMemory (f : elm -> elm).   (* any call without files *)

Definition unit_of {A} (r : res A) : res unit := match r with Ok _ => Ok tt | Err x => Err x end.
Definition f_call (c : fcall) (e : elm) (p : proc) : elm * proc * res unit :=
  match c with
  | FCTrain X T args kw i n => f_train e p X T args kw i n
  | FCAdd X T i n corr => f_add_data e p X T i n corr
  | FCSolve a b => f_solve_corr e p a b
  | FCPredict X Y i n => let (p1, r) := f_predict e p X Y i n in (e, p1, unit_of r)
  | FCProject X Y i n => let (p1, r) := f_project e p X Y i n in (e, p1, unit_of r)
  | FCError T Y i n => let (p1, r) := f_error e p T Y i n in (e, p1, unit_of r)
  | FCValidation a b X T Ls => let '(e1, p1, r) := f_validation e p a b X T Ls in (e1, p1, unit_of r)
  | FCAsync X T => let (p1, r) := f_async_start e p X T in (e, p1, unit_of r)
  | FCTrainAsync X T args kw => let '(e1, p1, r) := f_train_async_start e p X T args kw in (e1, p1, unit_of r)
  | FCMake n v => let (p1, r) := f_make p n v in (e, p1, r)
  | FCNormalize n f => let (p1, r) := f_normalize p n f in (e, p1, r)
  | FCMemory f => (f e, p, Ok tt)
  end.
Fixpoint f_run (cs : list fcall) (e : elm) (p : proc) : elm * proc * list (res unit) :=
  match cs with
  | [] => (e, p, [])
  | c :: r => let '(e1, p1, o) := f_call c e p in
              let '(e2, p2, os) := f_run r e1 p1 in (e2, p2, o :: os)
  end.
End Files.
Arguments proc : clear implicits. Arguments proc {K}.
Arguments fsrc : clear implicits. Arguments fsrc {K}.
Arguments fdest : clear implicits. Arguments fdest {K}.
Arguments fcall : clear implicits. Arguments fcall {K}.
