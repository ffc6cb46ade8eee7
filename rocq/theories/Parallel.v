(** Several processes that call HPELM.add_data with the same fHH and fHT files:
    hdf5_tools.py:20-69 _prepare_fHH, 72-94 _write_fHH, hp_elm.py:128-170.
    - Each process is a sequence of steps on the two files and the two lock files; the
      local computation (hp_elm.py:131-166) is one step, its result is given.
    - isfile + open + shape test + close is one step; make_hdf5 is two (hdf5_tools.py:209
      truncates the file, 225 stores the data); "node[:] += HH" is two (read, write).
    - A process may die before any step; fasteners' locks (fcntl) of a dead process
      are released by the operating system.  A death in the middle of one HDF5 write,
      and errors of the HDF5 library about concurrently opened files, are not modelled. *)
From Verif Require Import Base Num Mat Slfn Network.

Section Parallel.
Context {K : Num}.

(** no file; a file without a matrix (just truncated); columns and rows *)
Inductive pfile := FNone | FEmpty | FData (w : nat) (m : mat).

Inductive ppc :=
| CheckH | TruncH | FillH | CheckT | TruncT | FillT | Work
| LockH | ReadH | WriteH (m : mat) | UnlockH
| LockT | ReadT | WriteT (m : mat) | UnlockT
| Done | Raised (x : exn) | Dead (wroteH wroteT : bool).

Record pst := mkPst { gH : pfile; gT : pfile; lockH : option nat; lockT : option nat; pcs : list ppc }.

(** what has been written by a process that is at this point *)
Definition wroteH (q : ppc) : bool :=
  match q with UnlockH | LockT | ReadT | WriteT _ | UnlockT | Done => true | Dead a _ => a | _ => false end.
Definition wroteT (q : ppc) : bool := match q with UnlockT | Done => true | Dead _ b => b | _ => false end.

(** [L] neurons, [c] outputs, [init] the matrix norm*I, [work p] the contribution of
    process p (hp_elm.py:168-169: norm is already subtracted) *)
Context (L c : nat) (init : mat) (work : nat -> res (mat * mat)).

Definition check (f : pfile) (rows cols : nat) (absent ok : ppc) : ppc :=
  match f with
  | FNone => absent
  | FEmpty => Raised IOError
  | FData w m => if (length m =? rows)%nat && (w =? cols)%nat then ok else Raised AssertionError
  end.

Definition set_pc (g : pst) (p : nat) (q : ppc) : pst := mkPst (gH g) (gT g) (lockH g) (lockT g) (upd (pcs g) p q).

(** one step of process p; None: it waits for a lock, or has ended *)
Definition pstep (p : nat) (g : pst) : option pst :=
  match nth_error (pcs g) p with
  | None => None
  | Some q =>
    match q with
    | CheckH => Some (set_pc g p (check (gH g) L L TruncH CheckT))
    | TruncH => Some (mkPst FEmpty (gT g) (lockH g) (lockT g) (upd (pcs g) p FillH))
    | FillH => Some (mkPst (FData L init) (gT g) (lockH g) (lockT g) (upd (pcs g) p CheckT))
    | CheckT => Some (set_pc g p (check (gT g) L c TruncT Work))
    | TruncT => Some (mkPst (gH g) FEmpty (lockH g) (lockT g) (upd (pcs g) p FillT))
    | FillT => Some (mkPst (gH g) (FData c (zero_mat L c)) (lockH g) (lockT g) (upd (pcs g) p Work))
    | Work => Some (set_pc g p (match work p with Ok _ => LockH | Err x => Raised x end))
    | LockH => match lockH g with
               | Some _ => None
               | None => Some (mkPst (gH g) (gT g) (Some p) (lockT g) (upd (pcs g) p ReadH))
               end
    | ReadH => match gH g, work p with
               | FData w m, Ok (HH, _) => Some (set_pc g p (WriteH (madd m HH)))
               | _, _ => Some (mkPst (gH g) (gT g) None (lockT g) (upd (pcs g) p (Raised IOError)))
               end
    | WriteH m => Some (mkPst (FData L m) (gT g) (lockH g) (lockT g) (upd (pcs g) p UnlockH))
    | UnlockH => Some (mkPst (gH g) (gT g) None (lockT g) (upd (pcs g) p LockT))
    | LockT => match lockT g with
               | Some _ => None
               | None => Some (mkPst (gH g) (gT g) (lockH g) (Some p) (upd (pcs g) p ReadT))
               end
    | ReadT => match gT g, work p with
               | FData w m, Ok (_, HT) => Some (set_pc g p (WriteT (madd m HT)))
               | _, _ => Some (mkPst (gH g) (gT g) (lockH g) None (upd (pcs g) p (Raised IOError)))
               end
    | WriteT m => Some (mkPst (gH g) (FData c m) (lockH g) (lockT g) (upd (pcs g) p UnlockT))
    | UnlockT => Some (mkPst (gH g) (gT g) (lockH g) None (upd (pcs g) p Done))
    | Done | Raised _ | Dead _ _ => None
    end
  end.

Definition free (l : option nat) (p : nat) : option nat :=
  match l with Some r => if (r =? p)%nat then None else Some r | None => None end.
Definition pcrash (p : nat) (g : pst) : option pst :=
  match nth_error (pcs g) p with
  | None | Some Done | Some (Raised _) | Some (Dead _ _) => None
  | Some q => Some (mkPst (gH g) (gT g) (free (lockH g) p) (free (lockT g) p) (upd (pcs g) p (Dead (wroteH q) (wroteT q))))
  end.

Inductive pevent := Run (p : nat) | Crash (p : nat).
Definition pfire (ev : pevent) (g : pst) : option pst := match ev with Run p => pstep p g | Crash p => pcrash p g end.
Fixpoint pexec (g : pst) (evs : list pevent) : option pst :=
  match evs with
  | [] => Some g
  | ev :: r => match pfire ev g with Some g' => pexec g' r | None => None end
  end.
End Parallel.
