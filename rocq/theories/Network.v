(** Processes connected by FIFO queues, the semantics of multiprocessing.Process
    and multiprocessing.Queue as used by hpelm:
    - put appends to the buffer of the queue and blocks while the queue holds
      maxsize items (buffer and pipe); a feeder thread moves items from the buffer
      to the pipe, which has room for [pcap] >= 1 items (any value: the real capacity
      depends on the size of the items);
    - get takes the first item of the pipe and blocks while the pipe is empty;
    - join blocks until the process has stopped and its queues are flushed
      (multiprocessing joins the feeder threads at exit). *)
From Verif Require Import Base.

Fixpoint upd {A} (l : list A) (i : nat) (x : A) : list A :=
  match l, i with
  | [], _ => []
  | _ :: r, O => x :: r
  | y :: r, S k => y :: upd r k x
  end.

Section Network.
Context {V S : Type}.

Inductive action :=
| Stop
| Put (q : nat) (v : V) (k : S)
| Get (q : nat) (k : V -> S)
| Join (p : nat) (k : S).

(** a network: what each process does next, the size limits, the process that
    writes to / reads from each queue *)
Record net := mkNet {
  act : nat -> S -> action;
  maxsize : nat -> option nat;
  pcap : nat -> nat;
  wr : nat -> nat;
  rd : nat -> nat }.

Record cfg := mkCfg { procs : list S; queues : list (list V * list V) }.

Inductive label := LProc (p : nat) | LFeed (q : nat).

Definition has_room (m : option nat) (bp : list V * list V) : bool :=
  match m with None => true | Some k => (length (fst bp) + length (snd bp) <? k)%nat end.
Definition is_stop (a : action) : bool := match a with Stop => true | _ => false end.
Definition flushed (N : net) (c : cfg) (p : nat) : bool :=
  forallb (fun q => match nth_error (queues c) q with
                    | Some (_ :: _, _) => negb (wr N q =? p)%nat
                    | _ => true
                    end) (seq 0 (length (queues c))).

(** one step of one process or feeder thread; None: it is blocked or has stopped *)
Definition fire (N : net) (l : label) (c : cfg) : option cfg :=
  match l with
  | LProc p =>
    match nth_error (procs c) p with
    | None => None
    | Some s =>
      match act N p s with
      | Stop => None
      | Put q v k =>
        match nth_error (queues c) q with
        | Some (b, pp) => if has_room (maxsize N q) (b, pp)
                          then Some (mkCfg (upd (procs c) p k) (upd (queues c) q (b ++ [v], pp))) else None
        | None => None
        end
      | Get q k =>
        match nth_error (queues c) q with
        | Some (b, v :: pp) => Some (mkCfg (upd (procs c) p (k v)) (upd (queues c) q (b, pp)))
        | _ => None
        end
      | Join p' k =>
        match nth_error (procs c) p' with
        | Some s' => if is_stop (act N p' s') && flushed N c p'
                     then Some (mkCfg (upd (procs c) p k) (queues c)) else None
        | None => None
        end
      end
    end
  | LFeed q =>
    match nth_error (queues c) q with
    | Some (v :: b, pp) => if (length pp <? pcap N q)%nat
                           then Some (mkCfg (procs c) (upd (queues c) q (b, pp ++ [v]))) else None
    | _ => None
    end
  end.

(** a schedule: which process or feeder moves next *)
Fixpoint exec (N : net) (c : cfg) (ls : list label) : option cfg :=
  match ls with
  | [] => Some c
  | l :: r => match fire N l c with Some c' => exec N c' r | None => None end
  end.

Definition stuck (N : net) (c : cfg) : Prop := forall l, fire N l c = None.

(** Every schedule is finite, and every one that cannot be continued ends in a
    configuration satisfying P. *)
Definition all_runs (N : net) (c : cfg) (P : cfg -> Prop) : Prop :=
  (exists n, forall ls c', exec N c ls = Some c' -> (length ls <= n)%nat) /\
  (forall ls c', exec N c ls = Some c' -> stuck N c' -> P c').
End Network.
Arguments action : clear implicits. Arguments net : clear implicits. Arguments cfg : clear implicits.
