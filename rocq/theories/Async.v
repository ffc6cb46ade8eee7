(** Asynchronous I/O: hpelm/modules/hdf5_tools.py _ireader, _iwriter and
    hpelm/hp_elm.py add_data_async, predict_async.  Time reporting is not modelled. *)
From Verif Require Import Base Num Mat LinAlg Slfn Strs Elm Hpelm Network.

Section Async.
Context {K : Num} {SG : Sing}.

(** what travels through the queues *)
Inductive value := VReq (start stop : Z) | VMat (m : mat) | VWrite (m : mat) (start stop : Z) | VNone.

(** hdf5_tools.py:233-250 _ireader.  [RStop]: left the loop, or died at the assertion
    because its argument is not a file name. *)
Inductive rstate := RWait | RPut (m : mat) | RStop.
(** hdf5_tools.py:253-273 _iwriter, with the contents of its file.  [WDead]: the
    assignment to the file raised. *)
Inductive wstate := WWait (Y : mat) | WStop (Y : mat) | WDead (Y : mat) (x : exn).

(** hp_elm.py:528-551, the main process of add_data_async: in iteration [b] *)
Inductive amain :=
| APutX (b : Z) (s : slfn) | APutT (b : Z) (s : slfn) | AGetX (b : Z) (s : slfn) | AGetT (b : Z) (s : slfn) (Xb : mat)
| AJoinX (s : slfn) | AJoinT (s : slfn) | ADone (s : slfn) | ARaised (s : slfn) (x : exn).
(** hp_elm.py:587-611, the main process of predict_async *)
Inductive pmain :=
| PPut (b : Z) | PGet (b : Z) | PPutW (b : Z) (Yb : mat)
| PEnd | PJoinR | PJoinW | PDone | PRaised (x : exn).

Inductive pstate := SR (r : rstate) | SW (w : wstate) | SA (m : amain) | SP (m : pmain).

(** hdf5_tools.py:245-249: the request that ends the loop has stop <= start *)
Definition reader_got (X : mat) (v : value) : pstate :=
  match v with
  | VReq a b => if (b <=? a)%Z then SR RStop else SR (RPut (slice X a b))
  | _ => SR RStop
  end.
Definition reader_act (X : mat) (qin qout : nat) (r : rstate) : action value pstate :=
  match r with
  | RWait => Get qin (reader_got X)
  | RPut m => Put qout (VMat m) (SR RWait)
  | RStop => Stop
  end.

(** hdf5_tools.py:264-269 *)
Definition writer_got (Y : mat) (v : value) : pstate :=
  match v with
  | VNone => SW (WStop Y)
  | VWrite m a b => match slice_assign Y a b m with
                    | Ok Y' => SW (WWait Y')
                    | Err x => SW (WDead Y x)
                    end
  | _ => SW (WDead Y TypeError)
  end.
Definition writer_act (qin : nat) (w : wstate) : action value pstate :=
  match w with
  | WWait Y => Get qin (writer_got Y)
  | WStop _ | WDead _ _ => Stop
  end.

(** ** add_data_async.  Queues: 0 qX_in, 1 qX_out, 2 qT_in, 3 qT_out.
    Processes: 0 main, 1 readerX, 2 readerT. *)
Section Add.
Context (e : elm) (X T : mat) (batch istart cnt nb : Z) (pc : nat -> nat).

Definition a_next (b : Z) (s : slfn) : amain := if (b + 1 <=? nb)%Z then APutX (b + 1) s else AJoinX s.
Definition req (b : Z) : value := let (u, v) := bounds batch istart cnt b in VReq u v.
Definition a_main (m : amain) : action value pstate :=
  match m with
  | APutX b s => Put 0 (req b) (SA (APutT b s))
  | APutT b s => Put 2 (req b) (SA (if (0 <? b)%Z then AGetX b s else a_next b s))
  | AGetX b s => Get 1 (fun v => match v with VMat Xb => SA (AGetT b s Xb) | _ => SA (ARaised s TypeError) end)
  | AGetT b s Xb => Get 3 (fun v => match v with
                                    | VMat Tb => match add_batches e s [(Xb, Tb)] with
                                                 | (s', Ok _) => SA (a_next b s')
                                                 | (s', Err x) => SA (ARaised s' x)
                                                 end
                                    | _ => SA (ARaised s TypeError)
                                    end)
  | AJoinX s => Join 1 (SA (AJoinT s))
  | AJoinT s => Join 2 (SA (ADone s))
  | ADone _ | ARaised _ _ => Stop
  end.
Definition a_act (p : nat) (st : pstate) : action value pstate :=
  match p, st with
  | 0, SA m => a_main m
  | 1, SR r => reader_act X 0 1 r
  | 2, SR r => reader_act T 2 3 r
  | _, _ => Stop
  end.
Definition add_net : net value pstate :=
  mkNet a_act (fun q => match q with 0 | 2 => None | _ => Some 1 end) pc
        (fun q => match q with 1 => 1 | 3 => 2 | _ => 0 end) (fun q => match q with 0 => 1 | 2 => 2 | _ => 0 end).
(** xrange(0, nb+1) is empty when nb < 0 *)
Definition add_cfg (rX rT : rstate) : cfg value pstate :=
  mkCfg [SA (if (0 <=? nb)%Z then APutX 0 (e_net e) else AJoinX (e_net e)); SR rX; SR rT]
        [([], []); ([], []); ([], []); ([], [])].
End Add.

(** a reader started with something that is not a file name dies at once *)
Definition reader_start (f : src) : rstate := match f with SFile _ => RWait | SArr _ => RStop end.
Definition n_files (f : src) : nat := match f with SFile _ => 1 | SArr _ => 0 end.

(** what happens before the processes are started, hp_elm.py:487-510.  [opened]: the
    number of files in self.opened_hdf5 left there by earlier calls. *)
Record started := mkStarted { st_e : elm; st_X : mat; st_T : mat; st_cnt : Z; st_nb : Z }.
Definition add_prologue (e : elm) (fX fT : src) (istart : Z) (icount : option Z) (fs : option corrfs)
  : elm * option corrfs * res started :=
  match s_neurons (e_net e) with
  | [] => (e, fs, Err AssertionError)
  | _ =>
    match hp_check e fX fT with
    | Err x => (e, fs, Err x)
    | Ok (X, T) =>
      let '(e0, fs0, r0) :=
        match fs with
        | None => (e, None, Ok tt)
        | Some f => let '(s, f', r) := prepare_fs (e_net e) f in (with_net e s, Some f', r)
        end in
      match r0 with
      | Err x => (e0, fs0, Err x)
      | Ok _ =>
        let cnt := clip_count icount (length X) istart in
        match nbatches cnt (e_batch e0) with
        | Err x => (e0, fs0, Err x)
        | Ok nb =>
          let e1 := hp_fill_wc e0 T (ranges (e_batch e0) istart cnt nb) in
          (e1, fs0, Ok (mkStarted e1 X T cnt nb))
        end
      end
    end
  end.
Definition add_data_async (e : elm) (fX fT : src) (istart : Z) (icount : option Z) (fs : option corrfs)
    (opened : nat) (pc : nat -> nat)
  : elm * option corrfs * res (net value pstate * cfg value pstate) :=
  let '(e1, fs0, r) := add_prologue e fX fT istart icount fs in
  match r with
  | Err x => (e1, fs0, Err x)
  | Ok st =>
    if (opened + n_files fX + n_files fT <? 2)%nat then (e1, fs0, Err IndexError)      (* opened_hdf5.pop() *)
    else (e1, fs0, Ok (add_net e1 (st_X st) (st_T st) (e_batch e1) istart (st_cnt st) (st_nb st) pc,
                       add_cfg e1 (st_nb st) (reader_start fX) (reader_start fT)))
  end.
(** hp_elm.py:553-557, after the processes have been joined; None: the main process
    has not finished *)
Definition add_data_finish (e1 : elm) (fs0 : option corrfs) (c : cfg value pstate) : option (elm * option corrfs * res unit) :=
  match procs c with
  | SA (ADone s) :: _ =>
    Some (match fs0 with
          | None => (with_net e1 s, None, Ok tt)
          | Some f => let '(s2, f', r) := write_fs s f in (with_net e1 s2, Some f', r)
          end)
  | SA (ARaised s x) :: _ => Some (with_net e1 s, fs0, Err x)
  | _ => None
  end.

(** hp_elm.py:464-479 train_async.  _checkdata leaves its open files in
    self.opened_hdf5; add_data_async opens them again and pops two. *)
Definition train_async (e : elm) (fX fT : src) (args : list string) (kw : kwargs) (istart icount : option Z)
    (opened : nat) (pc : nat -> nat) : elm * res (net value pstate * cfg value pstate) :=
  match hp_check e fX fT with
  | Err x => (e, Err x)
  | Ok _ =>
    match parse_args e args kw with
    | (e1, Err x) => (e1, Err x)
    | (e1, Ok _) =>
      let i0 := match istart with Some i => Z.max 0 i | None => 0%Z end in
      match add_data_async e1 fX fT i0 icount None (opened + n_files fX + n_files fT) pc with
      | (e2, _, r) => (e2, r)
      end
    end
  end.
Definition train_finish (e1 : elm) (c : cfg value pstate) : option (elm * res unit) :=
  match add_data_finish e1 None c with
  | Some (e2, _, Ok _) => let (s, r) := solve (e_net e2) in Some (with_net e2 s, r)
  | Some (e2, _, Err x) => Some (e2, Err x)
  | None => None
  end.

(** ** predict_async.  Queues: 0 qr_in, 1 qr_out, 2 qw_in.
    Processes: 0 main, 1 reader, 2 writer. *)
Section Predict.
Context (s : slfn) (X : mat) (batch istart cnt nb : Z) (pc : nat -> nat).

Definition p_next (b : Z) : pmain := if (b + 1 <=? nb)%Z then PPut (b + 1) else PEnd.
Definition p_main (m : pmain) : action value pstate :=
  match m with
  | PPut b => Put 0 (req batch istart cnt b) (SP (if (0 <? b)%Z then PGet b else p_next b))
  | PGet b => Get 1 (fun v => match v with
                              | VMat Xb => match predict s Xb with Ok Yb => SP (PPutW b Yb) | Err x => SP (PRaised x) end
                              | _ => SP (PRaised TypeError)
                              end)
  | PPutW b Yb => let (u, v) := bounds batch istart cnt (b - 1) in
                  Put 2 (VWrite Yb (u - istart) (v - istart)) (SP (p_next b))
  | PEnd => Put 2 VNone (SP PJoinR)
  | PJoinR => Join 1 (SP PJoinW)
  | PJoinW => Join 2 (SP PDone)
  | PDone | PRaised _ => Stop
  end.
Definition p_act (p : nat) (st : pstate) : action value pstate :=
  match p, st with
  | 0, SP m => p_main m
  | 1, SR r => reader_act X 0 1 r
  | 2, SW w => writer_act 2 w
  | _, _ => Stop
  end.
Definition predict_net : net value pstate :=
  mkNet p_act (fun q => match q with 0 => None | _ => Some 1 end) pc
        (fun q => match q with 1 => 1 | _ => 0 end) (fun q => match q with 0 => 1 | 1 => 0 | _ => 2 end).
Definition predict_cfg (r : rstate) (Y : mat) : cfg value pstate :=
  mkCfg [SP (if (0 <=? nb)%Z then PPut 0 else PEnd); SR r; SW (WWait Y)] [([], []); ([], []); ([], [])].
End Predict.

(** hp_elm.py:564-583 *)
Definition predict_async (e : elm) (fX : src) (istart : Z) (icount : option Z) (pc : nat -> nat)
  : res (net value pstate * cfg value pstate) :=
  match s_neurons (e_net e), s_B (e_net e) with
  | [], _ => Err AssertionError
  | _, None => Err AssertionError
  | _, Some _ =>
    let? X := check_src fX (s_inputs (e_net e)) in
    let cnt := clip_count icount (length X) istart in
    let? nb := nbatches cnt (e_batch e) in
    let? Y := new_rows cnt (s_outputs (e_net e)) in
    Ok (predict_net (e_net e) X (e_batch e) istart cnt nb pc, predict_cfg nb (reader_start fX) Y)
  end.
(** the contents of the output file when predict_async has returned, or the exception
    raised in the main process; None: it has not finished.  An exception in the writer
    process is not seen by the main process. *)
Definition predict_finish (c : cfg value pstate) : option (res mat) :=
  match procs c with
  | [SP PDone; _; SW (WStop Y)] | [SP PDone; _; SW (WDead Y _)] => Some (Ok Y)
  | [SP (PRaised x); _; _] => Some (Err x)
  | _ => None
  end.
End Async.
