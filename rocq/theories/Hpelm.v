(** class HPELM, hpelm/hp_elm.py (synchronous methods).  The object state is the
    record [elm] of class ELM, from which HPELM inherits. *)
From Verif Require Import Base Num Mat LinAlg Slfn Strs Elm.
Local Open Scope string_scope.

Section Hpelm.
Context {K : Num} {SG : Sing}.

(** A data argument: an array, or the name of an HDF5 file holding one
    2-dimensional matrix (None: the file cannot be opened). *)
Inductive src := SArr (a : arr) | SFile (content : option (nat * mat)).

(** elm.py:546-566: one argument *)
Definition check_src (a : src) (dim : nat) : res mat :=
  match a with
  | SArr x => check_arr x dim
  | SFile None => Err IOError
  | SFile (Some (c, m)) => if (c =? dim)%nat then Ok m else Err AssertionError
  end.

Definition hp_check (e : elm) (X T : src) : res (mat * mat) :=
  let? x := check_src X (s_inputs (e_net e)) in
  let? t := check_src T (s_outputs (e_net e)) in
  if (length x =? length t)%nat then Ok (x, t) else Err AssertionError.

(** hp_elm.py:133, 203, 259, 338: icount = min(icount, N - istart); None = np.inf *)
Definition clip_count (icount : option Z) (n : nat) (istart : Z) : Z :=
  match icount with
  | None => (Z.of_nat n - istart)%Z
  | Some c => Z.min c (Z.of_nat n - istart)
  end.

(** hp_elm.py:150-152 (and 139-141, 218-220, 276-278, 343-345): the batch bounds *)
Definition bounds (batch istart icount : Z) (b : Z) : Z * Z :=
  (b * batch + istart, Z.min ((b + 1) * batch + istart) (icount + istart))%Z.
Definition ranges (batch istart icount nb : Z) : list (Z * Z) :=
  map (bounds batch istart icount) (zrange nb).

(** hp_elm.py:138-144: class weights of the selected range *)
Definition hp_fill_wc (e : elm) (T : mat) (rs : list (Z * Z)) : elm :=
  if is_wc e then
    match e_wc e with
    | Some _ => e
    | None =>
      let c := s_outputs (e_net e) in
      let ns := fold_left (fun acc ab => vadd acc (col_sums c (slice T (fst ab) (snd ab)))) rs
                          (mkv c (fun _ => n0)) in
      with_wc e (Some (map (np_div (nsum ns)) ns))
    end
  else e.

(** The files fHH and fHT (two different names): None = no such file, else
    (columns, rows). *)
Record corrfs := mkFs { f_HH : option (nat * mat); f_HT : option (nat * mat) }.

(** hdf5_tools.py:20-69 _prepare_fHH *)
Definition prepare_fs (s : slfn) (fs : corrfs) : slfn * corrfs * res unit :=
  let s := reset s in
  let L := getL s in
  let c := s_outputs s in
  match (match f_HH fs with
         | Some (w, m) => if (length m =? L)%nat && (w =? L)%nat then Ok fs else Err AssertionError
         | None => Ok (mkFs (Some (L, scaled_eye L (s_norm s))) (f_HT fs))
         end) with
  | Err x => (s, fs, Err x)
  | Ok fs1 =>
    match f_HT fs1 with
    | Some (w, m) => if (length m =? L)%nat && (w =? c)%nat then (s, fs1, Ok tt)
                     else (s, fs1, Err AssertionError)
    | None => (s, mkFs (f_HH fs1) (Some (c, zero_mat L c)), Ok tt)
    end
  end.

(** hp_elm.py:168-170 and hdf5_tools.py:72-94 _write_fHH, one process: get_corr,
    subtract norm from the diagonal, add to the files.  For the basic solver
    get_corr returns the object's own matrix, so the subtraction changes it. *)
Definition sub_norm (L : nat) (nm : num) (HH : mat) : mat :=
  mk L L (fun i j => if (i =? j)%nat then nsub (mget HH i j) nm else mget HH i j).

Definition write_fs (s : slfn) (fs : corrfs) : slfn * corrfs * res unit :=
  match get_corr s with
  | Ok (Some (HH, HT)) =>
    let L := getL s in
    let HH' := sub_norm L (s_norm s) HH in
    let s' := match s_kind s with Basic => with_corr s (Some HH') (s_HT s) | _ => s end in
    match f_HH fs, f_HT fs with
    | Some (w, m), Some (w', m') =>
      (s', mkFs (Some (w, madd m HH')) (Some (w', madd m' HT)), Ok tt)
    | _, _ => (s', fs, Err IOError)
    end
  | _ => (s, fs, Err TypeError)
  end.

(** hp_elm.py:150-158, the main loop *)
Definition hp_batches (X T : mat) (rs : list (Z * Z)) : list (mat * mat) :=
  map (fun ab => (slice X (fst ab) (snd ab), slice T (fst ab) (snd ab))) rs.

(** hp_elm.py:96-170 add_data; [fs = None] when fHH / fHT are not given.
    Time reporting is not modelled. *)
Definition hp_add_data (e : elm) (fX fT : src) (istart : Z) (icount : option Z) (fs : option corrfs)
  : elm * option corrfs * res unit :=
  match s_neurons (e_net e) with
  | [] => (e, fs, Err AssertionError)
  | _ =>
    match hp_check e fX fT with
    | Err x => (e, fs, Err x)
    | Ok (X, T) =>
      let '(e0, fs0, r0) :=
        match fs with
        | None => (e, None, Ok tt)
        | Some f => let '(s, f', r) := prepare_fs (e_net e) f in (with_net e s, Some f', r)
        end in
      match r0 with
      | Err x => (e0, fs0, Err x)
      | Ok _ =>
        let cnt := clip_count icount (length X) istart in
        match nbatches cnt (e_batch e0) with
        | Err x => (e0, fs0, Err x)
        | Ok nb =>
          let rs := ranges (e_batch e0) istart cnt nb in
          let e1 := hp_fill_wc e0 T rs in
          match add_batches e1 (e_net e1) (hp_batches X T rs) with
          | (s1, Err x) => (with_net e1 s1, fs0, Err x)
          | (s1, Ok _) =>
            match fs0 with
            | None => (with_net e1 s1, None, Ok tt)
            | Some f => let '(s2, f', r) := write_fs s1 f in (with_net e1 s2, Some f', r)
            end
          end
        end
      end
    end
  end.

(** hp_elm.py:57-94 train; keyword arguments istart, icount are separate *)
Definition hp_train (e : elm) (fX fT : src) (args : list string) (kw : kwargs)
    (istart icount : option Z) : elm * res unit :=
  match hp_check e fX fT with
  | Err x => (e, Err x)
  | Ok _ =>
    match parse_args e args kw with
    | (e1, Err x) => (e1, Err x)
    | (e1, Ok _) =>
      let i0 := match istart with Some i => Z.max 0 i | None => 0%Z end in
      match hp_add_data e1 fX fT i0 icount None with
      | (e2, _, Err x) => (e2, Err x)
      | (e2, _, Ok _) => let (s, r) := solve (e_net e2) in (with_net e2 s, r)
      end
    end
  end.

(** hp_elm.py:613-649 _checkcorr *)
Definition checkcorr (e : elm) (fs : corrfs) : res (mat * mat) :=
  match f_HH fs, f_HT fs with
  | Some (w, HH), Some (w', HT) =>
    let L := getL (e_net e) in
    let c := s_outputs (e_net e) in
    match s_neurons (e_net e) with
    | [] => Err AssertionError
    | _ => if (length HH =? L)%nat && (w =? L)%nat then
             if (length HT =? L)%nat && (w' =? c)%nat then Ok (HH, HT) else Err AssertionError
           else Err AssertionError
    end
  | _, _ => Err IOError
  end.

(** hp_elm.py:172-181 solve_corr *)
Definition hp_solve_corr (e : elm) (fs : corrfs) : elm * res unit :=
  match checkcorr e fs with
  | Err x => (e, Err x)
  | Ok (HH, HT) =>
    let B := solve_corr (e_net e) (getL (e_net e)) HH HT in
    let (s, r) := set_B (e_net e) (length B) (s_outputs (e_net e)) B in (with_net e s, r)
  end.

(** Where the result goes: a new array that is returned (None), a new HDF5 file,
    or the given array (modified in place).  The model returns the final contents. *)
Inductive dest := DNew | DFile | DArr (a : arr).

(** np.zeros((icount, cols)) / make_hdf5((icount, cols)) *)
Definition new_rows (icount : Z) (cols : nat) : res mat :=
  if (icount <? 0)%Z then Err ValueError else Ok (zero_mat (Z.to_nat icount) cols).

(** The loop "process a batch and store it at [place start stop]" *)
Fixpoint store_loop (f : mat -> res mat) (place : Z * Z -> Z * Z) (X : mat) (rs : list (Z * Z)) (Y : mat)
  : res mat :=
  match rs with
  | [] => Ok Y
  | ab :: r =>
    let? Yb := f (slice X (fst ab) (snd ab)) in
    let? Y' := slice_assign Y (fst (place ab)) (snd (place ab)) Yb in
    store_loop f place X r Y'
  end.

(** hp_elm.py:183-239 predict *)
Definition hp_predict (e : elm) (fX : src) (fY : dest) (istart : Z) (icount : option Z) : res mat :=
  match s_neurons (e_net e), s_B (e_net e) with
  | [], _ => Err AssertionError
  | _, None => Err AssertionError
  | _, Some _ =>
    let? X := check_src fX (s_inputs (e_net e)) in
    let cnt := clip_count icount (length X) istart in
    let? nb := nbatches cnt (e_batch e) in
    let? Y := match fY with
              | DArr a => check_arr a (s_outputs (e_net e))
              | _ => new_rows cnt (s_outputs (e_net e))
              end in
    store_loop (predict (e_net e)) (fun ab => (fst ab - istart, snd ab - istart)%Z) X
               (ranges (e_batch e) istart cnt nb) Y
  end.

(** hp_elm.py:241-297 project; line 285 stores at H[start:stop-istart] *)
Definition hp_project (e : elm) (fX : src) (fH : dest) (istart : Z) (icount : option Z) : res mat :=
  match s_neurons (e_net e) with
  | [] => Err AssertionError
  | _ =>
    let? X := check_src fX (s_inputs (e_net e)) in
    let cnt := clip_count icount (length X) istart in
    let? nb := nbatches cnt (e_batch e) in
    let? H := match fH with
              | DArr (Arr2 c m) => if (cnt <=? Z.of_nat (length m))%Z && (c =? getL (e_net e))%nat
                                   then Ok m else Err AssertionError
              | DArr (Arr1 v) => if (cnt <=? Z.of_nat (length v))%Z then Err IndexError else Err AssertionError
              | DArr _ => Err AssertionError
              | _ => new_rows cnt (getL (e_net e))
              end in
    store_loop (project (e_net e)) (fun ab => (fst ab, snd ab - istart)%Z) X
               (ranges (e_batch e) istart cnt nb) H
  end.

(** ** hp_elm.py:299-389 error, _error *)
Definition nofZ (z : Z) : num :=
  if (z <? 0)%Z then nopp (nof_nat (Z.to_nat (- z))) else nof_nat (Z.to_nat z).

(** errb * float(stop-start) / icount summed over the batches *)
Fixpoint mean_batches (f : mat -> mat -> res xnum) (T Y : mat) (rs : list (Z * Z)) (icount : Z) (acc : xnum)
  : res xnum :=
  match rs with
  | [] => Ok acc
  | ab :: r =>
    let? eb := f (slice T (fst ab) (snd ab)) (slice Y (fst ab) (snd ab)) in
    mean_batches f T Y r icount
      (xadd acc (xdiv (xmul eb (Fin (nofZ (snd ab - fst ab)))) (Fin (nofZ icount))))
  end.

(** hp_elm.py:355-365: per-class error counts and class sizes *)
Definition wc_counts_batch (Tb Yb : mat) (i : nat) : res (num * num) :=
  let idx := rows_with Tb i in
  let? l := mapM (fun r => match nth_error Yb r with
                           | Some y => Ok (b2n (neq_arg y i)) | None => Err IndexError end) idx in
  Ok (nsum l, nof_nat (length idx)).

Fixpoint wc_counts (T Y : mat) (rs : list (Z * Z)) (c : nat) (acc : list (num * num)) : res (list (num * num)) :=
  match rs with
  | [] => Ok acc
  | ab :: r =>
    let? l := mapM (wc_counts_batch (slice T (fst ab) (snd ab)) (slice Y (fst ab) (snd ab))) (seq 0 c) in
    wc_counts T Y r c (map2 (fun p q => (nadd (fst p) (fst q), nadd (snd p) (snd q))) acc l)
  end.

Definition hp_error_ (cls : option string) (wc : option (list xnum)) (batch : Z) (c : nat)
    (T Y : mat) (istart : Z) (icount : option Z) : res xnum :=
  let cnt := clip_count icount (length T) istart in
  let? nb := nbatches cnt batch in
  let rs := ranges batch istart cnt nb in
  match cls with
  | Some "wc" =>
    let? cs := wc_counts T Y rs c (repeat (n0, n0) c) in
    match wc with
    | None => Err TypeError
    | Some w =>
      let? p := bcast (map (fun q => np_div (fst q) (snd q)) cs) w in
      Ok (xdiv (xsum (map (fun q => xmul (fst q) (snd q)) p)) (xsum w))
    end
  | Some "c" => mean_batches (fun t y => raw_error (Some "c") None t y c) T Y rs cnt (Fin n0)
  | Some "ml" => mean_batches (fun t y => raw_error (Some "ml") None t y c) T Y rs cnt (Fin n0)
  | _ => mean_batches (fun t y => raw_error None None t y c) T Y rs cnt (Fin n0)
  end.

Definition hp_error (e : elm) (fT fY : src) (istart : Z) (icount : option Z) : res xnum :=
  let c := s_outputs (e_net e) in
  let? T := check_src fT c in
  let? Y := check_src fY c in
  hp_error_ (e_class e) (e_wc e) (e_batch e) c T Y istart icount.

(** ** hp_elm.py:391-460 validation_corr *)
(** HH[:l, :l], HT[:l, :] *)
Definition head_HH (l : nat) (HH : mat) : mat := map (firstn l) (firstn l HH).

(** one candidate: (l, Beta, error so far, confusion so far) *)
Record cand := mkCand { cd_l : nat; cd_B : mat; cd_err : xnum; cd_conf : mat }.

Definition vc_cand (e : elm) (HH HT : mat) (l : nat) : cand :=
  let n := Nat.min l (getL (e_net e)) in
  mkCand l (solve_corr (e_net e) n (head_HH l HH) (firstn l HT)) (Fin n0)
         (zero_mat (s_outputs (e_net e)) (s_outputs (e_net e))).

(** hp_elm.py:441-445 *)
Definition vc_update (e : elm) (Tb Hb : mat) (w : num) (N : nat) (cd : cand) : res cand :=
  let c := s_outputs (e_net e) in
  let Yb := mmul c (map (firstn (cd_l cd)) Hb) (cd_B cd) in
  let? er := hp_error_ (e_class e) (e_wc e) (e_batch e) c Tb Yb 0 None in
  let? cf := match e_class e with
             | None => Ok (cd_conf cd)
             | Some _ => let? m := confusion e (Arr2 c Tb) (Arr2 c Yb) in Ok (madd (cd_conf cd) m)
             end in
  Ok (mkCand (cd_l cd) (cd_B cd) (xadd (cd_err cd) (xdiv (xmul er (Fin w)) (Fin (nof_nat N)))) cf).

Fixpoint vc_loop (e : elm) (X T : mat) (rs : list (Z * Z)) (cds : list cand) : res (list cand) :=
  match rs with
  | [] => Ok cds
  | ab :: r =>
    let? Hb := project (e_net e) (slice X (fst ab) (snd ab)) in
    let? cds' := mapM (vc_update e (slice T (fst ab) (snd ab)) Hb (nofZ (snd ab - fst ab)) (length X)) cds in
    vc_loop e X T r cds'
  end.

(** np.argmin: NaN counts as the smallest value *)
Definition xlt (x y : xnum) : bool :=
  match x, y with
  | XNaN, XNaN => false
  | XNaN, _ => true
  | _, XNaN => false
  | Fin a, Fin b => nltb a b
  | NInf, NInf => false
  | NInf, _ => true
  | Fin _, PInf => true
  | _, _ => false
  end.
Fixpoint xargmin_from (best : xnum) (bi i : nat) (l : list xnum) : nat :=
  match l with
  | [] => bi
  | x :: r => if xlt x best then xargmin_from x i (S i) r else xargmin_from best bi (S i) r
  end.
Definition xargmin (l : list xnum) : nat :=
  match l with [] => O | x :: r => xargmin_from x 0 1 r end.

(** [Ls]: the vector computed at hp_elm.py:420-422 from [steps]; the theorems hold
    for any non-empty list. *)
Definition validation_corr (e : elm) (fs : corrfs) (fXv fTv : src) (Ls : list nat)
  : elm * res (list nat * list xnum * list mat) :=
  match hp_check e fXv fTv with
  | Err x => (e, Err x)
  | Ok (X, T) =>
    match checkcorr e fs with
    | Err x => (e, Err x)
    | Ok (HH, HT) =>
      let cnt := Z.of_nat (length X) in
      match (let? nb := nbatches cnt (e_batch e) in
             vc_loop e X T (ranges (e_batch e) 0 cnt nb) (map (vc_cand e HH HT) Ls)) with
      | Err x => (e, Err x)
      | Ok cds =>
        match cds with
        | [] => (e, Err ValueError)
        | c0 :: _ =>
          let k := xargmin (map cd_err cds) in
          let best := nth k cds c0 in
          let s1 := prune (e_net e) (seq 0 (cd_l best)) in
          let (s2, r) := set_B s1 (length (cd_B best)) (s_outputs s1) (cd_B best) in
          (with_net e s2,
           match r with
           | Ok _ => Ok (map cd_l cds, map cd_err cds,
                         match e_class e with None => [] | Some _ => map cd_conf cds end)
           | Err x => Err x
           end)
        end
      end
    end
  end.
End Hpelm.
Arguments src : clear implicits. Arguments src {K}.
Arguments corrfs : clear implicits. Arguments corrfs {K}.
Arguments dest : clear implicits. Arguments dest {K}.
