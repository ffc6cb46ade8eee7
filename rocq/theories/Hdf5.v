(** Data files: make_hdf5 and normalize_hdf5 (hdf5_tools.py:97-244).
    Not modelled: element types (all numbers are exact), compression, the text format of
    numbers (a text file is the list of its rows), PyTables' refusal of empty dimensions. *)
From Verif Require Import Base Num Mat Slfn Strs Elm.

Section Hdf5.
Context {K : Num}.

(** an attribute of the data node: not there, None, a vector *)
Inductive attr := NoAttr | ANone | AVec (v : vec).
Record h5node := mkNode { h_cols : nat; h_rows : mat; h_chunk : Z; h_mean : attr; h_std : attr }.

(** ** make_hdf5 (hdf5_tools.py:159-244) *)
Inductive h5in :=
| InArr (a : arr)              (* numpy array, or a .npy file with it *)
| InGz (rows : mat)            (* .gz / .bz2 text file *)
| InText (rows : mat)          (* .txt / .csv text file *)
| InShape (r c : Z)            (* a tuple of two numbers *)
| InOther.

(** np.loadtxt (numpy): rows of equal length; dimensions of length one are dropped.
    None: a 0-dimensional array *)
Definition loadtxt (rows : mat) : res arr :=
  match rows with
  | [] => Ok (Arr1 [])
  | r :: rest =>
    if forallb (fun x => (length x =? length r)%nat) rest then
      match rest, r with
      | [], [_] => Ok ArrN
      | [], _ => Ok (Arr1 r)
      | _, [_] => Ok (Arr1 (concat rows))
      | _, _ => Ok (Arr2 (length r) rows)
      end
    else Err ValueError
  end.

(** 200-203: one column for a vector, otherwise two dimensions are needed *)
Definition two_dim (a : arr) : res (nat * mat) :=
  match a with
  | Arr1 v => Ok (1%nat, map (fun x => [x]) v)
  | Arr2 c m => Ok (c, m)
  | ArrObj | ArrN => Err AssertionError
  end.

(** 214-222, rows are appended to an array of [w] columns until one does not fit *)
Fixpoint append_rows (w : nat) (acc rows : mat) : mat * res unit :=
  match rows with
  | [] => (acc, Ok tt)
  | r :: rest => if (length r =? w)%nat then append_rows w (acc ++ [r]) rest else (acc, Err ValueError)
  end.

(** The second component is the file afterwards: None if it was not touched.
    [chunk] is the row chunk size chosen by PyTables. *)
Definition make_hdf5 (data : h5in) (comp_level : Z) (chunk : Z) : res unit * option h5node :=
  if (10 <=? comp_level)%Z then (Err AssertionError, None)
  else
    let whole (x : res arr) :=
      match x with
      | Err e => (Err e, None)
      | Ok a => match two_dim a with
                | Err e => (Err e, None)
                | Ok (c, m) => (Ok tt, Some (mkNode c m chunk ANone ANone))
                end
      end in
    match data with
    | InArr a => whole (Ok a)
    | InGz rows => whole (loadtxt rows)
    | InText [] => (Err AttributeError, None)   (* X is None, 200 *)
    | InText (r :: rest) =>
      match append_rows (length r) [] (r :: rest) with
      | (m, Ok _) => (Ok tt, Some (mkNode (length r) m chunk ANone ANone))
      | (m, Err e) => (Err e, Some (mkNode (length r) m chunk NoAttr NoAttr))
      end
    | InShape r c =>
      if (r <? 0)%Z || (c <? 0)%Z then (Err ValueError, Some (mkNode 0 [] chunk NoAttr NoAttr))
      else (Ok tt, Some (mkNode (Z.to_nat c) (zero_mat (Z.to_nat r) (Z.to_nat c)) chunk ANone ANone))
    | InOther => (Err AssertionError, None)
    end.

(** ** normalize_hdf5 (hdf5_tools.py:97-156) *)
(** vectors given by the caller: a numpy array or a Python list *)
Inductive pvec := PArr (v : vec) | PList (v : vec).
Definition pv (p : pvec) : vec := match p with PArr v | PList v => v end.

(** 113-115: nb = N//batch, one more for the rest *)
Definition norm_nb (N batch : Z) : Z := let nb := (N / batch)%Z in if (nb * batch <? N)%Z then (nb + 1)%Z else nb.
(** start and step of every iteration, 122-124 and 148-150 *)
Definition norm_steps (N batch : Z) : list (Z * Z) :=
  map (fun b => let start := (Z.of_nat b * batch)%Z in (start, Z.min batch (N - start))) (seq 0 (Z.to_nat (norm_nb N batch))).

(** np.mean(M, 0) of a matrix with d columns *)
Definition col_mean (d : nat) (M : mat) : vec := mkv d (fun j => ndiv (nsum (map (fun x => vget x j) M)) (nof_nat (length M))).

(** 121-130 *)
Definition moments (d : nat) (rows : mat) (steps : list (Z * Z)) : vec * vec :=
  let N := length rows in
  fold_left (fun acc ss =>
      let X1 := slice rows (fst ss) (fst ss + snd ss) in
      let w := ndiv (nof_nat (Z.to_nat (snd ss))) (nof_nat N) in
      (vadd (fst acc) (map (fun x => nmul x w) (col_mean d X1)),
       vadd (snd acc) (map (fun x => nmul x w) (col_mean d (map (map (fun x => nmul x x)) X1)))))
    steps (mkv d (fun _ => n0), mkv d (fun _ => n0)).
Definition mean_std (d : nat) (rows : mat) (steps : list (Z * Z)) : vec * vec :=
  let '(ex, ex2) := moments d rows steps in
  (ex, mkv d (fun j => nsqrt (nsub (vget ex2 j) (nmul (vget ex j) (vget ex j))))).

(** 145 std[std == 0] = 1: for a list, "std == 0" is False, so std[0] = 1 *)
Definition fix_std (p : pvec) : res vec :=
  match p with
  | PArr v => Ok (map (fun x => if neqb x n0 then n1 else x) v)
  | PList [] => Err IndexError
  | PList (_ :: v) => Ok (n1 :: v)
  end.

(** 147-153 *)
Definition scale_row (mean std x : vec) : vec := map2 ndiv (map2 nsub x mean) std.
Definition norm_loop (mean std : vec) (steps : list (Z * Z)) (rows : mat) : res mat :=
  fold_left (fun acc ss => match acc with
                           | Ok m => slice_assign m (fst ss) (fst ss + snd ss)
                                       (map (scale_row mean std) (slice m (fst ss) (fst ss + snd ss)))
                           | Err x => Err x
                           end) steps (Ok rows).

(** [after_close]: what reading an attribute of a node gives after the file was closed
    (line 139 follows the close of 138): Ok tt = the value, Err = that exception.
    Result: (mean, std) returned, the file afterwards, and the caller's std. *)
Definition normalize_hdf5 (after_close : res unit) (f : h5node) (mean std : option pvec) (batch : option Z)
  : res (vec * vec) * h5node * option vec :=
  let N := Z.of_nat (length (h_rows f)) in
  let d := h_cols f in
  let batch := match batch with Some b => b | None => h_chunk f end in
  let std0 := match std with Some s => Some (pv s) | None => None end in
  if (batch =? 0)%Z then (Err ZeroDivisionError, f, std0)
  else
    let steps := norm_steps N batch in
    match mean, std with
    | Some m, Some s =>
      if negb (length (pv m) =? d)%nat then (Err AssertionError, f, std0)
      else if negb (length (pv s) =? d)%nat then (Err AssertionError, f, std0)
      else
        let f1 := mkNode (h_cols f) (h_rows f) (h_chunk f) (AVec (pv m)) (AVec (pv s)) in
        match fix_std s with
        | Err x => (Err x, f1, std0)
        | Ok s' =>
          match norm_loop (pv m) s' steps (h_rows f) with
          | Err x => (Err x, f1, Some s')
          | Ok rows => (Ok (pv m, s'), mkNode (h_cols f) rows (h_chunk f) (AVec (pv m)) (AVec (pv s)), Some s')
          end
        end
    | _, _ =>
      match h_mean f with
      | NoAttr => (Err AttributeError, f, std0)
      | ANone =>
        let '(m, s) := mean_std d (h_rows f) steps in
        (Ok (m, s), mkNode (h_cols f) (h_rows f) (h_chunk f) (AVec m) (AVec s), std0)
      | AVec m =>
        match after_close with
        | Err x => (Err x, f, std0)
        | Ok _ => match h_std f with
                  | AVec s => (Ok (m, s), f, std0)
                  | _ => (Err AttributeError, f, std0)
                  end
        end
      end
    end.
End Hdf5.
