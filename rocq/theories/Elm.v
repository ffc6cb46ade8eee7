(** class ELM, hpelm/elm.py (training with model structure selection is in
    Mss.v; saving and loading at the end of this file). *)
From Verif Require Import Base Num Mat LinAlg Slfn Strs.
Local Open Scope string_scope.

Section Elm.
Context {K : Num} {SG : Sing}.

(** An array argument as the methods see it (ndim and shape only matter):
    1-D, 2-D with c columns, more dimensions, or a non-numeric dtype. *)
Inductive arr :=
| Arr1 (v : vec)
| Arr2 (c : nat) (m : mat)
| ArrN
| ArrObj.

(** The rows of a 2-D array all have the same length. *)
Definition wf_arr (a : arr) : Prop :=
  match a with Arr2 c m => Forall (fun r => length r = c) m | _ => True end.

(** elm.py:61-98.  [e_accel]: the accelerator argument; [e_prec64]: precision is
    float64.  tprint, flist and opened_hdf5 are not modelled. *)
Record elm := mkElm {
  e_net : slfn; e_batch : Z; e_prec64 : bool; e_accel : option string;
  e_class : option string; e_wc : option (list xnum);
  e_op : bool;                     (* self.ranking == "OP" *)
  e_kmax : option nat }.           (* self.kmax_op *)

Definition with_net (e : elm) (s : slfn) : elm :=
  mkElm s (e_batch e) (e_prec64 e) (e_accel e) (e_class e) (e_wc e) (e_op e) (e_kmax e).
Definition with_wc (e : elm) (w : option (list xnum)) : elm :=
  mkElm (e_net e) (e_batch e) (e_prec64 e) (e_accel e) (e_class e) w (e_op e) (e_kmax e).
Definition with_class (e : elm) (c : option string) : elm :=
  mkElm (e_net e) (e_batch e) (e_prec64 e) (e_accel e) c (e_wc e) (e_op e) (e_kmax e).
Definition with_op (e : elm) (o : bool) (k : option nat) : elm :=
  mkElm (e_net e) (e_batch e) (e_prec64 e) (e_accel e) (e_class e) (e_wc e) o k.
Definition with_batch (e : elm) (b : Z) : elm :=
  mkElm (e_net e) b (e_prec64 e) (e_accel e) (e_class e) (e_wc e) (e_op e) (e_kmax e).

(** The precision argument: a numpy dtype or a string. *)
Inductive prec_arg := PF64 | PF32 | PStr (s : string).

(** elm.py:62-71: is the resulting precision float64? *)
Definition parse_prec (p : prec_arg) : bool :=
  match p with
  | PF64 => true
  | PF32 => false
  | PStr s => if contains "double" (lower s) || contains "64" s then true
              else if contains "single" s || contains "32" s then false
              else true
  end.

(** slfn.py:49-50: 50 * np.finfo(precision).eps *)
Definition default_norm (p64 : bool) : num :=
  nmul (nof_nat 50) (Nat.iter (if p64 then 52 else 23) (nmul nhalf) n1).

(** elm.py:75-83 *)
Definition kind_of (accel : option string) (p64 : bool) : skind :=
  match accel with
  | Some "GPU" => if p64 then Gpu64 else Gpu32
  | Some "basic" => Basic
  | _ => Fast
  end.

(** elm.py:86-88 *)
Definition ctor_class (c : string) : option string :=
  if smem (lower c) ["c"; "wc"; "ml"; "mc"] then Some (replace_mc c) else None.

(** elm.py:52-98 __init__ (inputs, outputs: integers; batch: an integer). *)
Definition elm_init (inputs outputs : nat) (classification : string) (w : option (list num))
    (batch : Z) (accel : option string) (prec : prec_arg) (norm : option num) : res elm :=
  if negb (0 <? batch)%Z then Err AssertionError
  else
    let p64 := parse_prec prec in
    let net := slfn_init (kind_of accel p64) inputs outputs
                 (match norm with Some v => v | None => default_norm p64 end) in
    let e0 := mkElm net batch p64 accel (ctor_class classification) None false None in
    match w with
    | None => Ok e0
    | Some ws => if (length ws =? outputs)%nat then Ok (with_wc e0 (Some (map Fin ws)))
                 else Err AssertionError
    end.

(** elm.py:559-566 / 582-590, one argument that is not a file: (columns, rows) *)
Definition check_arr (a : arr) (dim : nat) : res mat :=
  match a with
  | ArrObj | ArrN => Err AssertionError
  | Arr1 v => if (1 =? dim)%nat then Ok (map (fun x => [x]) v) else Err AssertionError
  | Arr2 c m => if (c =? dim)%nat then Ok m else Err AssertionError
  end.

(** elm.py:542-595 _checkdata with both arguments *)
Definition checkdata (e : elm) (X T : arr) : res (mat * mat) :=
  let? x := check_arr X (s_inputs (e_net e)) in
  let? t := check_arr T (s_outputs (e_net e)) in
  if (length x =? length t)%nat then Ok (x, t) else Err AssertionError.

(** Keyword arguments of train(). *)
Record kwargs := mkKw {
  kw_w : option (list num); kw_kmax : option nat; kw_batch : option Z;
  kw_k : option nat; kw_Xv : option arr; kw_Tv : option arr }.
Definition no_kw : kwargs := mkKw None None None None None None.

(** len(set(args) & {...}) <= 1 *)
Definition at_most_one (args opts : list string) : bool :=
  (length (filter (fun o => smem o args) opts) <=? 1)%nat.

(** elm.py:126-145, the loop over the (upper-cased) arguments *)
Fixpoint parse_loop (e : elm) (kw : kwargs) (args : list string) : elm * res unit :=
  match args with
  | [] => (e, Ok tt)
  | a :: r =>
    let e1 := if a =? "OP" then with_op e true (match kw_kmax kw with Some k => Some k | None => e_kmax e end)
              else e in
    let multi := (1 <? s_outputs (e_net e))%nat in
    if a =? "C" then
      if multi then parse_loop (with_class e1 (Some "c")) kw r else (e1, Err AssertionError)
    else if a =? "WC" then
      if multi then
        let e2 := with_class e1 (Some "wc") in
        match kw_w kw with
        | None => parse_loop e2 kw r
        | Some w => if (length w =? s_outputs (e_net e))%nat
                    then parse_loop (with_wc e2 (Some (map Fin w))) kw r
                    else (e2, Err AssertionError)
        end
      else (e1, Err AssertionError)
    else if (a =? "ML") || (a =? "MC") then
      if multi then parse_loop (with_class e1 (Some "ml")) kw r else (e1, Err AssertionError)
    else if a =? "R" then parse_loop (with_class e1 None) kw r
    else parse_loop e1 kw r
  end.

(** elm.py:108-148 _train_parse_args *)
Definition parse_args (e : elm) (args : list string) (kw : kwargs) : elm * res unit :=
  match s_neurons (e_net e) with
  | [] => (e, Err AssertionError)
  | _ =>
    let args := map upper args in
    let e1 := with_wc (with_class (with_op (with_net e (reset (e_net e))) false None) None) None in
    if negb (at_most_one args ["V"; "CV"; "LOO"]) then (e1, Err AssertionError)
    else if negb (at_most_one args ["C"; "WC"; "ML"; "MC"]) then (e1, Err AssertionError)
    else match parse_loop e1 kw args with
         | (e2, Err x) => (e2, Err x)
         | (e2, Ok _) => (match kw_batch kw with Some b => with_batch e2 b | None => e2 end, Ok tt)
         end
  end.

(** int(np.ceil(float(n) / batch)): number of batches (exact division; see
    NbatchFloat.v for the floating-point evaluation). *)
Definition nbatches (n batch : Z) : res Z :=
  if (batch =? 0)%Z then Err ZeroDivisionError
  else Ok (ceil_div (n * Z.sgn batch) (Z.abs batch)).

(** elm.py:226-227: ns = T.sum(axis=0); ns.sum() / ns *)
Definition col_sums (c : nat) (T : mat) : vec := mkv c (fun j => nsum (mcol T j)).
Definition auto_wc (c : nat) (T : mat) : list xnum :=
  let ns := col_sums c T in map (np_div (nsum ns)) ns.

(** np.where(T0 == 1)[1]: columns of the ones, in row-major order *)
Fixpoint where1_row (j : nat) (row : vec) : list nat :=
  match row with
  | [] => []
  | x :: r => if neqb x n1 then j :: where1_row (S j) r else where1_row (S j) r
  end.
Definition where1 (T0 : mat) : list nat := concat (map (where1_row 0) T0).

(** self.wc[ix] *)
Definition wc_index (wc : list xnum) (ix : list nat) : res (list xnum) :=
  mapM (fun j => match nth_error wc j with Some w => Ok w | None => Err IndexError end) ix.

Definition is_wc (e : elm) : bool :=
  match e_class e with Some c => c =? "wc" | None => false end.

(** elm.py:229-233 *)
Fixpoint add_batches (e : elm) (s : slfn) (parts : list (mat * mat)) : slfn * res unit :=
  match parts with
  | [] => (s, Ok tt)
  | (X0, T0) :: r =>
    let w := if is_wc e
             then match e_wc e with
                  | Some wc => let? v := wc_index wc (where1 T0) in Ok (Some v)
                  | None => Err TypeError
                  end
             else Ok None in
    match w with
    | Err x => (s, Err x)
    | Ok wv => match add_batch s X0 T0 wv with
               | (s1, Ok _) => add_batches e s1 r
               | (s1, Err x) => (s1, Err x)
               end
    end
  end.

(** elm.py:224-227 *)
Definition fill_wc (e : elm) (T : mat) : elm :=
  if is_wc e then
    match e_wc e with
    | Some _ => e
    | None => with_wc e (Some (auto_wc (s_outputs (e_net e)) T))
    end
  else e.

(** elm.py:207-233 add_data.  X, T: 2-D arrays. *)
Definition add_data (e : elm) (X T : mat) : elm * res unit :=
  match nbatches (Z.of_nat (length X)) (e_batch e) with
  | Err x => (e, Err x)
  | Ok nb =>
    let e1 := fill_wc e T in
    if (nb <=? 0)%Z then (e1, Err ValueError)        (* np.array_split needs nb > 0 *)
    else
      let k := Z.to_nat nb in
      match array_split X k, array_split T k with
      | Ok xs, Ok ts => let (s, r) := add_batches e1 (e_net e1) (combine xs ts) in (with_net e1 s, r)
      | _, _ => (e1, Err ValueError)
      end
  end.

(** The func argument of add_neurons. *)
Inductive func_arg := FName (s : string) | FUfunc (id : nat).
(** elm.py:98 flist *)
Definition parse_func (f : func_arg) : option ftype :=
  match f with
  | FUfunc i => Some (Ufunc i)
  | FName "lin" => Some Lin
  | FName "sigm" => Some Sigm
  | FName "tanh" => Some Tanh
  | FName "rbf_l1" => Some RbfL1
  | FName "rbf_l2" => Some RbfL2
  | FName "rbf_linf" => Some RbfLinf
  | FName _ => None
  end.
Definition is_lin (f : ftype) : bool := match f with Lin => true | _ => false end.

(** elm.py:264-278, default weights and biases.  [rW n], [rB n] are the results of
    np.random.randn(inputs, n), np.random.randn(n). *)
Definition default_W (f : ftype) (inputs number : nat) (rW : nat -> mat) : mat :=
  if is_lin f then mk inputs number (fun i j => if (i =? j)%nat then n1 else n0)
  else if is_rbf f then rW number
  else map (map (fun a => nmul a (ndiv (nof_nat 3) (nsqrt (nof_nat inputs))))) (rW number).
Definition default_B (f : ftype) (inputs number : nat) (rB : nat -> vec) : vec :=
  if is_lin f then mkv number (fun _ => n0)
  else if is_rbf f then map (fun b => nmul (nabs b) (nof_nat inputs)) (rB number)
  else rB number.

(** elm.py:235-287 add_neurons.  [W]: None or a matrix with its number of columns;
    a W or B of another rank fails the same shape assertion as a wrong size. *)
Definition add_neurons (e : elm) (number : Z) (func : func_arg)
    (W : option (nat * mat)) (B : option vec) (rW : nat -> mat) (rB : nat -> vec) : elm * res unit :=
  match parse_func func with
  | None => (e, Err AssertionError)
  | Some f =>
    let inputs := s_inputs (e_net e) in
    if (number <? 0)%Z then
      (e, Err (match W, B with Some _, Some _ => AssertionError | _, _ => ValueError end))
    else
      let num0 := Z.to_nat number in
      let num := match W with None => if is_lin f then Nat.min num0 inputs else num0 | Some _ => num0 end in
      let Wc := match W with None => (num, default_W f inputs num rW) | Some w => w end in
      let Bv := match B with None => default_B f inputs num rB | Some b => b end in
      if (length (snd Wc) =? inputs)%nat && (fst Wc =? num)%nat then
        if (length Bv =? num)%nat
        then if can_merge (s_neurons (e_net e)) f (snd Wc)
             then (with_net e (slfn_add_neurons (e_net e) num f (snd Wc) Bv), Ok tt)
             else (e, Err ValueError)
        else (e, Err AssertionError)
      else (e, Err AssertionError)
  end.

(** ** Errors, elm.py:475-515 *)
Definition xmean (l : list xnum) : xnum :=
  match l with [] => XNaN | _ => xdiv (xsum l) (Fin (nof_nat (length l))) end.
Definition b2n (b : bool) : num := if b then n1 else n0.
Definition gthalf (a : num) : bool := nltb nhalf a.

Definition zip_rows (Y T : mat) : res (list (vec * vec)) := bcast Y T.

(** rows of T with T[r, i] == 1 (elm.py:487, 503) *)
Definition rows_with (T : mat) (i : nat) : list nat :=
  filter (fun r => neqb (mget T r i) n1) (seq 0 (length T)).

(** per-class error over the rows [idx]; [f r] is the error of row r *)
Definition class_err (Y : mat) (idx : list nat) (f : nat -> vec -> xnum) : res xnum :=
  match idx with
  | [] => Ok (Fin n0)
  | _ => let? l := mapM (fun r => match nth_error Y r with
                                  | Some y => Ok (f r y) | None => Err IndexError end) idx in
         Ok (xmean l)
  end.

Definition neq_arg (y : vec) (i : nat) : bool := negb (argmax y =? i)%nat.

(** elm.py:480-494: the error before the NaN assertion *)
Definition raw_error (cls : option string) (wc : option (list xnum)) (T Y : mat) (c : nat) : res xnum :=
  match cls with
  | Some "c" =>
    let? p := zip_rows Y T in
    Ok (xmean (map (fun yt => Fin (b2n (neq_arg (fst yt) (argmax (snd yt))))) p))
  | Some "wc" =>
    let? errc := mapM (fun i => class_err Y (rows_with T i)
                                  (fun _ y => Fin (b2n (neq_arg y i)))) (seq 0 c) in
    match wc with
    | None => Err TypeError
    | Some w => let? p := bcast errc w in
                Ok (xdiv (xsum (map (fun q => xmul (fst q) (snd q)) p)) (xsum w))
    end
  | Some "ml" =>
    let? p := zip_rows Y T in
    Ok (xmean (concat (map (fun yt =>
      map2 (fun y t => Fin (b2n (negb (Bool.eqb (gthalf y) (gthalf t))))) (fst yt) (snd yt)) p)))
  | _ =>
    let? p := zip_rows Y T in
    Ok (xmean (concat (map (fun yt => map2 (fun y t => Fin (nsq (nsub y t))) (fst yt) (snd yt)) p)))
  end.

Definition assert_not_nan (x : xnum) : res xnum :=
  match x with XNaN => Err AssertionError | _ => Ok x end.

(** elm.py:475-494, 514-515 _error(T, Y) *)
Definition error_ (e : elm) (T Y : mat) : res xnum :=
  let? x := raw_error (e_class e) (e_wc e) T Y (s_outputs (e_net e)) in assert_not_nan x.

Definition xsq (x : xnum) : xnum := xmul x x.

(** elm.py:495-515 _error(T, Y, R), the LOO PRESS error; R has one entry per row *)
Definition raw_press (cls : option string) (wc : option (list xnum)) (T Y : mat) (R : vec) (c : nat) : res xnum :=
  match cls with
  | Some "c" =>
    let? p := zip_rows Y T in
    let? q := bcast p R in
    Ok (xmean (map (fun ytr => xsq (np_div (b2n (neq_arg (fst (fst ytr)) (argmax (snd (fst ytr))))) (snd ytr))) q))
  | Some "wc" =>
    let? errc := mapM (fun i => class_err Y (rows_with T i)
                                  (fun r y => xsq (np_div (b2n (neq_arg y i)) (vget R r)))) (seq 0 c) in
    match wc with
    | None => Err TypeError
    | Some w => let? p := bcast errc w in Ok (xmean (map (fun q => xmul (fst q) (snd q)) p))
    end
  | Some "ml" =>
    let? p := zip_rows Y T in
    let? q := bcast p R in
    Ok (xmean (concat (map (fun ytr =>
      map2 (fun y t => xsq (np_div (b2n (negb (Bool.eqb (gthalf y) (gthalf t)))) (snd ytr)))
           (fst (fst ytr)) (snd (fst ytr))) q)))
  | _ =>
    let? p := zip_rows Y T in
    let? q := bcast p R in
    Ok (xmean (concat (map (fun ytr =>
      map2 (fun y t => xsq (np_div (nsub y t) (snd ytr))) (fst (fst ytr)) (snd (fst ytr))) q)))
  end.
Definition press_ (e : elm) (T Y : mat) (R : vec) : res xnum :=
  let? x := raw_press (e_class e) (e_wc e) T Y R (s_outputs (e_net e)) in assert_not_nan x.

(** elm.py:289-314 error *)
Definition elm_error (e : elm) (T Y : arr) : res xnum :=
  let? t := check_arr T (s_outputs (e_net e)) in
  let? y := check_arr Y (s_outputs (e_net e)) in
  error_ e t y.

(** elm.py:316-357 confusion: contribution of one batch of rows *)
Definition count (l : list bool) : num := nsum (map b2n l).
Definition conf_batch (cls : string) (C : nat) (Tb Yb : mat) : res mat :=
  if (cls =? "ml") then
    let? p := bcast Tb Yb in
    Ok (mk C C (fun a b => count (map (fun ty => gthalf (vget (fst ty) a) && gthalf (vget (snd ty) b)) p)))
  else
    let? p := bcast Tb Yb in
    Ok (mk C C (fun a b => count (map (fun ty => (argmax (fst ty) =? a)%nat && (argmax (snd ty) =? b)%nat) p))).

Fixpoint conf_loop (cls : string) (C : nat) (T Y : mat) (batch : Z) (bs : list Z) (conf : mat) : res mat :=
  match bs with
  | [] => Ok conf
  | b :: r =>
    let start := (b * batch)%Z in
    let stop := Z.min ((b + 1) * batch) (Z.of_nat (length T)) in
    let? m := conf_batch cls C (slice T start stop) (slice Y start stop) in
    conf_loop cls C T Y batch r (madd conf m)
  end.

Definition confusion (e : elm) (T Y : arr) : res mat :=
  match e_class e with
  | Some cls =>
    if smem cls ["c"; "wc"; "ml"] then
      let C := s_outputs (e_net e) in
      let? t := check_arr T C in
      let? y := check_arr Y C in
      let? nb := nbatches (Z.of_nat (length t)) (e_batch e) in
      conf_loop cls C t y (e_batch e) (zrange nb) (zero_mat C C)
    else Err AssertionError
  | None => Err AssertionError
  end.

(** elm.py:359-370 project, 372-383 predict *)
Definition elm_project (e : elm) (X : arr) : res mat :=
  let? x := check_arr X (s_inputs (e_net e)) in project (e_net e) x.
Definition elm_predict (e : elm) (X : arr) : res mat :=
  let? x := check_arr X (s_inputs (e_net e)) in predict (e_net e) x.

(** ** Saving and loading *)
(** elm.py:418-427 _get_output_format: the pickled dictionary *)
Record saved := mkSaved {
  sv_inputs : nat; sv_outputs : nat; sv_class : option string; sv_wc : option (list xnum);
  sv_neurons : list neuron; sv_norm : num; sv_B : option mat }.

Definition output_format (e : elm) : saved :=
  let s := e_net e in
  mkSaved (s_inputs s) (s_outputs s) (e_class e) (e_wc e) (s_neurons s) (s_norm s) (s_B s).

(** elm.py:464-465 *)
Fixpoint load_neurons (s : slfn) (ns : list neuron) : slfn * res unit :=
  match ns with
  | [] => (s, Ok tt)
  | n :: r => if can_merge (s_neurons s) (n_func n) (n_W n)
              then load_neurons (slfn_add_neurons s (n_num n) (n_func n) (n_W n) (n_B n)) r
              else (s, Err ValueError)
  end.

(** elm.py:455-468 _update_from_output (pickling itself is taken as faithful;
    conversion of W, B, Beta to another precision: Convert.v). *)
Definition update_from (e : elm) (m : saved) : elm * res unit :=
  let e1 := with_wc (with_class e (sv_class m)) (sv_wc m) in
  let s0 := match e_accel e with
            | None => slfn_init Basic (sv_inputs m) (sv_outputs m) (default_norm (e_prec64 e))
            | Some _ => e_net e
            end in
  match load_neurons s0 (sv_neurons m) with
  | (s1, Err x) => (with_net e1 s1, Err x)
  | (s1, Ok _) =>
    let s1 := with_norm s1 (sv_norm m) in
    match sv_B m with
    | None => (with_net e1 s1, Ok tt)
    | Some B => let (s2, r) := set_B s1 (length B) (sv_outputs m) B in (with_net e1 s2, r)
    end
  end.
End Elm.
Arguments elm : clear implicits. Arguments elm {K}.
Arguments arr : clear implicits. Arguments arr {K}.
Arguments kwargs : clear implicits. Arguments kwargs {K}.
Arguments saved : clear implicits. Arguments saved {K}.
