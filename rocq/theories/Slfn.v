(** The single-layer network and its solvers:
    hpelm/nnets/slfn.py, slfn_python.py, slfn_skcuda.py. *)
From Verif Require Import Base Num Mat LinAlg.

(** Neuron types accepted by ELM.add_neurons (elm.py:98, 257): the six standard
    names, or a custom numpy.ufunc (identified by a number). *)
Inductive ftype := Lin | Sigm | Tanh | RbfL1 | RbfL2 | RbfLinf | Ufunc (id : nat).

Definition ftype_eqb (f g : ftype) : bool :=
  match f, g with
  | Lin, Lin | Sigm, Sigm | Tanh, Tanh | RbfL1, RbfL1 | RbfL2, RbfL2 | RbfLinf, RbfLinf => true
  | Ufunc a, Ufunc b => (a =? b)%nat
  | _, _ => false
  end.

Definition is_ufunc (f : ftype) : bool := match f with Ufunc _ => true | _ => false end.
Definition is_rbf (f : ftype) : bool :=
  match f with RbfL1 | RbfL2 | RbfLinf => true | _ => false end.

(** Which class implements the network.  Basic = SLFN (slfn.py),
    Fast = SLFNPython (slfn_python.py), Gpu64/Gpu32 = SLFNSkCUDA with
    double / single precision (slfn_skcuda.py:239-242 distinguishes them). *)
Inductive skind := Basic | Fast | Gpu64 | Gpu32.

Section Slfn.
Context {K : Num} {SG : Sing}.

(** slfn.py:30-31: one neuron group is a tuple (number, func, W, B). *)
Record neuron := mkNeuron { n_num : nat; n_func : ftype; n_W : mat; n_B : vec }.

(** slfn.py:43-57.  [s_L = None] until the first reset() (slfn.py:54). *)
Record slfn := mkSlfn {
  s_kind : skind; s_inputs : nat; s_outputs : nat; s_norm : num;
  s_neurons : list neuron; s_L : option nat;
  s_B : option mat; s_HH : option mat; s_HT : option mat }.

(** slfn.py:43-57 __init__ (norm already resolved by the caller). *)
Definition slfn_init (k : skind) (inputs outputs : nat) (norm : num) : slfn :=
  mkSlfn k inputs outputs norm [] None None None None.

Definition nneurons (ns : list neuron) : nat := list_sum (map n_num ns).

(** [self.L] where an integer is needed. *)
Definition getL (s : slfn) : nat := match s_L s with Some l => l | None => O end.

(** slfn.py:97-105 (and slfn_skcuda.py:160-168) reset *)
Definition reset (s : slfn) : slfn :=
  mkSlfn (s_kind s) (s_inputs s) (s_outputs s) (s_norm s) (s_neurons s)
         (Some (nneurons (s_neurons s))) (s_B s) None None.

Definition with_neurons (s : slfn) (ns : list neuron) : slfn :=
  mkSlfn (s_kind s) (s_inputs s) (s_outputs s) (s_norm s) ns (s_L s) (s_B s) (s_HH s) (s_HT s).
Definition with_B (s : slfn) (b : option mat) : slfn :=
  mkSlfn (s_kind s) (s_inputs s) (s_outputs s) (s_norm s) (s_neurons s) (s_L s) b (s_HH s) (s_HT s).
Definition with_corr (s : slfn) (hh ht : option mat) : slfn :=
  mkSlfn (s_kind s) (s_inputs s) (s_outputs s) (s_norm s) (s_neurons s) (s_L s) (s_B s) hh ht.
Definition with_norm (s : slfn) (nm : num) : slfn :=
  mkSlfn (s_kind s) (s_inputs s) (s_outputs s) nm (s_neurons s) (s_L s) (s_B s) (s_HH s) (s_HT s).

(** slfn.py:82-93: merge with the first group of the same type, else append.
    np.hstack((W0, W)) joins the rows, np.hstack((B0, B)) joins the vectors. *)
Fixpoint merge_neurons (ns : list neuron) (number : nat) (f : ftype) (W : mat) (B : vec)
  : list neuron :=
  match ns with
  | [] => [mkNeuron number f W B]
  | g :: r =>
    if ftype_eqb (n_func g) f
    then mkNeuron (n_num g + number) f (map2 (@app num) (n_W g) W) (n_B g ++ B) :: r
    else g :: merge_neurons r number f W B
  end.

(** np.hstack((W0, W)) needs matrices with the same number of rows, else ValueError
    (checked by the callers of [slfn_add_neurons]). *)
Definition can_merge (ns : list neuron) (f : ftype) (W : mat) : bool :=
  match find (fun g => ftype_eqb (n_func g) f) ns with
  | Some g => (length (n_W g) =? length W)%nat
  | None => true
  end.

(** slfn.py:68-95 (slfn_skcuda.py:129-158) add_neurons, given [can_merge] *)
Definition slfn_add_neurons (s : slfn) (number : nat) (f : ftype) (W : mat) (B : vec) : slfn :=
  with_B (reset (with_neurons s (merge_neurons (s_neurons s) number f W B))) None.

(** slfn.py:60-66, the transformation functions, for one sample [x], one weight
    column [w] and one bias [b].  The GPU versions slfn_skcuda.py:54-127 compute
    the same formulas. *)
Definition act (f : ftype) (x w : vec) (b : num) : num :=
  match f with
  | Lin => nadd (dotv x w) b
  | Sigm => ndiv n1 (nadd n1 (nexp (nadd (dotv x w) b)))
  | Tanh => ntanh (nadd (dotv x w) b)
  | RbfL1 =>                                     (* cdist cityblock *)
    let d := nsum (map2 (fun a c => nabs (nsub a c)) x w) in nexp (ndiv (nopp (nsq d)) b)
  | RbfL2 =>                                     (* cdist euclidean *)
    let d := nsqrt (nsum (map2 (fun a c => nsq (nsub a c)) x w)) in nexp (ndiv (nopp (nsq d)) b)
  | RbfLinf =>                                   (* cdist chebyshev *)
    let d := fold_right nmax n0 (map2 (fun a c => nabs (nsub a c)) x w) in
    nexp (ndiv (nopp (nsq d)) b)
  | Ufunc _ => n0                                (* unreachable: project raises KeyError *)
  end.

(** features of one neuron group / of the whole network for one sample *)
Definition nrow (n : neuron) (x : vec) : vec :=
  mkv (length (n_B n)) (fun j => act (n_func n) x (mcol (n_W n) j) (vget (n_B n) j)).
Definition hrow (ns : list neuron) (x : vec) : vec := concat (map (fun n => nrow n x) ns).

(** slfn.py:107-119 _project (slfn_skcuda.py:170-192).  np.hstack([]) raises
    ValueError; self.func[ftype] raises KeyError for a ufunc; np.dot / cdist
    raise ValueError when the width of X differs from the number of rows of W.
    Here both are compared with the number of inputs: every public function
    except ELM.add_data has checked the width of X, and W has that many rows
    unless the model was loaded from a file for another number of inputs (C10).
    With both faults the code raises the one of the first faulty group, the
    model KeyError. *)
Definition bad_group (d : nat) (n : neuron) : bool := is_ufunc (n_func n) || negb (length (n_W n) =? d)%nat.
Definition project (s : slfn) (X : mat) : res mat :=
  match s_neurons s with
  | [] => Err ValueError
  | _ =>
    if existsb (fun n => is_ufunc (n_func n)) (s_neurons s) then Err KeyError
    else if existsb (bad_group (s_inputs s)) (s_neurons s) then Err ValueError
    else if forallb (fun x => length x =? s_inputs s)%nat X
         then Ok (map (hrow (s_neurons s)) X)
         else Err ValueError
  end.

(** slfn.py:121-135 _predict (slfn_skcuda.py:194-210) *)
Definition predict (s : slfn) (X : mat) : res mat :=
  match s_B s with
  | None => Err AssertionError
  | Some B => let? H := project s X in Ok (mmul (s_outputs s) H B)
  end.

(** wc**0.5 for one weight: finite and non-negative, otherwise inf/nan entries
    would enter the matrices (see [NonFinite] in Base.v). *)
Definition sqrt_weight (w : xnum) : res num :=
  match w with
  | Fin a => if nltb a n0 then Err NonFinite else Ok (nsqrt a)
  | _ => Err NonFinite
  end.

(** slfn.py:151-154 [H *= w; T *= w] with w of shape (M, 1): in-place
    multiplication needs M = N or M = 1 (numpy broadcasting), else ValueError. *)
Definition scale_rows (ws : list num) (H : mat) : res mat :=
  if (length ws =? length H)%nat then Ok (map2 (fun w r => map (fun a => nmul a w) r) ws H)
  else match ws with
       | [w] => Ok (map (map (fun a => nmul a w)) H)
       | _ => Err ValueError
       end.

(** slfn.py:156-159: initial accumulators (slfn_python.py:42-45,
    slfn_skcuda.py:233-236). *)
Definition zero_mat (r c : nat) : mat := mk r c (fun _ _ => n0).

(** slfn.py:161 [HH += H'H] ; slfn_python.py:48 [syrk(1, H.T, 1, HH, trans=0)]
    updates only the upper triangle; slfn_skcuda.py:239-242: full update in
    double precision, cublasSsyrk 'L' on the column-major view = upper triangle
    of the row-major matrix in single precision. *)
Definition add_HH (k : skind) (L : nat) (HH H : mat) : mat :=
  let G := tdot L L H H in
  match k with
  | Basic | Gpu64 => madd HH G
  | Fast | Gpu32 =>
    mk L L (fun i j => if (i <=? j)%nat then nadd (mget HH i j) (mget G i j) else mget HH i j)
  end.

(** In-place [HT += H'T]: T must have the right number of rows (np.dot) and
    columns; a single column is broadcast over all outputs. *)
Definition fit_cols (outputs : nat) (row : vec) : res vec :=
  if (length row =? outputs)%nat then Ok row
  else match row with [t] => Ok (repeat t outputs) | _ => Err ValueError end.

(** slfn.py:137-162 add_batch (slfn_python.py:32-49, slfn_skcuda.py:212-243).
    [wc] is the vector of sample weights.  HH is updated before HT, so a failure
    in HT leaves HH updated. *)
Definition add_batch (s : slfn) (X T : mat) (wc : option (list xnum)) : slfn * res unit :=
  let L := getL s in
  let prep :=
    let? H := project s X in
    match wc with
    | None => Ok (H, T)
    | Some ws =>
      let? rs := (if (length ws =? length H)%nat || (length ws =? 1)%nat
                  then mapM sqrt_weight ws else Err ValueError) in
      let? H' := scale_rows rs H in
      let? T' := scale_rows rs T in
      Ok (H', T')
    end in
  match prep with
  | Err e => (s, Err e)
  | Ok (H, T') =>
    let HH0 := match s_HH s with Some m => m | None => scaled_eye L (s_norm s) end in
    let HT0 := match s_HH s, s_HT s with Some _, Some m => m | _, _ => zero_mat L (s_outputs s) end in
    let HH1 := add_HH (s_kind s) L HH0 H in
    match (if (length T' =? length H)%nat then mapM (fit_cols (s_outputs s)) T' else Err ValueError) with
    | Ok T'' => (with_corr s (Some HH1) (Some (madd HT0 (tdot L (s_outputs s) H T''))), Ok tt)
    | Err e => (with_corr s (Some HH1) (Some HT0), Err e)
    end
  end.

(** solve_corr(HH, HT), HH of order n.
    slfn.py:169-180: pinv(HH).dot(HT);
    slfn_python.py:51-66: posv, and on info > 0 lstsq of HH + triu(HH, k=1).T;
    slfn_skcuda.py:253-269: posv, and on info > 0 lstsq of triu(HH) + triu(HH, k=1).T. *)
Definition solve_corr (s : slfn) (n : nat) (HH HT : mat) : mat :=
  let c := s_outputs s in
  match s_kind s with
  | Basic => mmul c (pinv n HH) HT
  | Fast =>
    match posv n c HH HT with
    | Some B => B
    | None => lstsq n c (add_triu1_T n HH) HT
    end
  | Gpu64 | Gpu32 =>
    match posv n c HH HT with
    | Some B => B
    | None => lstsq n c (triu_sym n HH) HT
    end
  end.

(** slfn.py:164-167 solve.  Without accumulated data HH is None and the library
    call raises (the class of the exception is not pinned by the code; the GPU
    version raises AttributeError at slfn_skcuda.py:248). *)
Definition solve (s : slfn) : slfn * res unit :=
  match s_HH s, s_HT s with
  | Some HH, Some HT => (with_B s (Some (solve_corr s (getL s) HH HT)), Ok tt)
  | _, _ => (s, Err TypeError)
  end.

(** slfn.py:218-221, slfn_python.py:69-73, slfn_skcuda.py:311-321 get_corr *)
Definition get_corr (s : slfn) : res (option (mat * mat)) :=
  match s_HH s, s_HT s with
  | Some HH, Some HT =>
    let n := getL s in
    Ok (Some (match s_kind s with
              | Basic => HH
              | Fast => add_triu1_T n HH
              | Gpu64 | Gpu32 => triu_sym n HH
              end, HT))
  | _, _ => match s_kind s with Fast => Err TypeError | _ => Ok None end
  end.

(** slfn.py:223-237 set_corr.  shapes (r0, r1) of HH and (t0, t1) of HT are those
    of the argument arrays. *)
Definition set_corr (s : slfn) (r0 r1 : nat) (HH : mat) (t0 t1 : nat) (HT : mat) : slfn * res unit :=
  match s_L s with
  | None => (s, Err TypeError)       (* "%d" % None while building the message, slfn.py:232 *)
  | Some L =>
    if negb (r0 =? r1)%nat then (s, Err AssertionError)
    else if negb (r0 =? L)%nat then (s, Err AssertionError)
    else if negb (r0 =? t0)%nat then (s, Err AssertionError)
    else if negb (t1 =? s_outputs s)%nat then (s, Err AssertionError)
    else (with_corr s (Some HH) (Some HT), Ok tt)
  end.

(** slfn.py:206-216 set_B, (r, c) = B.shape *)
Definition set_B (s : slfn) (r c : nat) (B : mat) : slfn * res unit :=
  match s_L s with
  | None => (s, Err TypeError)       (* B.shape[0] == None is False; the message raises *)
  | Some L =>
    if (r =? L)%nat then
      if (c =? s_outputs s)%nat then (with_B s (Some B), Ok tt)
      else (s, Err AssertionError)
    else (s, Err AssertionError)
  end.

(** slfn.py:182-199 _prune.  W[:, ix1] and bias[ix1]; indices left over after
    the last group are dropped. *)
Fixpoint prune_neurons (ns : list neuron) (idx : list nat) : list neuron :=
  match ns with
  | [] => []
  | g :: r =>
    let k := n_num g in
    let ix1 := filter (fun i => i <? k)%nat idx in
    let idx' := map (fun i => i - k)%nat (filter (fun i => k <=? i)%nat idx) in
    mkNeuron (length ix1) (n_func g) (csel (n_W g) ix1) (vsel (n_B g) ix1)
      :: prune_neurons r idx'
  end.

Definition prune (s : slfn) (idx : list nat) : slfn :=
  with_B (reset (with_neurons s (prune_neurons (s_neurons s) idx))) None.
End Slfn.
Arguments neuron : clear implicits. Arguments neuron {K}.
Arguments slfn : clear implicits. Arguments slfn {K}.
