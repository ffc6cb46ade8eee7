(** Optimal-pruning rankings: hpelm/modules/mrsr.py and mrsr2.py. *)
From Verif Require Import Base Num Mat LinAlg.

(** scipy.optimize.brentq(fun_p, 1E-15, y_min, args=(p1, p2)) of mrsr2.py:100 as an
    arbitrary function of its arguments; None = ValueError. *)
Class Brent {K : Num} := { brentq : num -> num -> vec -> vec -> option num }.

Section Mrsr.
Context {K : Num} {SG : Sing} {BR : Brent}.

Fixpoint del_nth {A} (i : nat) (l : list A) : list A :=
  match l, i with
  | [], _ => []
  | _ :: r, O => r
  | x :: r, S j => x :: del_nth j r
  end.

(** Column operations on a matrix with rows as lists. *)
Definition del_col (i : nat) (M : mat) : mat := map (del_nth i) M.
Definition msubm (A B : mat) : mat := map2 (map2 nsub) A B.
Definition mscale (a : num) (M : mat) : mat := map (map (nmul a)) M.

(** abs(A).sum(0), A with c columns *)
Definition abs_colsum (c : nat) (A : mat) : vec :=
  mkv c (fun j => nsum (map (fun row => nabs (vget row j)) A)).

(** mrsr.py:46-49: all 2^p sign vectors *)
Fixpoint signs (p : nat) : list vec :=
  match p with
  | O => [[]]
  | S q => map (cons (nopp n1)) (signs q) ++ map (cons n1) (signs q)
  end.

(** mrsr.py:73, 110: (cmax + S.dot(A)) / (cmax + S.dot(B)), A and B with c columns *)
Definition g_matrix (p c : nat) (cmax : num) (A B : mat) : list xnum :=
  concat (map (fun s => map (fun j => np_div (nadd cmax (dotv s (mcol A j)))
                                             (nadd cmax (dotv s (mcol B j)))) (seq 0 c)) (signs p)).

(** G[G>=0].min(): NaN and negative entries are dropped, ValueError when nothing
    is left; an infinite minimum would make Y infinite. *)
Definition xnonneg (x : xnum) : bool :=
  match x with Fin a => negb (nltb a n0) | PInf => true | _ => false end.
Fixpoint xmin_from (m : xnum) (l : list xnum) : xnum :=
  match l with
  | [] => m
  | Fin a :: r => match m with
                  | Fin b => xmin_from (Fin (nmin a b)) r
                  | _ => xmin_from (Fin a) r
                  end
  | _ :: r => xmin_from m r
  end.
Definition min_step (G : list xnum) : res num :=
  match filter xnonneg G with
  | [] => Err ValueError
  | l => match xmin_from PInf l with Fin g => Ok g | _ => Err NonFinite end
  end.

(** State of the ranking loop: i1 (chosen), i2 (remaining), Y. *)
Record mst := mkMst { i1 : list nat; i2 : list nat; mY : mat }.

(** mrsr.py:55-75, the first step; m, p columns of X, T *)
Definition mrsr_first (X T : mat) (m p : nat) : res mst :=
  let XT := tdot m p X T in
  let A0 := tdot p m T X in                               (* transpose(XT) *)
  let sums := abs_colsum m A0 in
  match sums with
  | [] => Err ValueError                                  (* amax of an empty array *)
  | _ =>
    let cind := argmax sums in
    let cmax := vget sums cind in
    let A := del_col cind A0 in
    let ind := nth cind (seq 0 m) O in
    let rest := del_nth cind (seq 0 m) in
    let Xi2 := csel X rest in
    let xi := mcol X ind in
    match np_div n1 (dotv xi xi) with
    | Fin inv =>
      let wols := map (nmul inv) (nth ind XT []) in
      let Yols := map (fun x => map (nmul x) wols) xi in
      let B := tdot p (m - 1) Yols Xi2 in
      let? g := min_step (g_matrix p (m - 1) cmax A B) in
      Ok (mkMst [ind] rest (mscale g Yols))
    | _ => Err NonFinite
    end
  end.

(** mrsr.py:78-117, step k (2 <= k <= kmax) *)
Definition mrsr_step (X T : mat) (m p kmax k : nat) (st : mst) : res mst :=
  let c := length (i2 st) in
  let Xi2 := csel X (i2 st) in
  let A0 := tdot p c (msubm T (mY st)) Xi2 in
  let sums := abs_colsum c A0 in
  match sums with
  | [] => Err ValueError
  | _ =>
    let cind := argmax sums in
    let cmax := vget sums cind in
    let A := del_col cind A0 in
    let ind := nth cind (i2 st) O in
    let rest := del_nth cind (i2 st) in
    let act := i1 st ++ [ind] in
    let Xi1 := csel X act in
    let v3 := tdot (length act) (length act) Xi1 Xi1 in
    let invXX := match inv (length act) v3 with Ok M => M | Err _ => pinv (length act) v3 end in
    let Wols := mmul p invXX (rsel (tdot m p X T) act) in
    let Yols := mmul p Xi1 Wols in
    let B := tdot p (c - 1) (msubm Yols (mY st)) (csel X rest) in
    if (k =? kmax)%nat then Ok (mkMst act rest Yols)
    else let? g := min_step (g_matrix p (c - 1) cmax A B) in
         Ok (mkMst act rest (madd (mscale (nsub n1 g) (mY st)) (mscale g Yols)))
  end.

Fixpoint mrsr_loop (X T : mat) (m p kmax : nat) (ks : list nat) (st : mst) : res mst :=
  match ks with
  | [] => Ok st
  | k :: r => let? st' := mrsr_step X T m p kmax k st in mrsr_loop X T m p kmax r st'
  end.

(** mrsr.py:6-119; m, p = numbers of columns of X and T *)
Definition mrsr (X T : mat) (m p kmax : nat) : res (list nat) :=
  let kmax := Nat.min kmax m in
  let? st := mrsr_first X T m p in
  let? st' := mrsr_loop X T m p kmax (seq 2 (kmax - 1)) st in
  Ok (i1 st').

(** ** mrsr2.py *)
Definition norm2 (v : vec) : num := nsqrt (nsum (map nsq v)).

(** mrsr2.py:57-63: first j with the largest norm of T' X[:, j], starting from -1 *)
Fixpoint first_max (f : nat -> num) (js : list nat) (cmax : num) (jmax : option nat) : option nat :=
  match js with
  | [] => jmax
  | j :: r => if nltb cmax (f j) then first_max f r (f j) (Some j) else first_max f r cmax jmax
  end.

Fixpoint remove1 (j : nat) (l : list nat) : list nat :=
  match l with [] => [] | x :: r => if (x =? j)%nat then r else x :: remove1 j r end.

(** mrsr2.py:91-107: the minimal step over the remaining inputs *)
Fixpoint min_new (p1 p2 : nat -> vec) (cmax : num) (js : list nat) (y : num) (j : option nat)
  : num * option nat :=
  match js with
  | [] => (y, j)
  | jn :: r =>
    if nltb (nmul (nsub n1 y) cmax)
            (norm2 (map2 nsub (p1 jn) (map (nmul y) (p2 jn))))
    then match brentq y cmax (p1 jn) (p2 jn) with
         | Some yk => min_new p1 p2 cmax r yk (Some jn)
         | None => min_new p1 p2 cmax r y j
         end
    else min_new p1 p2 cmax r y j
  end.

Record m2st := mkM2 { rank2 : list nat; non2 : list nat; jcur : nat; Y2 : mat; Yk : mat }.

(** T' x for a matrix T with p columns *)
Definition tvec (p : nat) (T : mat) (x : vec) : vec :=
  mkv p (fun k => nsum (map2 (fun t a => nmul (vget t k) a) T x)).

(** mrsr2.py:53-132, one iteration.  W is not needed for the ranking. *)
Definition mrsr2_step (X T : mat) (m p : nat) (st : m2st) : res m2st :=
  let? sel :=
    match rank2 st, non2 st with
    | [], js =>
      match first_max (fun j => norm2 (tvec p T (mcol X j))) js (nopp n1) None with
      | Some j => Ok ([j], remove1 j js, j, n1, Y2 st)
      | None => Err ValueError              (* j_max unbound *)
      end
    | r, [] => Ok (r, [], jcur st, n1, Yk st)
    | r, js =>
      let T2 := msubm T (Y2 st) in
      let Yd := msubm (Yk st) (Y2 st) in
      let cmax := norm2 (tvec p T2 (mcol X (jcur st))) in
      let (y, jm) := min_new (fun j => tvec p T2 (mcol X j)) (fun j => tvec p Yd (mcol X j))
                             cmax js n1 None in
      (* y_min == 1: the last candidate is taken *)
      let jlast := last js O in
      let j := if neqb y n1 then jlast else match jm with Some j => j | None => jlast end in
      Ok (r ++ [j], remove1 j js, j, y, Y2 st)
    end in
  let '(r, non, j, y, Y) := sel in
  let X1 := csel X r in
  let XtX := tdot (length r) (length r) X1 X1 in
  let Wk := lu_solve (length r) p XtX (rsel (tdot m p X T) r) in
  let Yk1 := mmul p X1 Wk in
  let Y' := if (1 <? length r)%nat then madd (mscale (nsub n1 y) Y) (mscale y Yk1) else Y in
  Ok (mkM2 r non j Y' Yk1).

Fixpoint mrsr2_loop (X T : mat) (m p k : nat) (st : m2st) : res m2st :=
  match k with
  | O => Ok st
  | S k' => let? st' := mrsr2_step X T m p st in mrsr2_loop X T m p k' st'
  end.

(** mrsr2.py:10-135 *)
Definition mrsr2 (X T : mat) (m p kmax : nat) : res (list nat) :=
  let zero := map (fun _ => mkv p (fun _ => n0)) T in
  let kmax := Nat.min kmax (length X) in
  let? st := mrsr2_loop X T m p kmax (mkM2 [] (seq 0 m) O zero zero) in
  Ok (rank2 st).
End Mrsr.
