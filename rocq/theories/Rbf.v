(** rbf_param (modules/rbf_param.py) and the GPU sigmoid kernel (nnets/slfn_skcuda.py:53-61, 89-93). *)
From Verif Require Import Base Num Mat Slfn.

Section Rbf.
Context {K : Num}.

(** rbf_param.py:21-26 *)
Inductive rkind := City | Cheb | SqEuc.
Definition rkind_of (kind : string) : rkind :=
  match index 0 "l1" kind with
  | Some _ => City
  | None => match index 0 "inf" kind with Some _ => Cheb | None => SqEuc end
  end.
(** cdist of two rows (scipy) *)
Definition rdist (k : rkind) (x y : vec) : num :=
  match k with
  | City => nsum (map2 (fun a b => nabs (nsub a b)) x y)
  | SqEuc => nsum (map2 (fun a b => nmul (nsub a b) (nsub a b)) x y)
  | Cheb => fold_right (fun a m => if nltb m a then a else m) n0 (map2 (fun a b => nabs (nsub a b)) x y)
  end.

(** 37-43: the pairs of samples whose distance is measured; [ix] = np.random.choice(N, size=Nk) *)
Definition pairs (ix : list nat) : list (nat * nat) :=
  map (fun p => (fst p, if (fst p =? snd p)%nat then S (snd p) else snd p)) (combine (seq 0 (length ix)) ix).
Definition measure (k : rkind) (X : mat) (ij : nat * nat) : res num :=
  match nth_error X (fst ij), nth_error X (snd ij) with
  | Some x, Some y => Ok (rdist k x y)
  | _, _ => Err IndexError
  end.

(** 44-45 dist.mean(), dist.std(); None: NaN, for an empty vector *)
Definition dist_stats (d : vec) : option (num * num) :=
  match d with
  | [] => None
  | _ => let n := nof_nat (length d) in
         let m := ndiv (nsum d) n in
         Some (m, nsqrt (ndiv (nsum (map (fun x => nmul (nsub x m) (nsub x m)) d)) n))
  end.

(** 57 b0 = (rand - 0.5)*2*s + m *)
Definition half : num := ndiv n1 (nadd n1 n1).
Definition width (ms : num * num) (u : num) : num := nadd (nmul (nmul (nsub u half) (nadd n1 n1)) (snd ms)) (fst ms).
(** 54-62: "while True"; None: not finished after [fuel] rounds.  [u i]: the i-th value of np.random.rand() *)
Fixpoint widths (fuel : nat) (ms : option (num * num)) (u : nat -> num) (i : nat) (k : nat) (B : vec) : option vec :=
  match fuel with
  | O => None
  | S fuel' =>
    match ms with
    | None => widths fuel' ms u (S i) k B           (* NaN > 0 is false *)
    | Some q => let b0 := width q (u i) in
                if nltb n0 b0 then
                  let B' := B ++ [b0] in
                  if (length B' =? k)%nat then Some B' else widths fuel' ms u (S i) k B'
                else widths fuel' ms u (S i) k B
    end
  end.

(** [d]: columns of the data; ix1, ix2: the two results of np.random.choice.
    None: still running after [fuel] rounds of the last loop. *)
Definition rbf_param (fuel : nat) (d : nat) (X : mat) (k : nat) (kind : string) (ix1 ix2 : list nat) (u : nat -> num)
  : option (res (mat * vec)) :=
  match X with
  | [] => Some (Err ValueError)                     (* np.zeros((-1,)) *)
  | _ =>
    match mapM (measure (rkind_of kind) X) (pairs ix1) with
    | Err x => Some (Err x)
    | Ok dist =>
      match mapM (fun i => match nth_error X i with Some x => Ok x | None => Err IndexError end) ix2 with
      | Err x => Some (Err x)
      | Ok cs =>
        let W := mk d k (fun r j => vget (nth j cs []) r) in
        match widths fuel (dist_stats dist) u 0 k [] with
        | Some B => Some (Ok (W, B))
        | None => None
        end
      end
    end
  end.
(** 35, 37 Nk *)
Definition rbf_Nk (N k : nat) : nat := Nat.min (10 * k) (N - 1).

(** ** GPU sigmoid, slfn_skcuda.py *)
(** 54-57: one thread; blocks are one-dimensional *)
Definition thread_index (block : nat) (t : nat * nat) : nat := block * fst t + snd t.
Definition sigm1 (a : num) : num := ndiv n1 (nadd (nexp a) n1).
Definition run_thread (block : nat) (mem : nat -> num) (t : nat * nat) : nat -> num :=
  let i := thread_index block t in fun j => if (j =? i)%nat then sigm1 (mem i) else mem j.
(** the threads of a launch, (blockIdx.x, threadIdx.x) *)
Definition threads (grid block : nat) : list (nat * nat) := list_prod (seq 0 grid) (seq 0 block).
(** 91 *)
Definition sigm_grid (size block : nat) : nat := Z.to_nat (ceil_div (Z.of_nat size) (Z.of_nat block)).
(** 92: the threads run in some order *)
Definition launch (block : nat) (order : list (nat * nat)) (mem : nat -> num) : nat -> num :=
  fold_left (run_thread block) order mem.
End Rbf.
