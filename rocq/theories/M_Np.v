(** Further numpy/Python operations used by cache.py, preparation/ and
    sieving/, on lists: slicing with Python's negative indices, slice
    assignment with broadcasting, reductions, sorting, quantiles. *)
From Coq Require Import List Arith ZArith Bool.
From Verif Require Import Num Arr M_Str.
Import ListNotations.

(** Normalisation of a slice bound [i] of a sequence of length [n]
    (Python language reference, "slicings"): negative bounds count from the
    end, everything is clamped to [0, n]. *)
Definition py_bound (n : nat) (i : int) : nat :=
  if (i <? 0)%Z then Z.to_nat (Z.of_nat n + i) else Nat.min (Z.to_nat i) n.
Definition lo_bound (n : nat) (i : option int) : nat :=
  match i with None => 0 | Some z => py_bound n z end.
Definition hi_bound (n : nat) (i : option int) : nat :=
  match i with None => n | Some z => py_bound n z end.

(** [l[lo:hi]] *)
Definition py_slice {A} (lo hi : option int) (l : list A) : list A :=
  let a := lo_bound (length l) lo in let b := hi_bound (length l) hi in
  firstn (b - a) (skipn a l).
(** [l[lo:hi] = v] for a 1-d array: [v] must have the length of the slice or
    length one (numpy broadcasting), otherwise ValueError. *)
Definition py_set_slice {A} (lo hi : option int) (v l : list A) : res (list A) :=
  let a := lo_bound (length l) lo in let b := hi_bound (length l) hi in
  let m := b - a in
  if length v =? m then Ok (firstn a l ++ v ++ skipn (a + m) l)
  else match v with
       | [x] => Ok (firstn a l ++ repeat x m ++ skipn (a + m) l)
       | _ => Err ValueError
       end.
(** [l[lo:hi] = x] for a scalar. *)
Definition py_fill_slice {A} (lo hi : option int) (x : A) (l : list A) : list A :=
  let a := lo_bound (length l) lo in let b := hi_bound (length l) hi in
  firstn a l ++ repeat x (b - a) ++ skipn (a + (b - a)) l.

(** The indices selected by [first::step] on a sequence of length [l]
    ([slice.indices] of Python). *)
Fixpoint idx_up (fuel start step l : nat) : list nat :=
  match fuel with
  | O => []
  | S f => if start <? l then start :: idx_up f (start + step) step l else []
  end.
Fixpoint idx_down (fuel start step : nat) : list nat :=
  match fuel with
  | O => []
  | S f => start :: (if step <=? start then idx_down f (start - step) step else [])
  end.
Definition stride_idx (first step : int) (l : nat) : res (list nat) :=
  if (step =? 0)%Z then Err ValueError
  else if (0 <? step)%Z then Ok (idx_up l (py_bound l first) (Z.to_nat step) l)
  else let s := if (first <? 0)%Z then (Z.of_nat l + first)%Z
                else Z.min first (Z.of_nat l - 1) in
       if (s <? 0)%Z then Ok [] else Ok (idx_down l (Z.to_nat s) (Z.to_nat (- step))).

(** [a[i]] with Python's negative indices. *)
Definition py_index (n : nat) (i : int) : res nat :=
  if (i <? 0)%Z
  then if (0 <=? Z.of_nat n + i)%Z then Ok (Z.to_nat (Z.of_nat n + i)) else Err IndexError
  else if (i <? Z.of_nat n)%Z then Ok (Z.to_nat i) else Err IndexError.

Fixpoint mapM {A B} (f : A -> res B) (l : list A) : res (list B) :=
  match l with
  | [] => Ok []
  | x :: r => let! y := f x in let! ys := mapM f r in Ok (y :: ys)
  end.

(** [np.sort] on integers (only the sorted result matters). *)
Fixpoint ninsert (x : nat) (l : list nat) : list nat :=
  match l with [] => [x] | y :: r => if x <=? y then x :: l else y :: ninsert x r end.
Definition nsort (l : list nat) : list nat := fold_right ninsert [] l.

Section Red.
  Context {T : Type} `{Num T}.
  Definition vsum (v : list T) : T := fold_left nadd v nzero.         (* np.sum *)
  Definition vmean (v : list T) : T := ndiv (vsum v) (nofnat (length v)).   (* np.mean *)
  Definition vstd (v : list T) : T :=                                 (* np.std *)
    nsqrt (vmean (map (fun x => nmul (nsub x (vmean v)) (nsub x (vmean v))) v)).
  (** np.min / np.max: ValueError on an empty array. *)
  Definition vmin (v : list T) : res T :=
    match v with [] => Err ValueError | x :: r => Ok (fold_left nmin r x) end.
  Definition vmax (v : list T) : res T :=
    match v with [] => Err ValueError | x :: r => Ok (fold_left nmax r x) end.
  (** number of positions satisfying a condition: np.sum(X <= c) etc. *)
  Definition vcount (p : T -> bool) (v : list T) : nat := length (filter p v).
  Fixpoint tinsert (x : T) (l : list T) : list T :=
    match l with [] => [x] | y :: r => if nleb x y then x :: l else y :: tinsert x r end.
  Definition tsort (l : list T) : list T := fold_right tinsert [] l.  (* np.sort *)
  (** [np.quantile(v, a/b)] (linear interpolation) for a rational
      [0 <= a/b <= 1] and non-empty [v]; the float rounding of the position
      [q * (n-1)] is idealised. *)
  Definition np_quantile (a b : nat) (v : list T) : T :=
    let s := tsort v in
    let h := a * (length v - 1) in
    let lo := nth (h / b) s nzero in
    let hi := nth (Nat.min (S (h / b)) (length v - 1)) s nzero in
    nadd lo (nmul (ndiv (nofnat (h mod b)) (nofnat b)) (nsub hi lo)).
  (** [X.shape[2]], [X.shape[1]] of an (n, d, l) array with n, d >= 1. *)
  Definition lenX (X : dataset T) : nat := match X with x :: _ => tlen x | [] => 0 end.
  Definition dimX (X : dataset T) : nat := match X with x :: _ => length x | [] => 0 end.
End Red.
