(** The numpy array operations used by the modelled code, on lists.
    A 1-d array is [list T]; a 2-d array (dimension x time) is
    [list (list T)]. *)
From Coq Require Import List Arith ZArith.
From Verif Require Import Num.
Import ListNotations.

(** Python integers. *)
Notation int := BinNums.Z (only parsing).

Notation series T := (list T) (only parsing).          (* shape (l,)      *)
Notation mts T := (list (list T)) (only parsing).      (* shape (d, l)    *)
Notation dataset T := (list (list (list T))) (only parsing). (* shape (n, d, l) *)

(** The dtype of an array: int64 or float64. *)
Inductive dtype := TInt | TFloat.
(** A number returned by a Python function of the user. *)
Inductive pynum (T : Type) := PyInt (z : int) | PyFloat (x : T).
Arguments PyInt {T} z. Arguments PyFloat {T} x.

(** Elementwise binary operation of two arrays of the same shape. *)
Fixpoint map2 {A B C} (f : A -> B -> C) (l1 : list A) (l2 : list B) : list C :=
  match l1, l2 with
  | x :: r1, y :: r2 => f x y :: map2 f r1 r2
  | _, _ => []
  end.

(** [ufunc.accumulate]: out[0] = x[0], out[i] = f(out[i-1], x[i]). *)
Fixpoint scan {A} (f : A -> A -> A) (acc : A) (l : list A) : list A :=
  match l with
  | [] => []
  | x :: r => let a := f acc x in a :: scan f a r
  end.
Definition accumulate {A} (f : A -> A -> A) (l : list A) : list A :=
  match l with
  | [] => []
  | x :: r => x :: scan f x r
  end.

(** [a[i] = v]; out of range writes do not happen (numpy would raise). *)
Fixpoint upd {A} (i : nat) (v : A) (l : list A) : list A :=
  match l, i with
  | [], _ => []
  | _ :: r, O => v :: r
  | x :: r, S i' => x :: upd i' v r
  end.

(** [np.roll(a, 1)]. *)
Definition roll1 {A} (l : list A) : list A :=
  match l with
  | [] => []
  | x :: _ => last l x :: removelast l
  end.

Section Vec.
  Context {T : Type} `{Num T}.
  Definition vadd := map2 (@nadd T _).
  Definition vsub := map2 (@nsub T _).
  Definition vmul := map2 (@nmul T _).
  Definition vdiv := map2 (@ndiv T _).
  Definition vneg := map (@nopp T _).
  Definition vexp := map (@nexp T _).
  Definition vscale (v : list T) (a : T) := map (fun x => nmul x a) v.  (* a * array *)
  Definition cumsum := accumulate (@nadd T _).       (* np.cumsum *)
  Definition cummax := accumulate (@nmax T _).       (* np.maximum.accumulate *)
  Definition zeros (n : nat) : list T := repeat nzero n.
  Definition ones (n : nat) : list T := repeat nunit n.
  (** [Z.shape[1]] of a 2-d array with at least one row. *)
  Definition tlen (Z : mts T) : nat := match Z with [] => 0 | x :: _ => length x end.
End Vec.
