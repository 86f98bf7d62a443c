(** What the theorems about rounding errors (C72 - C74) speak about. *)
From Coq Require Import List Arith ZArith Reals.
From Verif Require Import S_ISS.
Import ListNotations.
Local Open Scope R_scope.

(** Sum of the absolute values of the exponents of a word. *)
Definition ext_weight (el : list Z) : nat := list_sum (map Z.abs_nat el).
Definition word_weight (w : list (list Z)) : nat := list_sum (map ext_weight w).
(** The relative error accumulated by [N] operations with relative error [u]. *)
Definition err (u : R) (N : nat) : R := (1 + u) ^ N - 1.
(** Sum of the absolute values of the terms of an iterated sum. *)
Definition iss_abs (X : list (list R)) (w : list (list Z)) (t : nat) : R :=
  Rsum (map (fun tau => Rabs (word_val X w tau)) (itup (length w) (S t))).
(** sum_j sum_d |e_j[d]| * |X[d, i_j]|. *)
Definition word_abs (X : list (list R)) (w : list (list Z)) (tau : list nat) : R :=
  Rsum (map (fun j => Rsum (map (fun d => Rabs (IZR (nth d (nth j w []) 0%Z)) * Rabs (at_ X d (nth j tau 0%nat)))
                                (seq 0 (length (nth j w []))))) (seq 0 (length w))).
(** Additions and multiplications per time step of an Arctic sum. *)
Definition arctic_rounds (w : list (list Z)) : nat := list_sum (map (fun el => (length el + 2)%nat) w).
(** A real number that is an integer. *)
Definition is_int (x : R) : Prop := exists k, x = IZR k.
(** Sum of the products of [max(1, |x|)]: bounds every number that occurs on the way. *)
Definition max1 (X : list (list R)) : list (list R) := map (map (fun v => Rmax 1 (Rabs v))) X.
