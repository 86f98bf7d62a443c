(** Specification of iterated sums, independent of the model.

    A word is a list of extended letters; an extended letter is the list of its
    (integer) exponents, entry [d] belonging to dimension [d] of the series. *)
From Coq Require Import List Arith ZArith Reals Sorting.
Import ListNotations.
Open Scope R_scope.

Definition Rsum (l : list R) : R := fold_right Rplus 0 l.
Definition Rprod (l : list R) : R := fold_right Rmult 1 l.

(** All strictly increasing [k]-tuples of numbers below [n]
    ([increasing_tuples_spec] in P_Reals.v says exactly that). *)
Fixpoint itup (k n : nat) : list (list nat) :=
  match k with
  | O => [[]]
  | S k' => match n with
            | O => []
            | S n' => itup k n' ++ map (fun tau => tau ++ [n']) (itup k' n')
            end
  end.

(** Value of dimension [d] at time [i]. *)
Definition at_ (X : list (list R)) (d i : nat) : R := nth i (nth d X []) 0.

(** prod_d X[d, i] ** e[d] *)
Definition ext_val (X : list (list R)) (e : list Z) (i : nat) : R :=
  Rprod (map (fun d => powerRZ (at_ X d i) (nth d e 0%Z)) (seq 0 (length e))).

(** sum_d e[d] * X[d, i] *)
Definition ext_val_plus (X : list (list R)) (e : list Z) (i : nat) : R :=
  Rsum (map (fun d => IZR (nth d e 0%Z) * at_ X d i) (seq 0 (length e))).

(** prod_j / sum_j of the letters at the positions [tau]. *)
Definition word_val (X : list (list R)) (w : list (list Z)) (tau : list nat) : R :=
  Rprod (map (fun j => ext_val X (nth j w []) (nth j tau 0%nat)) (seq 0 (length w))).
Definition word_val_plus (X : list (list R)) (w : list (list Z)) (tau : list nat) : R :=
  Rsum (map (fun j => ext_val_plus X (nth j w []) (nth j tau 0%nat)) (seq 0 (length w))).

(** Exponent of the weighting: sum_{j<k-1} a_j (g(i_j) - g(i_{j+1})). *)
Definition weight_exp (a g : list R) (tau : list nat) : R :=
  Rsum (map (fun j => nth j a 0 * (nth (nth j tau 0%nat) g 0 - nth (nth (S j) tau 0%nat) g 0))
            (seq 0 (length tau - 1))).
(** Additional exponent with total weighting: a_{k-1} (g(i_{k-1}) - g(t)). *)
Definition total_exp (a g : list R) (tau : list nat) (t : nat) : R :=
  nth (length tau - 1) a 0 * (nth (last tau 0%nat) g 0 - nth t g 0).

(** Unweighted iterated sum at time [t]. *)
Definition iss (X : list (list R)) (w : list (list Z)) (t : nat) : R :=
  Rsum (map (word_val X w) (itup (length w) (S t))).

(** Weighted iterated sum at time [t]. *)
Definition iss_weighted (X : list (list R)) (w : list (list Z)) (a g : list R)
    (total : bool) (t : nat) : R :=
  Rsum (map (fun tau => word_val X w tau * exp (weight_exp a g tau)
                        * (if total then exp (total_exp a g tau t) else 1))
            (itup (length w) (S t))).

(** Non-decreasing [k]-tuples with entries at most [t]. *)
Definition nondec_upto (k t : nat) (tau : list nat) : Prop :=
  length tau = k /\ Sorted le tau /\ Forall (fun i => (i <= t)%nat) tau.
(** Strictly increasing ones. *)
Definition inc_upto (k t : nat) (tau : list nat) : Prop :=
  length tau = k /\ Sorted lt tau /\ Forall (fun i => (i <= t)%nat) tau.

(** [m] is the maximum of [v] over the tuples satisfying [P]. *)
Definition is_max (P : list nat -> Prop) (v : list nat -> R) (m : R) : Prop :=
  (exists tau, P tau /\ v tau = m) /\ (forall tau, P tau -> v tau <= m).

(** A series whose dimensions all have the same length [n >= 1]. *)
Definition wf_series (X : list (list R)) (n : nat) : Prop :=
  X <> [] /\ Forall (fun x => length x = n) X.

(** All dimensions used by the word exist in a series of dimension [d]. *)
Definition letters_in (d : nat) (w : list (list Z)) : Prop :=
  Forall (fun e => forall j, (j < length e)%nat -> nth j e 0%Z <> 0%Z -> (j < d)%nat) w.
(** The count tables themselves are not longer than [d] (the Arctic kernel
    reads also rows with count 0). *)
Definition tables_in (d : nat) (w : list (list Z)) : Prop :=
  Forall (fun e => (length e <= d)%nat) w.

(** Data is non-zero wherever the word has a negative exponent. *)
Definition nonzero_where_neg (X : list (list R)) (n : nat) (w : list (list Z)) : Prop :=
  Forall (fun e => forall j i, (j < length e)%nat -> (nth j e 0 < 0)%Z -> (i < n)%nat ->
                               at_ X j i <> 0) w.

(** * General words: an extended letter is a list of letters, a letter is any
    function from a series to an array of the same length. *)
Definition gext_val (X : list (list R)) (el : list (list (list R) -> list R)) (i : nat) : R :=
  Rprod (map (fun l => nth i (l X) 0) el).
Definition gext_val_plus (X : list (list R)) (el : list (list (list R) -> list R)) (i : nat) : R :=
  Rsum (map (fun l => nth i (l X) 0) el).
Definition gword_val X (w : list (list (list (list R) -> list R))) (tau : list nat) : R :=
  Rprod (map (fun j => gext_val X (nth j w []) (nth j tau 0%nat)) (seq 0 (length w))).
Definition gword_val_plus X (w : list (list (list (list R) -> list R))) (tau : list nat) : R :=
  Rsum (map (fun j => gext_val_plus X (nth j w []) (nth j tau 0%nat)) (seq 0 (length w))).
Definition giss X w (t : nat) : R := Rsum (map (gword_val X w) (itup (length w) (S t))).
(** Every letter returns an array of the length of the series. *)
Definition letters_ok (X : list (list R)) (n : nat) (w : list (list (list (list R) -> list R))) : Prop :=
  Forall (Forall (fun l => length (l X) = n)) w.

(** A dataset of series of common length [n]. *)
Definition wf_dataset (X : list (list (list R))) (n : nat) : Prop := Forall (fun x => wf_series x n) X.
