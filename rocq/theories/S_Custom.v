(** Specification of iterated sums over an arbitrary semiring, independent of
    the model.  The additive structure needs no zero: an empty sum has no
    value. *)
From Coq Require Import List Arith.
From Verif Require Import S_ISS.
Import ListNotations.

Section Spec.
Context {T : Type}.
Variables (add mul : T -> T -> T) (one : T).

(** The semiring laws that matter: sums are associative (not necessarily
    commutative), products are associative with the unit [one], products
    distribute over sums on their left. *)
Record laws : Prop := {
  add_assoc : forall a b c, add a (add b c) = add (add a b) c;
  mul_assoc : forall a b c, mul a (mul b c) = mul (mul a b) c;
  mul_one_l : forall a, mul one a = a;
  mul_one_r : forall a, mul a one = a;
  distr : forall a b c, mul (add a b) c = add (mul a c) (mul b c) }.

(** x0 + x1 + ...; no value for the empty list. *)
Definition total (l : list T) : option T :=
  match l with [] => None | x :: r => Some (fold_left add r x) end.
(** x0 * x1 * ... *)
Definition product_ (l : list T) : T := fold_right mul one l.

(** The array operation [cum] computes running sums: entry t of the result is
    the sum of the entries 0, ..., t. *)
Definition running (cum : list T -> list T) : Prop :=
  forall l, length (cum l) = length l /\
            forall t, t < length l -> nth_error (cum l) t = total (firstn (S t) l).

(** The value at the positions [tau] of a word whose j-th extended letter is
    the list [nth j w []] of letters; a letter maps the series to an array. *)
Definition cword_val (d : T) (x : list (list T)) (w : list (list (list (list T) -> list T))) (tau : list nat) : T :=
  product_ (map (fun j => product_ (map (fun letter => nth (nth j tau 0) (letter x) d) (nth j w []))) (seq 0 (length w))).
(** The iterated sum of the word up to time [t]: the sum over all strictly
    increasing positions up to t, listed by their last entries first
    ([increasing_tuples_spec]); no value if there are none (t + 1 < length w). *)
Definition citerated (d : T) (x : list (list T)) (w : list (list (list (list T) -> list T))) (t : nat) : option T :=
  total (map (cword_val d x w) (itup (length w) (S t))).
End Spec.

(** The letters of an extended letter given by its integer exponents: the d-th
    row of the series as often as the exponent of dimension d says; negative
    exponents give nothing. *)
Definition counted {T} (el : list BinNums.Z) : list (list (list T) -> list T) :=
  flat_map (fun d => repeat (fun x => nth d x []) (BinInt.Z.to_nat (nth d el BinNums.Z0))) (seq 0 (length el)).
