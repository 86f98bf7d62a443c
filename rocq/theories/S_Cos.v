(** Specification of cosine weighted iterated sums (C22-C24), independent of
    the model. *)
From Coq Require Import List Arith ZArith Reals Bool.
From Verif Require Import S_ISS.
Import ListNotations.
Open Scope R_scope.

(** Angle of time step [t] in a series of length [n], frequency [f]. *)
Definition theta (f : R) (n t : nat) : R := PI * INR t / (f * (INR n - 1)).
(** prod_j cos(theta(i_{j+1}) - theta(i_j)) ** s *)
Definition cos_gaps (s : nat) (th : nat -> R) (tau : list nat) : R :=
  Rprod (map (fun j => cos (th (nth (S j) tau 0%nat) - th (nth j tau 0%nat)) ^ s) (seq 0 (length tau - 1))).
(** Position j of the tuple is not one of the positions [drop j]. *)
Definition avoids (drop : nat -> list nat) (tau : list nat) : bool :=
  forallb (fun j => negb (existsb (Nat.eqb (nth j tau 0%nat)) (drop j))) (seq 0 (length tau)).
Definition no_drop : nat -> list nat := fun _ => [].
(** The cosine weighted iterated sum at time [t]. *)
Definition cos_sum (X : list (list R)) (w : list (list Z)) (s : nat) (total : bool) (th : nat -> R)
    (drop : nat -> list nat) (t : nat) : R :=
  Rsum (map (fun tau => word_val X w tau * cos_gaps s th tau
                        * (if total then cos (th t - th (last tau 0%nat)) ^ s else 1))
            (filter (avoids drop) (itup (length w) (S t)))).
(** Two layer network applied at every time step: hidden units [A], [b],
    output weights [C]. *)
Definition net_at (A : list (list R)) (b : list R) (C : list (list R)) (X : list (list R)) (d t : nat) : R :=
  let hidden h := Rmax 0 (Rsum (map (fun e => nth e (nth h A []) 0 * at_ X e t) (seq 0 (length X))) + nth h b 0) in
  Rsum (map (fun h => nth h (nth d C []) 0 * hidden h) (seq 0 (length A))).
(** Binomial coefficients. *)
Fixpoint binom (n k : nat) : nat :=
  match n, k with
  | _, O => 1%nat
  | O, S _ => 0%nat
  | S n', S k' => (binom n' k' + binom n' k)%nat
  end.
