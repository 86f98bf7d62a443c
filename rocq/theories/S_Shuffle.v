(** Specification: quasi-shuffle product of two words (lists of extended
    letters, an extended letter being a list of letters; two extended letters
    are merged by joining their letters). *)
From Coq Require Import List Arith ZArith Reals.
From Verif Require Import Arr S_ISS S_Words.
Import ListNotations.

Fixpoint quasi_shuffle {L} (u : list (list L)) : list (list L) -> list (list (list L)) :=
  fix inner (v : list (list L)) : list (list (list L)) :=
    match u, v with
    | [], _ => [v]
    | _, [] => [u]
    | a :: u', b :: v' =>
        map (cons a) (quasi_shuffle u' v)
        ++ map (cons b) (inner v')
        ++ map (cons (a ++ b)) (quasi_shuffle u' v')
    end.

Open Scope R_scope.
(** Data is non-zero at time [i] where the letters have a negative count. *)
Definition nz_el (X : list (list R)) (i : nat) (el : list Z) : Prop :=
  forall d, (1 <= d)%nat -> (occurrences el d < 0)%Z -> at_ X (d - 1) i <> 0.
(** The series has all dimensions of the word and is non-zero where needed. *)
Definition fits (X : list (list R)) (n : nat) (els : list (list Z)) : Prop :=
  (top_dim els <= length X)%nat /\ forall i, (i < n)%nat -> Forall (nz_el X i) els.

(** Multiply dimension [d] by [k] / everything by [k] / invert every entry. *)
Definition scale_dim (d : nat) (k : R) (X : list (list R)) : list (list R) := upd d (map (Rmult k) (nth d X [])) X.
Definition scale_all (k : R) (X : list (list R)) : list (list R) := map (map (Rmult k)) X.
Definition invert (X : list (list R)) : list (list R) := map (map Rinv) X.
(** Sum of the exponents of dimension [d]; the word with all exponents negated. *)
Definition total_exponent (d : nat) (w : list (list Z)) : Z := fold_right Z.add 0%Z (map (fun e => nth d e 0%Z) w).
Definition negated (w : list (list Z)) : list (list Z) := map (map Z.opp) w.
