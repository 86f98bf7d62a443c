(** Specification of "all words of a weight", independent of the generator. *)
From Coq Require Import List Arith ZArith Sorting Permutation.
From Verif Require Import S_Words.
Import ListNotations.

(** Letters of a word of weight [w] over the dimensions 1..[dim]. *)
Definition weight_word (w dim : nat) (els : list (list Z)) : Prop :=
  length (concat els) = w /\ Forall (fun el => el <> [] /\ Forall (fun z => (1 <= z <= Z.of_nat dim)%Z) el) els.

(** Binomial coefficients (Pascal's triangle). *)
Fixpoint binomial (n k : nat) : nat :=
  match k, n with
  | O, _ => 1
  | S _, O => 0
  | S k', S n' => binomial n' k' + binomial n' k
  end.
