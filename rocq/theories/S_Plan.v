(** Specification for word strings and EXTENDED mode, independent of the plan.
    A word string is a sequence of bracketed extended letters. *)
From Coq Require Import Ascii List Arith.
Import ListNotations.
Local Open Scope char_scope.
Local Open Scope nat_scope.

(** "[" ++ body ++ "]" for every extended letter. *)
Definition wstring (bodies : list (list ascii)) : list ascii :=
  flat_map (fun b => ("[" :: b) ++ ["]"]) bodies.
(** A body contains no bracket characters. *)
Definition no_brackets (b : list ascii) : Prop := Forall (fun c => c <> "[" /\ c <> "]") b.
Definition wf_bodies (w : list (list ascii)) : Prop := Forall no_brackets w.

(** All non-empty prefixes of a word, shortest first. *)
Definition prefixes {A} (w : list A) : list (list A) :=
  map (fun d => firstn d w) (seq 1 (length w)).

(** Remove later duplicates, keeping first occurrences. *)
Fixpoint dedup {A} (eq_dec : forall x y : A, {x = y} + {x <> y}) (seen l : list A) : list A :=
  match l with
  | [] => []
  | x :: r => if in_dec eq_dec x seen then dedup eq_dec seen r
              else x :: dedup eq_dec (x :: seen) r
  end.

Definition word_eq_dec : forall x y : list (list ascii), {x = y} + {x <> y} :=
  list_eq_dec (list_eq_dec ascii_dec).
