(** Specification of the documented word syntax, independent of the parser.

    A simple word is a sequence of extended letters in square brackets; an
    extended letter is a non-empty sequence of letters; a letter is a digit, or
    a decimal number in round parentheses, each possibly with a minus sign in
    front of the digits. *)
From Coq Require Import Ascii List Arith ZArith Bool.
From Verif Require Import M_Str.
Import ListNotations.
Local Open Scope char_scope.

Inductive tok :=
| TShort (neg : bool) (c : ascii)            (* 3   -3   *)
| TLong (neg : bool) (cs : list ascii).      (* (12) (-12) *)
Definition wf_tok (t : tok) : Prop :=
  match t with
  | TShort _ c => is_digit c = true
  | TLong _ cs => cs <> [] /\ Forall (fun c => is_digit c = true) cs
  end.
Definition sign_str (neg : bool) : list ascii := if neg then ["-"] else [].
Definition tok_str (t : tok) : list ascii :=
  match t with
  | TShort neg c => sign_str neg ++ [c]
  | TLong neg cs => "(" :: sign_str neg ++ cs ++ [")"]
  end.
Definition dec (cs : list ascii) : nat := fold_left (fun a c => 10 * a + digit_val c) cs 0.
Definition tok_val (t : tok) : Z :=
  match t with
  | TShort neg c => (if neg then - Z.of_nat (dec [c]) else Z.of_nat (dec [c]))%Z
  | TLong neg cs => (if neg then - Z.of_nat (dec cs) else Z.of_nat (dec cs))%Z
  end.

Definition el_str (el : list tok) : list ascii := flat_map tok_str el.
Definition tword_str (w : list (list tok)) : list ascii :=
  flat_map (fun el => ("[" :: el_str el) ++ ["]"]) w.
Definition wf_tword (w : list (list tok)) : Prop :=
  w <> [] /\ Forall (fun el => el <> [] /\ Forall wf_tok el) w.

(** [s] is a simple word string denoting the letter lists [els]. *)
Definition spells (s : list ascii) (els : list (list Z)) : Prop :=
  exists w, wf_tword w /\ s = tword_str w /\ els = map (map tok_val) w.

(** Signed number of occurrences of dimension [d] (letters count from 1). *)
Definition occurrences (el : list Z) (d : nat) : Z :=
  (Z.of_nat (count_occ Z.eq_dec el (Z.of_nat d)) - Z.of_nat (count_occ Z.eq_dec el (- Z.of_nat d)))%Z.
(** Count table of an extended letter over the dimensions 1..m. *)
Definition table (m : nat) (el : list Z) : list Z := map (fun i => occurrences el (S i)) (seq 0 m).
(** What the letter 0 does: every 0 counts as a negative occurrence of the
    last dimension. *)
Definition table0 (m : nat) (el : list Z) : list Z :=
  map (fun i => (occurrences el (S i)
                 - if Nat.eqb i (m - 1) then Z.of_nat (count_occ Z.eq_dec el 0%Z) else 0)%Z) (seq 0 m).
(** Largest dimension of a word. *)
Definition top_dim (els : list (list Z)) : nat := list_max (map Z.abs_nat (concat els)).
(** No letter 0. *)
Definition no_zero (els : list (list Z)) : Prop := Forall (Forall (fun z => z <> 0%Z)) els.

(** The counts of [w'] are those of [w], negated at the even (odd) positions. *)
Definition neg_if (b : bool) (z : Z) : Z := if b then (- z)%Z else z.
Definition alternated (neg_even : bool) (w w' : list (list Z)) : Prop :=
  length w' = length w /\
  forall j d, nth d (nth j w' []) 0%Z = neg_if (Bool.eqb (Nat.even j) neg_even) (nth d (nth j w []) 0%Z).
