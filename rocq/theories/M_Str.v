(** Python values used by the non-numerical code: strings as lists of (ASCII)
    characters, exceptions as values, decimal printing and reading. *)
From Coq Require Import Ascii String List Arith ZArith Bool.
Import ListNotations.

(** Exceptions raised by the modelled code. *)
Inductive exn := ValueError | IndexError | RuntimeError | KeyError | TypeError
               | NotImplementedError | StopIteration | AttributeError | ZeroDivisionError.
Inductive res (A : Type) := Ok (a : A) | Err (e : exn).
Arguments Ok {A} a.
Arguments Err {A} e.
Definition bind {A B} (r : res A) (f : A -> res B) : res B :=
  match r with Ok a => f a | Err e => Err e end.
Notation "'let!' x ':=' r 'in' k" := (bind r (fun x => k))
  (at level 200, x pattern, r at level 100, k at level 200, right associativity).

Definition pystr := list ascii.
Definition str (s : string) : pystr := list_ascii_of_string s.
Coercion str : string >-> pystr.

Definition eqs (a b : pystr) : bool := if list_eq_dec ascii_dec a b then true else false.

(** [s.split(c)] for a one-character separator. *)
Fixpoint split_on (c : ascii) (s : pystr) : list pystr :=
  match s with
  | [] => [[]]
  | x :: r => if Ascii.eqb x c then [] :: split_on c r
              else match split_on c r with
                   | [] => [[x]]
                   | h :: t => (x :: h) :: t
                   end
  end.
(** [c.join(parts)]. *)
Fixpoint join (c : pystr) (parts : list pystr) : pystr :=
  match parts with
  | [] => []
  | [p] => p
  | p :: r => p ++ c ++ join c r
  end.
(** [s.startswith(p)]. *)
Fixpoint startswith (s p : pystr) : bool :=
  match p, s with
  | [], _ => true
  | _ :: _, [] => false
  | x :: p', y :: s' => Ascii.eqb x y && startswith s' p'
  end.
(** [s.replace(c, "")] for a one-character [c]. *)
Definition remove_char (c : ascii) (s : pystr) : pystr := filter (fun x => negb (Ascii.eqb x c)) s.

(** ** Decimal numbers *)
Definition is_digit (c : ascii) : bool :=
  let n := nat_of_ascii c in (48 <=? n) && (n <=? 57).
Definition digit_val (c : ascii) : nat := nat_of_ascii c - 48.
Definition digit_char (d : nat) : ascii := ascii_of_nat (48 + d).

(** [str(n)] for a non-negative integer. *)
Fixpoint str_nat_aux (fuel n : nat) : pystr :=
  match fuel with
  | O => []
  | S f => if n <? 10 then [digit_char n]
           else str_nat_aux f (n / 10) ++ [digit_char (n mod 10)]
  end.
Definition str_nat (n : nat) : pystr := str_nat_aux (S n) n.
Definition minus_char : ascii := "-"%char.
Definition str_Z (z : Z) : pystr :=
  if (z <? 0)%Z then minus_char :: str_nat (Z.abs_nat z) else str_nat (Z.abs_nat z).

(** [int(s)] for strings matching [-?\d+]; everything else is ValueError
    (Python additionally accepts blanks, underscores and a plus sign, which the
    regular expression of SimpleWord rules out). *)
Fixpoint int_digits (acc : nat) (s : pystr) : option nat :=
  match s with
  | [] => Some acc
  | c :: r => if is_digit c then int_digits (10 * acc + digit_val c) r else None
  end.
Definition int_nat (s : pystr) : option nat :=
  match s with [] => None | _ => int_digits 0 s end.
Definition py_int (s : pystr) : res Z :=
  match s with
  | c :: r => if Ascii.eqb c minus_char
              then match int_nat r with Some n => Ok (- Z.of_nat n)%Z | None => Err ValueError end
              else match int_nat s with Some n => Ok (Z.of_nat n) | None => Err ValueError end
  | [] => Err ValueError
  end.
(** [int(s)] of CPython for 8 bit characters: blanks around, a sign, digits with
    single underscores between them (not modelled: the limit of 4300 digits). *)
Definition is_space (c : ascii) : bool :=
  let n := nat_of_ascii c in (9 <=? n) && (n <=? 13) || (28 <=? n) && (n <=? 32) || (n =? 133) || (n =? 160).
Fixpoint lstrip (s : pystr) : pystr := match s with c :: r => if is_space c then lstrip r else s | [] => [] end.
Definition strip (s : pystr) : pystr := rev (lstrip (rev (lstrip s))).
Fixpoint us_digits (acc : nat) (after_digit : bool) (s : pystr) : option nat :=
  match s with
  | [] => if after_digit then Some acc else None
  | c :: r => if is_digit c then us_digits (10 * acc + digit_val c) true r
              else if Ascii.eqb c "_"%char && after_digit then us_digits acc false r else None
  end.
Definition py_int_text (s : pystr) : res Z :=
  let (neg, body) := match strip s with
    | c :: r => if Ascii.eqb c minus_char then (true, r) else if Ascii.eqb c "+"%char then (false, r) else (false, c :: r)
    | [] => (false, [])
    end in
  match us_digits 0 false body with Some n => Ok (if neg then - Z.of_nat n else Z.of_nat n)%Z | None => Err ValueError end.
