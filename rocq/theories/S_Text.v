(** Specification of the texts that [ExtendedLetter(...)] and [Word(...)] read. *)
From Coq Require Import Ascii String List Arith ZArith Bool.
From Verif Require Import Num Arr M_Str.
Import ListNotations.

Definition blank (c : ascii) : Prop := In (nat_of_ascii c) [9; 10; 11; 12; 13; 28; 29; 30; 31; 32; 133; 160].
Definition digit (c : ascii) : Prop := In c (str "0123456789").
(** The value of a sequence of decimal digits. *)
Definition decimal (l : pystr) : nat := fold_left (fun a c => 10 * a + (nat_of_ascii c - nat_of_ascii "0"%char)) l 0.
(** An integer in the syntax of Python: blanks, a sign, groups of digits
    separated by single underscores, blanks. *)
Definition integer_text (s : pystr) (z : Z) : Prop :=
  exists pre sign groups post, s = pre ++ sign ++ join ["_"%char] groups ++ post /\ Forall blank pre /\ Forall blank post /\
    groups <> [] /\ Forall (fun g => g <> [] /\ Forall digit g) groups /\
    (sign = [] /\ z = Z.of_nat (decimal (concat groups)) \/ sign = ["+"%char] /\ z = Z.of_nat (decimal (concat groups)) \/
     sign = ["-"%char] /\ z = (- Z.of_nat (decimal (concat groups)))%Z).
(** A letter with a dimension, such as [DIM(2)], without the closing bracket;
    the dimension is counted from 0. *)
Definition letter_text (piece name : pystr) (dim : Z) : Prop :=
  exists d, piece = name ++ "("%char :: d /\ ~ In "("%char name /\ ~ In "("%char d /\ integer_text d (dim + 1).
(** Parts that are each closed by the character [c], and what follows the last
    of them. *)
Definition closed (c : ascii) (parts : list pystr) (rest s : pystr) : Prop :=
  s = concat (map (fun p => p ++ [c]) parts) ++ rest /\ Forall (fun p => ~ In c p) parts /\ ~ In c rest.

Section Read.
Variable known : pystr -> Prop.   (* the names of the registered letters *)
Definition reads_letter (piece : pystr) (nd : pystr * Z) : Prop := letter_text piece (fst nd) (snd nd) /\ known (fst nd).
(** An unknown letter is a RuntimeError, everything that is not a letter with
    an integer is a ValueError. *)
Definition fails_letter (piece : pystr) (e : exn) : Prop :=
  e = RuntimeError /\ (exists n d, letter_text piece n d /\ ~ known n) \/ e = ValueError /\ forall n d, ~ letter_text piece n d.
(** What is read of an extended letter: the letters that are closed by a
    bracket; what follows the last one is ignored. *)
Definition reads_ext (s : pystr) (el : list (pystr * Z)) : Prop :=
  exists ps rest, closed ")" ps rest s /\ Forall2 reads_letter ps el.
(** ... the first letter that cannot be read decides. *)
Definition fails_ext (s : pystr) (e : exn) : Prop :=
  exists ps p ps' rest el, closed ")" (ps ++ p :: ps') rest s /\ Forall2 reads_letter ps el /\ fails_letter p e.
(** ... and of a word: the first character of each extended letter is not looked
    at, what follows the last closing bracket is ignored. *)
Definition reads_word (s : pystr) (w : list (list (pystr * Z))) : Prop :=
  exists raws rest, closed "]" raws rest s /\ Forall2 (fun raw el => reads_ext (tl raw) el) raws w.
Definition fails_word (s : pystr) (e : exn) : Prop :=
  exists raws raw raws' rest w, closed "]" (raws ++ raw :: raws') rest s /\ Forall2 (fun raw el => reads_ext (tl raw) el) raws w /\ fails_ext (tl raw) e.
End Read.
