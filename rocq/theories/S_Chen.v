(** Specification for C80-C82: series one after the other, series read
    backwards, what a SimpleWord denotes, reading the output of an ISS. *)
From Coq Require Import List Arith ZArith Reals.
From Verif Require Import Num M_Str M_Semiring M_Words M_ISS S_ISS S_Words.
Import ListNotations.
Open Scope R_scope.

(** Series i of the result is series i of [A] followed by series i of [B]
    ([np.concatenate((A, B), axis=2)]). *)
Definition joined (A B : list (list (list R))) : list (list (list R)) :=
  map (fun ab => map (fun xy => fst xy ++ snd xy) (combine (fst ab) (snd ab))) (combine A B).
(** As many series in both, series i with as many dimensions in both. *)
Definition same_dims (A B : list (list (list R))) : Prop := Forall2 (fun a b => length a = length b) A B.
(** [X[:, :, ::-1]] *)
Definition backwards (X : list (list (list R))) : list (list (list R)) := map (map (@rev R)) X.
(** All series, all dimensions constant 0, of length [n]: [np.zeros]. *)
Definition all_zero (X : list (list (list R))) : Prop := Forall (Forall (Forall (fun v => v = 0))) X.

(** Word [w] was made from a string that spells the extended letters [els]. *)
Definition denotes (w : sword R) (els : list (list Z)) : Prop :=
  simple_word (sw_name w) = Ok w /\ spells (sw_name w) els.

(** Row [r], series [i], time [t] of the output of an ISS. *)
Definition value (rows : list (list (list R))) (r i t : nat) : R := nth t (nth i (nth r rows []) []) 0.

(** The prefixes of length 1, ..., k and the suffixes from 0, ..., k-1. *)
Definition prefixes_of {A} (w : list A) : list (list A) := map (fun j => firstn j w) (seq 1 (length w)).
Definition suffixes_of {A} (w : list A) : list (list A) := map (fun j => skipn j w) (seq 0 (length w)).

(** An ISS over the semiring [s] without weighting, in the default mode. *)
Definition plain_iss (c : iss_cfg R) (ws : list (sword R)) (s : semiring) : Prop :=
  is_words c = map simple_iword ws /\ is_mode c = SINGLE /\ is_sr c = s /\ is_wt c = None.
(** Words without negative letters. *)
Definition only_positive (els : list (list Z)) : Prop := Forall (Forall (fun z => (0 < z)%Z)) els.
