(** Finite floating point numbers. *)
From Coq Require Import ZArith Floats.SpecFloat.
Definition finite (x : spec_float) : Prop := x <> S754_nan /\ forall s, x <> S754_infinity s.
