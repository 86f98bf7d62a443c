(** IEEE 754 double precision: the instance of the number class of [Num.v] that
    numpy and numba really compute with, given by the specification of floating
    point numbers of Coq's standard library (rounding to nearest, ties to even,
    signed zeros, subnormals, infinities, one NaN).

    exp, sin and cos are arbitrary functions (libm does not specify their last
    bits).  Order of operations as in the source; [fastmath] reorderings and
    numpy's pairwise summation in np.sum are not modelled. *)
From Coq Require Import ZArith Floats.SpecFloat.
From Verif Require Import Num.

Notation double := spec_float (only parsing).
(** [np.finfo(np.float64).max] *)
Definition dmax (negative : bool) : double := S754_finite negative 9007199254740991 971.
(** [np.nan_to_num(x, nan=0.0)] (fruit.py 172): NaN to 0, infinities to the largest numbers. *)
Definition dfin (x : double) : double :=
  match x with
  | S754_nan => S754_zero false
  | S754_infinity s => dmax s
  | _ => x
  end.
Definition dofZ (z : Z) : double := binary_normalize 53 1024 z 0 false.
(** Conversion to int64 and back (numpy: rounding towards zero; NaN and
    infinities give the smallest integer). *)
Definition dtrunc (x : double) : double :=
  match x with
  | S754_zero s => S754_zero false
  | S754_finite s m e =>
      if (0 <=? e)%Z then x
      else dofZ ((if s then -1 else 1) * (Z.pos m / 2 ^ (- e)))%Z
  | _ => dofZ (- 2 ^ 63)
  end.
Definition IEEE (exp sin cos : double -> double) : Num double := {|
  nzero := S754_zero false; nunit := dofZ 1;
  nadd := SFadd 53 1024; nsub := SFsub 53 1024; nmul := SFmul 53 1024; ndiv := SFdiv 53 1024; nopp := SFopp;
  nleb := SFleb; neqb := SFeqb;
  nexp := exp; nsin := sin; ncos := cos; npi := S754_finite false 7074237752028440 (-51); nsqrt := SFsqrt 53 1024;
  nofZ := dofZ; nfin := dfin; ntrunc := dtrunc
|}.
