(** Arithmetic with rounding errors: the model of the code, run with operations
    that are only approximately those of the real numbers.

    float64 arrays are computed with elementary operations each of which is
    exact up to a relative error (numpy and numba use IEEE double precision:
    relative error 2^-53 as long as nothing overflows or underflows).  [FlNum]
    is the instance of the number class of [Num.v] with five arbitrary such
    operations; comparison, negation and conversion of (small) integers are
    exact.  Sums are taken in the order of the source code ([fastmath] lets the
    compiler reorder them; not modelled). *)
From Coq Require Import Reals.
From Verif Require Import Num.
Open Scope R_scope.

Record flops := { f_add : R -> R -> R; f_sub : R -> R -> R; f_mul : R -> R -> R; f_div : R -> R -> R; f_exp : R -> R }.
Definition FlNum (o : flops) : Num R := {|
  nzero := 0; nunit := 1;
  nadd := f_add o; nsub := f_sub o; nmul := f_mul o; ndiv := f_div o; nopp := Ropp;
  nleb := Rleb; neqb := Reqb';
  nexp := f_exp o; nsin := sin; ncos := cos; npi := PI; nsqrt := sqrt;
  nofZ := IZR; nfin := fun x => x; ntrunc := Rtrunc
|}.
(** Every result is off by at most the factor [u]. *)
Definition standard (u : R) (o : flops) : Prop :=
  0 <= u /\
  (forall x y, Rabs (f_add o x y - (x + y)) <= u * Rabs (x + y)) /\
  (forall x y, Rabs (f_sub o x y - (x - y)) <= u * Rabs (x - y)) /\
  (forall x y, Rabs (f_mul o x y - x * y) <= u * Rabs (x * y)) /\
  (forall x y, y <> 0 -> Rabs (f_div o x y - x / y) <= u * Rabs (x / y)) /\
  (forall x, Rabs (f_exp o x - exp x) <= u * exp x).
(** The operations of a rounding function. *)
Definition rounded (rnd : R -> R) : flops :=
  {| f_add := fun x y => rnd (x + y); f_sub := fun x y => rnd (x - y); f_mul := fun x y => rnd (x * y);
     f_div := fun x y => rnd (x / y); f_exp := fun x => rnd (exp x) |}.
