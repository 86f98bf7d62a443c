(** Operational number class.  The model is written once over an arbitrary
    carrier with the operations numpy/numba use on float64 arrays; no laws are
    assumed here.  [RNum] (Coq's real numbers) is the instance all theorems
    use, [QNum] (rationals) is only used to run the model. *)
From Coq Require Import ZArith QArith Qabs Reals.

Class Num (T : Type) := {
  nzero : T; nunit : T;
  nadd : T -> T -> T; nsub : T -> T -> T; nmul : T -> T -> T;
  ndiv : T -> T -> T; nopp : T -> T;
  nleb : T -> T -> bool; neqb : T -> T -> bool;
  nexp : T -> T; nsin : T -> T; ncos : T -> T; npi : T; nsqrt : T -> T;
  nofZ : Z -> T;
  nfin : T -> T;   (* np.nan_to_num(., nan=0.0): the identity on finite numbers *)
  ntrunc : T -> T  (* storing a float in an integer array: rounding towards zero *)
}.

Definition nltb {T} `{Num T} (x y : T) : bool := andb (nleb x y) (negb (neqb x y)).
(** Python/numba [max(a, b)] and [min(a, b)] on floats (no NaN). *)
Definition nmax {T} `{Num T} (x y : T) : T := if nleb x y then y else x.
Definition nmin {T} `{Num T} (x y : T) : T := if nleb x y then x else y.
Definition nabs {T} `{Num T} (x : T) : T := if nleb nzero x then x else nopp x.
Definition nofnat {T} `{Num T} (n : nat) : T := nofZ (Z.of_nat n).

Definition Rleb (x y : R) : bool := if Rle_dec x y then true else false.
Definition Reqb' (x y : R) : bool := if Req_EM_T x y then true else false.

Definition Rtrunc (x : R) : R := if Rle_dec 0 x then IZR (Int_part x) else (- IZR (Int_part (- x)))%R.
Definition Qtrunc (x : Q) : Q := inject_Z (Z.quot (Qnum x) (Zpos (Qden x))).

#[export] Instance RNum : Num R := {|
  nzero := 0%R; nunit := 1%R;
  nadd := Rplus; nsub := Rminus; nmul := Rmult; ndiv := Rdiv; nopp := Ropp;
  nleb := Rleb; neqb := Reqb';
  nexp := exp; nsin := sin; ncos := cos; npi := PI; nsqrt := sqrt;
  nofZ := IZR; nfin := fun x => x; ntrunc := Rtrunc
|}.

(** Executable instance.  [nexp], [nsin], [ncos], [npi], [nsqrt] are dummies
    and never reached with a meaningful argument in the runs of
    [T_Conformance.v] ([exp 0 = 1] is correct). *)
Definition QNum : Num Q := {|
  nzero := 0%Q; nunit := 1%Q;
  nadd := fun x y => Qred (x + y)%Q; nsub := fun x y => Qred (x - y)%Q;
  nmul := fun x y => Qred (x * y)%Q; ndiv := fun x y => Qred (x / y)%Q;
  nopp := fun x => Qred (- x)%Q;
  nleb := Qle_bool; neqb := Qeq_bool;
  nexp := fun _ => 1%Q; nsin := fun _ => 0%Q; ncos := fun _ => 1%Q;
  npi := 3%Q; nsqrt := fun x => x;
  nofZ := fun z => inject_Z z; nfin := fun x => x; ntrunc := Qtrunc
|}.
