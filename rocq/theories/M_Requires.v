(** The property requires_fitting of the preparateurs (seed.py 18-20 and the
    classes that override it).  ISS and CosWISS: [iss_requires] of M_Seeds;
    sieves: [sv_requires] of M_Sieve. *)
From Coq Require Import List Bool.
From Verif Require Import Num M_Np M_Prep M_PrepObj.

Section Requires.
Context {T : Type}.
(** seed.py 18-20; overridden in transform.py 56-58 (INC), 180-182 (NRM),
    287-289 (LAG), 1034-1036 (FUN) and filter.py 89-91 (WIN). *)
Definition leaf_requires (f : leaf T) : bool :=
  match f with LINC _ | LNRM _ | LLAG | LFUN _ | LWIN _ _ => false | _ => true end.
(** wrapper.py 33-35 (DIM), 68-72 (NEW) *)
Fixpoint pr_requires (p : prep T) : bool :=
  match p with
  | PLeaf f _ => leaf_requires f
  | PDim q _ _ => pr_requires q
  | PNew0 _ => false
  | PNew q _ => pr_requires q
  end.
End Requires.
