(** C76: which seeds of the library treat every series on its own: all of them,
    provided the functions supplied by the user do, and except that inside a
    wrapper (DIM, NEW; INC and INT around sieves) nothing may be read from a
    cache (a wrapped object builds its own cache, which survives a call that
    raised an exception, C31). *)
From Coq Require Import List Arith.
From Verif Require Import Num Arr M_Str M_Semiring M_ISS M_Np M_Prep M_Sieve M_PrepObj M_Cos M_Seeds L_API S_Rowwise.
Import ListNotations.

Section Spec.
Context {T : Type}.
Notation dset := (list (list (list T))).
(** A function of the input [c] of the cache and of the series. *)
Definition rowfun (F : dset -> dset -> res dset) : Prop := forall c X sel Y,
  same_shapes c -> same_shapes X -> length c = length X -> picks (length X) sel -> F c X = Ok Y ->
  length Y = length X /\ same_shapes Y /\ F (pick [] sel c) (pick [] sel X) = Ok (pick [] sel Y).
(** A preparateur that does not read the cache, and FUN row by row. *)
Definition own_leaf (f : leaf T) : Prop :=
  match f with LFUN g => rowfun (fun _ => g) | LWIN _ _ | LSPE _ _ _ (Some _) _ => False | _ => True end.
Fixpoint own_prep (p : prep T) : Prop :=
  match p with PLeaf f _ => own_leaf f | PDim q _ _ => own_prep q | PNew0 _ => True | PNew q _ => own_prep q end.
(** A preparateur that is not inside another one may read the cache. *)
Definition row_prep (p : prep T) : Prop :=
  match p with
  | PLeaf (LFUN g) _ => rowfun (fun _ => g) | PLeaf _ _ => True
  | PDim q _ _ => own_prep q | PNew0 _ => True | PNew q _ => own_prep q
  end.
(** Custom weightings, and letters of general words. *)
Definition rowlookup (f : dset -> res (list (list T))) : Prop := forall X sel l, same_shapes X -> picks (length X) sel -> f X = Ok l ->
  length l = length X /\ same_lengths l /\ f (pick [] sel X) = Ok (pick [] sel l).
Definition row_wt (k : wkind (T := T)) : Prop := match k with WCustom f => rowlookup f | _ => True end.
Definition shaped_letter (l : bletter T) : Prop := forall Z Z', map (@length T) Z = map (@length T) Z' -> length (l Z) = length (l Z').
Definition shaped_word (w : wordv T) : Prop := match w with WSimple _ _ => True | WGeneral els => Forall (Forall shaped_letter) els end.
Definition row_iss (i : issO T) : Prop :=
  match i with
  | IPlain c _ => Forall (fun w => shaped_word (iw_val w)) (io_words c) /\ match io_wt c with Some (k, _) => row_wt k | None => True end
  | ICos _ _ _ => True
  end.
Definition no_key (c : cut_arg) : Prop := match c with CutI _ => True | CutF _ => False end.
Fixpoint own_sieve (s : sieve T) : Prop :=
  match s with SSeg c _ _ => Forall no_key (sg_cut c) | SPpv _ _ _ => True | SInc i _ _ _ => own_sieve i | SInt i _ => own_sieve i end.
Definition row_sieve (s : sieve T) : Prop :=
  match s with SSeg _ _ _ | SPpv _ _ _ => True | SInc i _ _ _ => own_sieve i | SInt i _ => own_sieve i end.
End Spec.
