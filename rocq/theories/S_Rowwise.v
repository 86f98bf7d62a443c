(** C76: what it means for seeds to treat every series on its own.

    [pick [] sel X] (L_API.v) is numpy's [X[sel]] for a list of indices. *)
From Coq Require Import List Arith.
From Verif Require Import Num Arr M_Str M_Np M_Fruit L_API.
Import ListNotations.

(** Arrays: numpy arrays have no ragged rows. *)
Definition same_shapes {T} (X : dataset T) : Prop := forall x y, In x X -> In y X -> map (@length T) x = map (@length T) y.
Definition same_lengths {T} (Y : mts T) : Prop := forall r s, In r Y -> In s Y -> length r = length s.
(** A non-empty list of indices of n series; they may repeat and come in any order. *)
Definition picks (n : nat) (sel : list nat) : Prop := sel <> [] /\ forall i, In i sel -> i < n.

Section Rowwise.
Context {T : Type}.
Variable K : kit T.
(** [c] is the input of the cache. *)
Definition rowwise_prep (p : prepT K) : Prop := forall c X sel Y,
  same_shapes c -> same_shapes X -> length c = length X -> picks (length X) sel ->
  fst (p_transform K X (p_attach K c p)) = Ok Y ->
  length Y = length X /\ same_shapes Y /\
  fst (p_transform K (pick [] sel X) (p_attach K (pick [] sel c) p)) = Ok (pick [] sel Y).
Definition rowwise_iss (i : issT K) : Prop := forall c X sel bs,
  same_shapes c -> same_shapes X -> length c = length X -> picks (length X) sel ->
  i_batches K (i_attach K c i) X = map Ok bs ->
  (forall b s, In b bs -> In s b -> length s = length X /\ same_lengths s) /\
  i_batches K (i_attach K (pick [] sel c) i) (pick [] sel X) = map Ok (map (map (pick [] sel)) bs).
Definition rowwise_sieve (s : sieveT K) : Prop := forall c Y sel R,
  same_shapes c -> same_lengths Y -> length c = length Y -> picks (length Y) sel ->
  fst (s_transform K Y (s_attach K c s)) = Ok R ->
  length R = length Y /\
  fst (s_transform K (pick [] sel Y) (s_attach K (pick [] sel c) s)) = Ok (pick [] sel R).
End Rowwise.
