(** Specification vocabulary for C29 and C60: regions of objects, and calls
    that do not mention the objects of a region. *)
From Coq Require Import Ascii String List Arith ZArith Bool.
From Verif Require Import Num Arr M_Str M_Np M_Fruit S_Fruit.
Import ListNotations.

(** A set of objects: preparateurs, ISS, sieves, slices and fruits. *)
Record region := { q_p : nat -> bool; q_i : nat -> bool; q_s : nat -> bool; q_sl : nat -> bool; q_fr : nat -> bool }.
Coercion is_true : bool >-> Sortclass.

Section Sep.
Context {T : Type} `{Num T}.
Variable K : kit T.
Notation heap := (heap K).

(** The call has no argument that belongs to the region. *)
Definition arg_avoids (Q : region) (a : arg K) : Prop :=
  match a with ArgP _ id => ~ q_p Q id | ArgI _ id => ~ q_i Q id | ArgS _ id => ~ q_s Q id | _ => True end.
Definition avoids (Q : region) (o : op K) : Prop :=
  match o with
  | ONewPrep _ _ | ONewIss _ _ | ONewSieve _ _ | ONewSlice _ | ONewFruit _ _ => True
  | OPrepFit _ id _ | OPrepTransform _ id _ => ~ q_p Q id
  | OIssFit _ id _ => ~ q_i Q id
  | OSieveFit _ id _ | OSieveTransform _ id _ => ~ q_s Q id
  | OSampleSize _ sl _ | OClearPreps _ sl | OClearIss _ sl | OClearSieves _ sl | OClear _ sl
  | OFit _ sl _ _ | OTransform _ sl _ _ _ | OFitTransform _ sl _ | OCopy _ sl | ODeepcopy _ sl => ~ q_sl Q sl
  | OAdd _ sl objects => ~ q_sl Q sl /\ Forall (arg_avoids Q) objects
  | FCut _ f sl => ~ q_fr Q f /\ match sl with Some sl => ~ q_sl Q sl | None => True end
  | FAdd _ f objects => ~ q_fr Q f /\ Forall (arg_avoids Q) objects
  | FCopycut _ f | FSwitch _ f _ | FFit _ f _ _ | FTransform _ f _ _ _ | FFitTransform _ f _ _
  | FCopy _ f | FDeepcopy _ f => ~ q_fr Q f
  end.
(** The seeds a slice refers to. *)
Definition slice_avoids (Q : region) (s : slice) : Prop :=
  (forall id, In id (sl_p s) -> ~ q_p Q id) /\ (forall id, In id (sl_i s) -> ~ q_i Q id) /\
  (forall id, In id (sl_s s) -> ~ q_s Q id) /\ (forall row id, In row (sl_ext s) -> In id row -> ~ q_s Q id).
Definition slice_within (Q : region) (s : slice) : Prop :=
  (forall id, In id (sl_p s) -> q_p Q id) /\ (forall id, In id (sl_i s) -> q_i Q id) /\
  (forall id, In id (sl_s s) -> q_s Q id) /\ (forall row id, In row (sl_ext s) -> In id row -> q_s Q id).
(** The region consists of existing objects, and no object outside refers to
    an object of the region. *)
Definition exists_in (Q : region) (h : heap) : Prop :=
  (forall id, q_p Q id -> id < length (h_p K h)) /\ (forall id, q_i Q id -> id < length (h_i K h)) /\
  (forall id, q_s Q id -> id < length (h_s K h)) /\ (forall id, q_sl Q id -> id < length (h_sl K h)) /\
  (forall id, q_fr Q id -> id < length (h_fr K h)).
Definition unreferenced (Q : region) (h : heap) : Prop :=
  (forall j s, nth_error (h_sl K h) j = Some s -> ~ q_sl Q j -> slice_avoids Q s) /\
  (forall j f, nth_error (h_fr K h) j = Some f -> ~ q_fr Q j -> forall sl, In sl (f_slices f) -> ~ q_sl Q sl).
(** The fruit, its slices and all their seeds belong to the region. *)
Definition fruit_within (Q : region) (h : heap) (f : nat) : Prop :=
  q_fr Q f /\ forall x, nth_error (h_fr K h) f = Some x -> forall sl, In sl (f_slices x) ->
  q_sl Q sl /\ forall s, nth_error (h_sl K h) sl = Some s -> slice_within Q s.
(** The objects of the region are the same in both states. *)
Definition unchanged (Q : region) (h h' : heap) : Prop :=
  (forall id, q_p Q id -> nth_error (h_p K h') id = nth_error (h_p K h) id) /\
  (forall id, q_i Q id -> nth_error (h_i K h') id = nth_error (h_i K h) id) /\
  (forall id, q_s Q id -> nth_error (h_s K h') id = nth_error (h_s K h) id) /\
  (forall id, q_sl Q id -> nth_error (h_sl K h') id = nth_error (h_sl K h) id) /\
  (forall id, q_fr Q id -> nth_error (h_fr K h') id = nth_error (h_fr K h) id).

(** ** Two sides *)
(** All objects that exist and do not belong to the region. *)
Definition others (Q : region) (h : heap) : region :=
  {| q_p := fun id => (id <? length (h_p K h)) && negb (q_p Q id); q_i := fun id => (id <? length (h_i K h)) && negb (q_i Q id);
     q_s := fun id => (id <? length (h_s K h)) && negb (q_s Q id); q_sl := fun id => (id <? length (h_sl K h)) && negb (q_sl Q id);
     q_fr := fun id => (id <? length (h_fr K h)) && negb (q_fr Q id) |}.
(** The objects that exist in [h'] but not in [h]. *)
Definition created (h h' : heap) : region :=
  let new n m id := (n <=? id) && (id <? m) in
  {| q_p := new (length (h_p K h)) (length (h_p K h')); q_i := new (length (h_i K h)) (length (h_i K h'));
     q_s := new (length (h_s K h)) (length (h_s K h')); q_sl := new (length (h_sl K h)) (length (h_sl K h'));
     q_fr := new (length (h_fr K h)) (length (h_fr K h')) |}.
Definition union (Q R : region) : region :=
  {| q_p := fun id => q_p Q id || q_p R id; q_i := fun id => q_i Q id || q_i R id; q_s := fun id => q_s Q id || q_s R id;
     q_sl := fun id => q_sl Q id || q_sl R id; q_fr := fun id => q_fr Q id || q_fr R id |}.
(** A history in which every call concerns one side only: it mentions only
    objects outside of the region, or only objects of the region.  What a call
    creates belongs to the side of the call. *)
Inductive two_sided (Q : region) (h : heap) : region -> heap -> Prop :=
| ts_start : two_sided Q h Q h
| ts_outside Q1 h1 o : two_sided Q h Q1 h1 -> avoids Q1 o -> two_sided Q h Q1 (snd (exec K o h1))
| ts_inside Q1 h1 o : two_sided Q h Q1 h1 -> avoids (others Q1 h1) o ->
    two_sided Q h (union Q1 (created h1 (snd (exec K o h1)))) (snd (exec K o h1)).
End Sep.
