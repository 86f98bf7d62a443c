(** Vocabulary for C92 and C93: callbacks, and what the objects of a slice are in
    the model of fruits (M_Fruit). *)
From Coq Require Import List Arith Bool.
From Verif Require Import Num Arr M_Str M_Np M_Prep M_Fruit M_Mem M_Mem2 S_Mem.
Import ListNotations.

(** The function [g] on the result of a computation that may raise, and several
    functions one after the other. *)
Definition mapr {A B} (g : A -> B) (r : res A) : res B := match r with Ok x => Ok (g x) | Err e => Err e end.
Definition applied {A} (gs : list (A -> A)) (x : A) : A := fold_left (fun x g => g x) gs x.

Section S.
Context {T : Type} `{Num T}.
(** A callback that overwrites the array it is given with [g] of its contents,
    and writes to no other array. *)
Definition overwrites (cb : arr -> mem (T := T) unit) (g : dataset T -> dataset T) : Prop :=
  forall a m, valid m a -> length (g (load m a)) = length (load m a) /\
    exists allocated, cb a m = (Ok tt, put a (g (load m a)) m ++ allocated).
(** Callbacks that only look. *)
Definition all_observe (hk : hooks T) : Prop :=
  Forall (fun cb => forall m, fst (cb m) = Ok tt /\ untouched m (snd (cb m))) (on_next_slice hk) /\
  Forall observes (on_preparateur hk) /\ Forall observes (on_preparation_end hk) /\
  Forall observes (on_iterated_sum hk) /\ Forall observes (on_sieve hk) /\ Forall observes (on_sieving_end hk).
(** Callbacks that write at most to the array they are given. *)
Definition all_confined (hk : hooks T) : Prop :=
  Forall (fun cb => forall k, keeps k cb (fun _ => True)) (on_next_slice hk) /\
  Forall confined_callback (on_preparateur hk) /\ Forall confined_callback (on_preparation_end hk) /\
  Forall confined_callback (on_iterated_sum hk) /\ Forall confined_callback (on_sieve hk) /\ Forall confined_callback (on_sieving_end hk).
Variable K : kit T.
(** Preparateurs as programs: they return what the seeds return and change
    nothing; the arrays are rectangular. *)
Definition pure_preparateurs (pmem : source (T := T) -> prepT K -> arr -> mem (T := T) arr) : Prop :=
  forall a p x m n d l, valid m a -> valid m x -> box (load m x) n d l ->
    computes (pmem (CRef a) p x) m (fst (p_transform K (load m x) (p_attach K (load m a) p))).
(** All arrays on the way are rectangular (numpy has no others). *)
Fixpoint all_boxes (I : dataset T) (ps : list (prepT K)) (X : dataset T) : Prop :=
  (exists n d l, box X n d l) /\
  match ps with
  | [] => True
  | p :: r => forall Y, fst (p_transform K X (p_attach K I p)) = Ok Y -> all_boxes I r Y
  end.
(** The slice number [sl] of the heap [h] consists of the objects [p]. *)
Definition consists (h : heap K) (sl : nat) (p : parts (prepT K) (issT K) (sieveT K)) : Prop :=
  exists s, nth_error (h_sl K h) sl = Some s /\ sl_fitted s = t_fit p /\
    Forall2 (fun id o => nth_error (h_p K h) id = Some o) (sl_p s) (t_p p) /\
    Forall2 (fun id o => nth_error (h_i K h) id = Some o) (sl_i s) (t_i p) /\
    Forall2 (fun id o => nth_error (h_s K h) id = Some o) (sl_s s) (t_s p) /\
    Forall2 (Forall2 (fun id o => nth_error (h_s K h) id = Some o)) (sl_ext s) (t_e p).
(** The same seeds, except that every sieve applies [g] to an iterated sum first. *)
Definition before_sieves (g : mts T -> mts T) : kit T := {|
  rng := rng K; k_randint := k_randint K; k_choice := k_choice K; prepT := prepT K; issT := issT K; sieveT := sieveT K;
  p_attach := p_attach K; i_attach := i_attach K; s_attach := s_attach K; p_fit := p_fit K; i_fit := i_fit K; s_fit := s_fit K;
  i_requires := i_requires K; s_requires := s_requires K; p_transform := p_transform K;
  s_transform := fun Y s => s_transform K (g Y) s;
  i_batches := i_batches K; p_copy := p_copy K; i_copy := i_copy K; s_copy := s_copy K; i_n := i_n K; s_nf := s_nf K;
  p_label := p_label K; i_label := i_label K; s_label := s_label K |}.
(** A preparateur that returns a new array without handing its argument to code
    that may write to it, and one that writes at most to its argument. *)
Definition isolating (pmem : source (T := T) -> prepT K -> arr -> mem (T := T) arr) (p : prepT K) : Prop :=
  forall src x k, keeps k (pmem src p x) (fun a => k <= base a).
Definition confining (pmem : source (T := T) -> prepT K -> arr -> mem (T := T) arr) (p : prepT K) : Prop :=
  forall src x k, k <= base x -> keeps k (pmem src p x) (fun a => k <= base a).
(** Slices whose callbacks and user functions never see the caller's array. *)
Definition guarded pmem (hk : hooks T) (p : parts (prepT K) (issT K) (sieveT K)) : Prop :=
  t_i p <> [] /\
  match t_p p with
  | [] => on_preparation_end hk = []
  | q :: r => isolating pmem q /\ Forall (confining pmem) r
  end.
End S.
(** Callbacks, place by place. *)
Definition with_on_iterated_sum {T} (hk : hooks T) cbs : hooks T :=
  {| on_next_slice := on_next_slice hk; on_preparateur := on_preparateur hk; on_preparation_end := on_preparation_end hk;
     on_iterated_sum := cbs; on_sieve := on_sieve hk; on_sieving_end := on_sieving_end hk |}.
Definition with_on_sieving_end {T} (hk : hooks T) cbs : hooks T :=
  {| on_next_slice := on_next_slice hk; on_preparateur := on_preparateur hk; on_preparation_end := on_preparation_end hk;
     on_iterated_sum := on_iterated_sum hk; on_sieve := on_sieve hk; on_sieving_end := cbs |}.
