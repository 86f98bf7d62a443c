(** Iterating over a Fruit (fruit.py 266-277).  The position is an attribute of
    the fruit, [_iterator_index]; only [__iter__] and [__next__] touch it, so it
    is kept beside the heap of [M_Fruit]: [pos f] is [_iterator_index] + 1 of
    fruit [f]. *)
From Coq Require Import List Arith ZArith Bool.
From Verif Require Import Num Arr M_Str M_Np M_Prep M_Fruit S_Fruit.
Import ListNotations.

Section Iter.
Context {T : Type} `{Num T}.
Variable K : kit T.

Record ist := { i_heap : heap K; i_pos : nat -> nat }.
Definition set_pos (f n : nat) (s : ist) : ist :=
  {| i_heap := i_heap s; i_pos := fun g => if g =? f then n else i_pos s g |}.
(** A new fruit starts with -1 (fruit.py 59). *)
Definition ist0 (g : rng K) : ist := {| i_heap := heap0 K g; i_pos := fun _ => 0 |}.

(** fruit.py 266-268 [__iter__] *)
Definition fruit_iter (f : nat) (s : ist) : ist := set_pos f 0 s.
(** fruit.py 270-274 [__next__] *)
Definition fruit_next (f : nat) (s : ist) : res nat * ist :=
  match nth_error (h_fr K (i_heap s)) f with
  | None => (Err AttributeError, s)
  | Some x => if i_pos s f <? length (f_slices x)
              then (match nth_error (f_slices x) (i_pos s f) with Some sl => Ok sl | None => Err IndexError end,
                    set_pos f (S (i_pos s f)) s)
              else (Err StopIteration, s)
  end.
(** fruit.py 276-277 [__getitem__] *)
Definition fruit_getitem (f : nat) (index : int) : M K nat := fruit_get_slice K f (Some index).

(** A piece of a program: it may raise and changes the state. *)
Definition prog := ist -> res unit * ist.
Definition skip : prog := fun s => (Ok tt, s).
Definition andthen (a b : prog) : prog := fun s => match a s with (Ok _, s') => b s' | r => r end.
Definition call (o : op K) : prog := fun s => let (r, h) := exec K o (i_heap s) in (r, {| i_heap := h; i_pos := i_pos s |}).
(** [for slc in fruit: body]: [iter], then [next] before every round;
    StopIteration from [next] ends the loop, any exception of the body leaves
    it.  The slices seen, the outcome and the state; [None]: still running
    after [n] rounds. *)
Fixpoint rounds (f : nat) (body : nat -> prog) (n : nat) (s : ist) : option (list nat * res unit * ist) :=
  match n with
  | O => None
  | S n =>
      match fruit_next f s with
      | (Err StopIteration, s1) => Some ([], Ok tt, s1)
      | (Err e, s1) => Some ([], Err e, s1)
      | (Ok sl, s1) =>
          match body sl s1 with
          | (Err e, s2) => Some ([sl], Err e, s2)
          | (Ok _, s2) => match rounds f body n s2 with
                          | Some (l, r, s3) => Some (sl :: l, r, s3)
                          | None => None
                          end
          end
      end
  end.
Definition for_loop (f : nat) (body : nat -> prog) (n : nat) (s : ist) := rounds f body n (fruit_iter f s).
End Iter.
