(** Vocabulary for C89 and C90: arrays in memory. *)
From Coq Require Import List Arith Bool.
From Verif Require Import Num Arr M_Str M_Np M_Prep M_PrepObj M_Mem.
Import ListNotations.

Section S.
Context {T : Type}.
(** An array of shape (n, d, l). *)
Definition box (X : dataset T) (n d l : nat) : Prop :=
  length X = n /\ Forall (fun x => length x = d /\ Forall (fun r => length r = l) x) X.
(** [a] refers to existing rows of an existing block, each row once. *)
Definition valid (m : memory (T := T)) (a : arr) : Prop :=
  base a < length m /\ NoDup (rows a) /\ Forall (fun i => i < length (nth (base a) m [])) (rows a).
(** Everything that existed in [m] is unchanged in [m'], where more arrays may
    have been allocated. *)
Definition untouched (m m' : memory (T := T)) : Prop := exists allocated, m' = m ++ allocated.
(** Running [c] in [m] does what the function of M_PrepObj says - it returns an
    array with the contents [Y], or raises the same exception - and changes
    nothing that existed before. *)
Definition computes (c : mem arr) (m : memory) (r : res (dataset T)) : Prop :=
  let (x, m') := c m in untouched m m' /\
  match x, r with
  | Ok a, Ok Y => valid m' a /\ load m' a = Y
  | Err e, Err e' => e = e'
  | _, _ => False
  end.
(** The result, if there is one, is an array that did not exist before: it shares
    no memory with any array that did. *)
Definition returns_new_array (c : mem arr) (m : memory (T := T)) : Prop :=
  match c m with (Ok a, _) => length m <= base a | (Err _, _) => True end.

(** Functions passed to FUN, and callbacks.  [ufun g] is a Python function that
    computes [g]; as a program it gets the array itself.
    - It only reads: it returns an array with the contents [g] says (possibly
      its argument) and changes nothing. *)
Definition reads_only (ufun : (dataset T -> res (dataset T)) -> arr -> mem arr) : Prop :=
  forall g x m, valid m x -> computes (ufun g x) m (g (load m x)).
Definition observes (cb : arr -> mem (T := T) unit) : Prop :=
  forall a m, fst (cb a m) = Ok tt /\ untouched m (snd (cb a m)).
(** - It writes at most to the array it is given: the blocks of other arrays,
      here those before [k], keep their contents; what it returns is the array it
      was given or a new one. *)
Definition keeps {A} (k : nat) (c : mem (T := T) A) (Q : A -> Prop) : Prop :=
  forall m, k <= length m -> let (r, m') := c m in
  k <= length m' /\ firstn k m' = firstn k m /\ match r with Ok a => Q a | Err _ => True end.
Definition confined (ufun : (dataset T -> res (dataset T)) -> arr -> mem arr) : Prop :=
  forall g x k, k <= base x -> keeps k (ufun g x) (fun a => k <= base a).
Definition confined_callback (cb : arr -> mem (T := T) unit) : Prop :=
  forall a k, k <= base a -> keeps k (cb a) (fun _ => True).
(** The memory that existed before [c] is as it was, whether [c] raises or not. *)
Definition leaves_unchanged {A} (c : mem (T := T) A) (m : memory) : Prop := firstn (length m) (snd (c m)) = m.

(** Preparateurs whose result is a new array. *)
Definition allocates (p : prep T) : bool :=
  match p with
  | PLeaf (LINC c) _ => 1 <=? inc_depth c
  | PLeaf (LFUN _) _ => false
  | _ => true
  end.
(** Preparateurs that pass the array they are given on to no user function
    (DIM passes a copy). *)
Fixpoint no_user_code (p : prep T) : bool :=
  match p with
  | PLeaf (LFUN _) _ => false
  | PLeaf _ _ => true
  | PDim _ _ _ => true
  | PNew0 _ => true
  | PNew q _ => no_user_code q
  end.
Section Pipeline.
Context `{Num T}.
Variable parse : pystr -> res T.
Variable powf : T -> T -> T.
(** What the preparation stage computes, without memory: every preparateur with
    the cache of the input [I]. *)
Fixpoint prepared (I : dataset T) (ps : list (prep T)) (X : dataset T) : res (dataset T) :=
  match ps with
  | [] => Ok X
  | p :: r => let! Y := fst (pr_transform parse powf (pr_set_cache p (Some I)) X) in prepared I r Y
  end.
(** All arrays on the way are rectangular (numpy has no others). *)
Fixpoint rectangular (I : dataset T) (ps : list (prep T)) (X : dataset T) : Prop :=
  (exists n d l, box X n d l) /\
  match ps with
  | [] => True
  | p :: r => forall Y, fst (pr_transform parse powf (pr_set_cache p (Some I)) X) = Ok Y -> rectangular I r Y
  end.
End Pipeline.
End S.
