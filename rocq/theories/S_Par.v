(** Specification of "whatever the schedule". *)
From Coq Require Import List Arith.
From Verif Require Import Num M_Par.
Import ListNotations.

(** Every execution of the iterations [ps] on an array with contents [m] ends
    (there is no infinite execution), never gets stuck before all iterations
    are finished, and leaves contents with [post]. *)
Definition every_schedule {V} (m : mem V) (ps : list (prog V)) (post : mem V -> Prop) : Prop :=
  Acc (fun c' c => step c c') (m, ps) /\
  (forall m' ps', steps (m, ps) (m', ps') -> finished ps' \/ exists c, step (m', ps') c) /\
  (forall m' ps', steps (m, ps) (m', ps') -> finished ps' -> post m').

(** The sequential loop. *)
Fixpoint exec {V} (p : prog V) (m : mem V) : mem V :=
  match p with Halt => m | Wr a v r => exec r (store m a v) | Rd a k => exec (k (m a)) m end.
Definition in_order {V} (ps : list (prog V)) (m : mem V) : mem V := fold_left (fun m p => exec p m) ps m.

(** [np.zeros(shape)], and "the array reads as A" (zero outside of A). *)
Definition zero_mem {T} `{Num T} : mem T := fun _ => nzero.
Definition reads1 {V} (z : V) (A : list V) (m : mem V) : Prop := forall i, m [i] = nth i A z.
Definition reads2 {T} `{Num T} (A : list (list T)) (m : mem T) : Prop :=
  forall i j, m [i; j] = nth j (nth i A []) nzero.
Definition reads3 {T} `{Num T} (A : list (list (list T))) (m : mem T) : Prop :=
  forall i j k, m [i; j; k] = nth k (nth j (nth i A []) []) nzero.

(** An array of shape (n, d, l). *)
Definition array3 {T} (X : list (list (list T))) (n d l : nat) : Prop :=
  length X = n /\ forall x, In x X -> length x = d /\ forall r, In r x -> length r = l.
