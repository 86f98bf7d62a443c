(** Specification vocabulary for preparateurs, independent of the model. *)
From Coq Require Import List Arith ZArith Bool Reals.
From Verif Require Import Arr S_ISS.
Import ListNotations.
Open Scope R_scope.

(** The array [X] has shape (n, d, l). *)
Definition has_shape (X : list (list (list R))) (n d l : nat) : Prop :=
  length X = n /\ Forall (fun x => length x = d /\ Forall (fun r => length r = l) x) X.
(** X[i, j, :] and X[i, j, t]. *)
Definition row (X : list (list (list R))) (i j : nat) : list R := nth j (nth i X []) [].
Definition entry (X : list (list (list R))) (i j t : nat) : R := nth t (row X i j) 0.

(** [f] applied [m] times. *)
Fixpoint iterate {A} (m : nat) (f : A -> A) (x : A) : A :=
  match m with O => x | S k => f (iterate k f x) end.

(** Sum of [f a], ..., [f (b-1)]. *)
Fixpoint Rsum_upto (f : nat -> R) (n : nat) : R :=
  match n with O => 0 | S m => Rsum_upto f m + f m end.
Definition Rsum_range (f : nat -> R) (a b : nat) : R := Rsum_upto (fun i => f (a + i)%nat) (b - a).
(** Arithmetic mean and (population) variance of the first n values. *)
Definition mean_of (f : nat -> R) (n : nat) : R := Rsum_upto f n / INR n.
Definition var_of (f : nat -> R) (n : nat) : R :=
  Rsum_upto (fun t => (f t - mean_of f n) * (f t - mean_of f n)) n / INR n.

(** Increments with lag s, zero padded. *)
Definition diff (s : nat) (f : nat -> R) (t : nat) : R :=
  if (t <? s)%nat then 0 else f t - f (t - s)%nat.
(** s-strided cumulative sum: f t + f (t-s) + f (t-2s) + ... *)
Definition strided_sum (s : nat) (f : nat -> R) (t : nat) : R :=
  Rsum_upto (fun k => f (t - k * s)%nat) (S (t / s)).

(** Shift by s to the left, last value repeated. *)
Definition shifted (s l : nat) (f : nat -> R) (t : nat) : R :=
  if (t + s <? l)%nat then f (t + s)%nat else f (l - 1)%nat.
(** Mean of the last w values, 0 before time w-1. *)
Definition moving_avg (w : nat) (f : nat -> R) (t : nat) : R :=
  if (w <=? S t)%nat then Rsum_range f (S t - w) (S t) / INR w else 0.
(** [m] is the minimum of f 0 .. f (n-1). *)
Definition min_on (f : nat -> R) (n : nat) (m : R) : Prop :=
  (exists t, (t < n)%nat /\ f t = m) /\ (forall t, (t < n)%nat -> m <= f t).
(** [m] is the maximum of f 0 .. f (n-1). *)
Definition max_on (f : nat -> R) (n : nat) (m : R) : Prop :=
  (exists t, (t < n)%nat /\ f t = m) /\ (forall t, (t < n)%nat -> f t <= m).
(** Minimum and maximum over two indices. *)
Definition min_on2 (f : nat -> nat -> R) (d n : nat) (m : R) : Prop :=
  (exists j t, (j < d)%nat /\ (t < n)%nat /\ f j t = m) /\
  (forall j t, (j < d)%nat -> (t < n)%nat -> m <= f j t).
Definition max_on2 (f : nat -> nat -> R) (d n : nat) (m : R) : Prop :=
  (exists j t, (j < d)%nat /\ (t < n)%nat /\ f j t = m) /\
  (forall j t, (j < d)%nat -> (t < n)%nat -> f j t <= m).
(** Affine map sending m to 0 and M to 1 (everything to 0 if m = M). *)
Definition rescale (m M : R) (v : R) : R := if Req_EM_T m M then 0 else (v - m) / (M - m).
Definition nondecreasing_on (f : nat -> R) (n : nat) : Prop :=
  forall s t, (s <= t)%nat -> (t < n)%nat -> f s <= f t.
(** Sum of p(x_{u+1} - x_u) over u < t. *)
Definition variation (p : R -> R) (x : nat -> R) (t : nat) : R :=
  Rsum_upto (fun u => p (x (S u) - x u)) t.
(** Time t lies in the strip (start, length). *)
Definition in_strip (p : nat * nat) (t : nat) : bool := (fst p <=? t)%nat && (t <? fst p + snd p)%nat.
(** Strips that start at or after a, stay inside [0, l) and do not overlap. *)
Fixpoint disjoint_strips (a : nat) (ps : list (nat * nat)) (l : nat) : Prop :=
  match ps with
  | [] => True
  | p :: r => (a <= fst p)%nat /\ (1 <= snd p)%nat /\ (fst p + snd p <= l)%nat /\ disjoint_strips (fst p + snd p) r l
  end.
(** What a lookup [r] obtained from the time transform [f] must satisfy. *)
Definition lookup_of (f : nat -> R) (l : nat) (scale : R) (r : list R) : Prop :=
  length r = l /\
  (0 <= scale -> forall t, (t < l)%nat -> 0 <= nth t r 0 <= scale) /\
  (0 <= scale -> nondecreasing_on f l -> nondecreasing_on (fun t => nth t r 0) l) /\
  (0 <= scale -> nondecreasing_on (fun t => - f t) l -> nondecreasing_on (fun t => - nth t r 0) l) /\
  ((exists s t, (s < l)%nat /\ (t < l)%nat /\ f s <> f t) ->
     (exists t, (t < l)%nat /\ nth t r 0 = 0) /\ (exists t, (t < l)%nat /\ nth t r 0 = scale)) /\
  (forall s t, (s < l)%nat -> (t < l)%nat -> f s = f t -> nth s r 0 = nth t r 0) /\
  (forall m M t, min_on f l m -> max_on f l M -> (t < l)%nat -> nth t r 0 = rescale m M (f t) * scale).
(** What becomes of it if the time transform is an integer array: the
    normalised values are truncated, which leaves [scale] where [f] has its
    maximum and 0 everywhere else. *)
Definition integer_lookup_of (f : nat -> R) (l : nat) (scale : R) (r : list R) : Prop :=
  length r = l /\
  forall m M t, min_on f l m -> max_on f l M -> (t < l)%nat ->
    (m <> M -> f t = M -> nth t r 0 = scale) /\ (m = M \/ f t <> M -> nth t r 0 = 0).
(** The function given by the user returns a float for [v] (or none is given). *)
Definition floats_at (tr : option (R -> pynum R)) (v : R) : Prop :=
  match tr with None => True | Some f => match f v with PyFloat _ => True | PyInt _ => False end end.
(** It returns an int. *)
Definition ints_at (tr : option (R -> pynum R)) (v : R) : Prop :=
  match tr with None => False | Some f => match f v with PyFloat _ => False | PyInt _ => True end end.
(** Time transform of Indices: 1, ..., l, divided by l if relative. *)
Definition index_arg (relative : bool) (l t : nat) : R := if relative then INR (S t) / INR l else INR (S t).
Definition apply_tr (tr : option (R -> pynum R)) (v : R) : R :=
  match tr with None => v | Some f => match f v with PyFloat x => x | PyInt z => IZR z end end.
Definition index_fn (relative : bool) (tr : option (R -> pynum R)) (l t : nat) : R := apply_tr tr (index_arg relative l t).
(** Time transform of L1/L2 with variation f. *)
Definition lp_arg (relative : bool) (eps : R) (l : nat) (f : nat -> R) (t : nat) : R :=
  if relative then f t / (f (l - 1)%nat + eps) else f t.
Definition lp_fn (relative : bool) (eps : R) (tr : option (R -> pynum R)) (l : nat) (f : nat -> R) (t : nat) : R :=
  apply_tr tr (lp_arg relative eps l f t).
(** Step function with n steps of the given width. *)
Definition plateau (n step t : nat) : R :=
  if (step =? 0)%nat then 1 else INR (Nat.min (t / step) (n - 1)) / INR (n - 1).
(** Documented random increment over a group g of kernels. *)
Definition rin_value (w : nat) kernel (dims g : list nat) (f : nat -> nat -> R) (t : nat) : R :=
  Rsum (map (fun j => f j t - Rsum_upto (fun a => nth a (nth j kernel []) 0 * f (nth j dims 0%nat) (t - w + a)%nat) w) g).

(** FFN: the value of output unit [o] of a two layer ReLU network on the input
    vector (x 0, ..., x (d-1)); [hid] hidden units. *)
Definition two_layer (relu_out : bool) (W1 : list (list R)) (b : list R) (W2 : list (list R))
    (d hid : nat) (x : nat -> R) (o : nat) : R :=
  let v := Rsum_upto (fun h => nth h (nth o W2 []) 0
             * Rmax 0 (Rsum_upto (fun e => nth e (nth h W1 []) 0 * x e) d + nth h b 0)) hid in
  if relu_out then Rmax 0 v else v.
(** RDW: the size of dimension [f] (series i, time t) in the training set. *)
Definition size_is (f : nat -> nat -> R) (n l : nat) (a : R) : Prop :=
  max_on (fun t => mean_of (fun i => Rabs (f i t)) n) l a.
