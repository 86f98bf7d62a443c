(** Specification vocabulary for sieves, independent of the model (except for
    the data type [xnum] of possibly infinite bin edges and the argument types
    of the sieves). *)
From Coq Require Import Ascii String List Arith ZArith Bool Reals Permutation Sorting.
From Verif Require Import S_ISS S_Prep M_Str M_Sieve.
Import ListNotations.
Open Scope R_scope.

(** [X] is an array of n series of length l; x_i(t). *)
Definition has_shape2 (X : list (list R)) (n l : nat) : Prop :=
  length X = n /\ Forall (fun r => length r = l) X.
Definition entry2 (X : list (list R)) (i t : nat) : R := nth t (nth i X []) 0.

(** lo < v <= hi. *)
Definition bin (lo hi : xnum R) (v : R) : bool :=
  (match lo with NInf => true | Fin a => if Rlt_dec a v then true else false | PInf => false end)
  && (match hi with NInf => false | Fin b => if Rle_dec v b then true else false | PInf => true end).
(** The times t in [a, b) with P (f t), in increasing order. *)
Definition times_in (P : R -> bool) (f : nat -> R) (a b : nat) : list nat :=
  filter (fun t => P (f t)) (seq a (b - a)).

(** Order of bin edges. *)
Definition xle (x y : xnum R) : Prop :=
  match x, y with NInf, _ => True | _, PInf => True | Fin a, Fin b => a <= b | _, _ => False end.
Definition edges_sorted (e : list (xnum R)) : Prop := StronglySorted xle e.

(** L is the length of the longest run of consecutive times in [a, b)
    satisfying P. *)
Definition is_longest_run (P : nat -> bool) (a b L : nat) : Prop :=
  (exists s, (a <= s)%nat /\ (s + L <= Nat.max a b)%nat /\ forall t, (s <= t < s + L)%nat -> P t = true) /\
  (forall s K, (a <= s)%nat -> (s + K <= b)%nat -> (forall t, (s <= t < s + K)%nat -> P t = true) -> (K <= L)%nat).

(** Second order increments (zero padded). *)
Definition second_diff (f : nat -> R) : nat -> R := diff 1 (diff 1 f).
(** What an increment sieve with parameter inc looks at. *)
Definition running_sum (f : nat -> R) (t : nat) : R := Rsum_upto f (S t).
Definition inc_view (inc : Z) (f : nat -> R) : nat -> R :=
  if (0 <? inc)%Z then iterate (Z.to_nat inc) (diff 1) f
  else if (inc <? 0)%Z then iterate (Z.to_nat (- inc)) running_sum f
  else f.

(** Feature of f on the segment [a, b) and the bin (lo, hi]. *)
Definition feature (k : seg_kind) (f : nat -> R) (a b : nat) (lo hi : xnum R) (v : R) : Prop :=
  match k with
  | KNPI i => v = INR (length (times_in (bin lo hi) (inc_view i f) a b))
  | KMPI i => let T := times_in (bin lo hi) (inc_view i f) a b in
              (T = [] -> v = 0) /\ (T <> [] -> v = Rsum (map (inc_view i f) T) / INR (length T))
  | KXPI i => let T := times_in (bin lo hi) (inc_view i f) a b in
              (T = [] -> v = 0) /\ (T <> [] -> v = Rsum (map (fun t => INR (t - a)) T) / INR (length T))
  | KLPI i => exists L, v = INR L /\ is_longest_run (fun t => bin lo hi (inc_view i f t)) a b L
  | KCUR | KAVG | KSTD =>
      v = Rsum (map (fun t => second_diff f t * second_diff f t) (times_in (bin lo hi) (second_diff f) a b))
  | KMAX => (a = b -> v = 0) /\
            (a <> b -> In v (map f (times_in (bin lo hi) f a b)) /\
                       forall t, In t (times_in (bin lo hi) f a b) -> f t <= v)
  | KMIN => (a = b -> v = 0) /\
            (a <> b -> In v (map f (times_in (bin lo hi) f a b)) /\
                       forall t, In t (times_in (bin lo hi) f a b) -> v <= f t)
  | KEND => False
  end.

(** ** Cuts *)
Definition norm_fn (norm : pystr) (v : R) : R := if eqs norm (str "L1") then Rabs v else v * v.
(** The position a cut stands for in the series f of length l: an integer
    counts from the front or (negative) from behind; a float q stands for the
    number of leading time steps whose variation is at most q times the total
    variation. *)
Definition cut_stands_for (parse : pystr -> res R) (norm : pystr) (f : nat -> R) (l : nat) (c : cut_arg) (p : nat) : Prop :=
  match c with
  | CutI z => Z.of_nat p = if (0 <=? z)%Z then z else (Z.of_nat l + z + 1)%Z
  | CutF r => (p <= l)%nat /\ exists q, parse r = Ok q /\
      forall t, (t < l)%nat ->
        ((t < p)%nat <-> variation (norm_fn norm) f t <= q * variation (norm_fn norm) f (l - 1))
  end.
(** Cuts the theorems cover: integers between -(l+1) and l; floats whose text
    has no colon and is understood by float(). *)
Definition good_cut (parse : pystr -> res R) (l : nat) (c : cut_arg) : Prop :=
  match c with
  | CutI z => (- Z.of_nat l - 1 <= z <= Z.of_nat l)%Z
  | CutF r => ~ In ":"%char r /\ exists q, parse r = Ok q
  end.
Definition good_norm (norm : pystr) : Prop := norm = str "L1" \/ norm = str "L2".
(** The sorted list of segment borders of the series f, starting with 0. *)
Definition borders (parse : pystr -> res R) (norm : pystr) (f : nat -> R) (l : nat) (cut : list cut_arg) (cs : list nat) : Prop :=
  StronglySorted le cs /\ (forall p, In p cs -> (p <= l)%nat) /\
  exists ps, Permutation cs (0%nat :: ps) /\ Forall2 (cut_stands_for parse norm f l) cut ps.

(** Number of maximal runs of consecutive true values among b 0, ..., b (n-1)
    that do not start at time 0. *)
Definition starts_run (b : nat -> bool) (t : nat) : bool :=
  match t with O => false | S u => negb (b u) && b t end.
Definition later_runs (b : nat -> bool) (n : nat) : nat := length (filter (starts_run b) (seq 0 n)).
(** Number of all maximal runs. *)
Definition all_runs (b : nat -> bool) (n : nat) : nat :=
  length (filter (fun t => b t && match t with O => true | S u => negb (b u) end) (seq 0 n)).

(** ** Which bin edges a transform uses *)
(** The edge an entry of q that is not a probability stands for. *)
Definition plain_edge (q : q_arg) : xnum R := match q with QNeg => NInf | QZero => Fin 0 | _ => PInf end.
Definition asks_quantile (q : list q_arg) : Prop := exists a b, In (QProb a b) q.
(** [e] are the edges used by a sieve with argument [q] and fitted edges [st]:
    the fitted ones if a quantile is asked for, else -inf, 0, inf in the order
    given. *)
Definition edges_of (q : list q_arg) (st : option (list (xnum R))) (e : list (xnum R)) : Prop :=
  (asks_quantile q -> st = Some e) /\ (~ asks_quantile q -> e = map plain_edge q).
(** The series whose variation places the float cuts: the first dimension of
    the cache input, or the argument itself when there is no cache. *)
Definition cut_series (ca : option (list (list (list R)))) (X : list (list R)) (i : nat) : nat -> R :=
  match ca with Some inp => fun t => nth t (nth 0 (nth i inp []) []) 0 | None => entry2 X i end.
Definition cache_fits (ca : option (list (list (list R)))) (n l : nat) : Prop :=
  match ca with None => True | Some inp => exists d, has_shape inp n d l /\ (1 <= d)%nat end.

(** ** Quantiles *)
(** [v] is the a/b-quantile of the data (linear interpolation between the order
    statistics): with s the sorted data, n its length and a (n-1) = k b + r,
    v = s_k + r/b (s_{k+1} - s_k). *)
Definition is_quantile (a b : nat) (data : list R) (v : R) : Prop :=
  exists s k r, Permutation s data /\ StronglySorted Rle s /\
    (a * (length data - 1) = k * b + r)%nat /\ (r < b)%nat /\
    v = nth k s 0 + INR r / INR b * (nth (Nat.min (S k) (length data - 1)) s 0 - nth k s 0).
(** [e] is the bin edge the entry q of a sieve stands for on the given data. *)
Definition is_edge (data : list R) (q : q_arg) (e : xnum R) : Prop :=
  match q with
  | QNeg => e = NInf | QZero => e = Fin 0 | QOne => e = PInf
  | QProb a b => exists v, e = Fin v /\ is_quantile a b data v
  end.
Definition all_values (X : list (list R)) : list R := concat X.
