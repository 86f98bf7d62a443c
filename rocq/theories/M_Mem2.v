(** [FruitSlice.transform] and [Fruit.transform] with numpy arrays as objects in
    memory (fruits/fruit.py 138-173, 442-454 and 498-553, fruits/iss/iss.py
    30-66): which arrays are allocated, which views the callbacks get, and where
    the features are written to.

    The seeds are those of a [kit] (M_Fruit); [pmem] runs [transform] of a
    preparateur as a program (M_Mem for the preparateurs of the library).
    An ISS allocates one array of shape (sums, series, length) per batch, an
    iterated sum is a view of one row of it.  The feature arrays (n, k) are
    blocks of shape (n, 1, k).
    Simplifications: the kernels of semirings and sieves only read their
    arguments and return new values; what a cache has stored is computed again
    from its input where it is needed (the same, as long as nobody writes to the
    input); the objects' own state (attached caches) is left to M_Fruit. *)
From Coq Require Import Ascii String List Arith ZArith Bool.
From Verif Require Import Num Arr M_Str M_Np M_Prep M_Fruit M_Mem.
Import ListNotations.

Section Mem2.
Context {T : Type} `{Num T}.
Notation mem := (mem (T := T)).
Notation "'do!' x := c 'in' k" := (seqm c (fun x => k)) (at level 200, x name, c at level 100, k at level 200).
Notation "c ;; k" := (seqm c (fun _ => k)) (at level 100, right associativity).

(** A loop that hands on a value. *)
Fixpoint fold_each {A S} (l : list A) (body : S -> A -> mem S) (s : S) : mem S :=
  match l with [] => ret s | x :: r => do! s' := body s x in fold_each r body s' end.

(** callback.py: what the given callbacks do at each of the six places, in the
    order of the list of callbacks. *)
Record hooks := { on_next_slice : list (mem unit); on_preparateur : list (arr -> mem unit);
  on_preparation_end : list (arr -> mem unit); on_iterated_sum : list (arr -> mem unit);
  on_sieve : list (arr -> mem unit); on_sieving_end : list (arr -> mem unit) }.
Definition call (cbs : list (arr -> mem unit)) (a : arr) : mem unit := for_each cbs (fun cb => cb a).

(** The objects of a slice (fruit.py 308-322): [_fitted], preparateurs, ISS,
    sieves, [_sieves_extended]. *)
Record parts (P I S : Type) := { t_fit : bool; t_p : list P; t_i : list I; t_s : list S; t_e : list (list S) }.
Arguments t_fit {P I S}. Arguments t_p {P I S}. Arguments t_i {P I S}. Arguments t_s {P I S}. Arguments t_e {P I S}.

Variable K : kit T.
Variable pmem : source (T := T) -> prepT K -> arr -> mem arr.
Variable hk : hooks.
(** The cache: a reference to the input (cache.py 74-82). *)
Variable src : source (T := T).

(** fruit.py 525-530 *)
Fixpoint preps_mem (ps : list (prepT K)) (x : arr) : mem arr :=
  match ps with
  | [] => ret x
  | p :: r => do! y := pmem src p x in call (on_preparateur hk) y ;; preps_mem r y
  end.
(** Row [j] of the array [r] as an array: [results[j]] *)
Definition row (r : arr) (j : nat) : arr := {| base := base r; rows := [nth j (rows r) 0] |}.
(** What [batch_transform] gets: the prepared data, or [itsum[:, np.newaxis, :]]. *)
Definition argument (top : bool) (x : arr) : mem (dataset T) :=
  do! Z := contents x in ret (if top then Z else map (fun r => [r]) (hd [] Z)).
(** fruit.py 442-454 [_iterate_iss] with the body of the loop that consumes the
    generator, iss.py 30-66: every batch reads the argument again and allocates
    an array for its results. *)
Fixpoint iterate_mem {S} (body : S -> arr -> mem S) (is : list (issT K)) (top : bool) (x : arr) (s : S) : mem S :=
  match is with
  | [] => body s x
  | i :: rest =>
      do! c := look src in
      do! X := argument top x in
      fold_each (seq 0 (length (i_batches K (i_attach K c i) X))) (fun s b =>
        do! c := look src in
        do! X := argument top x in
        do! Y := eval (nth b (i_batches K (i_attach K c i) X) (Err IndexError)) in
        do! r := new_array Y in
        fold_each (seq 0 (length Y)) (fun s j => iterate_mem body rest false (row r j) s) s) s
  end.
(** A feature array as a block, [feats[:, k:k+nf] = R], and the rows
    [feats[k:k+nf]]. *)
Definition block2 (A : mts T) : dataset T := map (fun r => [r]) A.
Definition unblock2 (A : dataset T) : mts T := map (hd []) A.
Definition set_columns (k nf : nat) (R : mts T) (A : dataset T) : res (dataset T) :=
  let! A' := set_cols k nf R (unblock2 A) in Ok (block2 A').
Definition row_range (a : arr) (k nf : nat) : arr :=
  {| base := base a; rows := py_slice (Some (Z.of_nat k)) (Some (Z.of_nat (k + nf))) (rows a) |}.
(** fruit.py 544-550: the sieves; [k] is the next column *)
Fixpoint sieves_mem (svs : list (sieveT K)) (itsum feats : arr) (k : nat) : mem nat :=
  match svs with
  | [] => ret k
  | s :: r =>
      do! c := look src in
      let nf := s_nf K (s_attach K c s) in
      do! Y := contents itsum in
      do! R := eval (fst (s_transform K (hd [] Y) (s_attach K c s))) in
      assign feats (set_columns k nf R) ;;
      call (on_sieve hk) (row_range feats k nf) ;;
      sieves_mem r itsum feats (k + nf)
  end.
(** fruit.py 541-543 *)
Definition sieves_at (svs : list (sieveT K)) (ext : list (list (sieveT K))) (i : nat) : res (list (sieveT K)) :=
  if nonempty ext then match nth_error ext i with Some l => Ok l | None => Err IndexError end else Ok svs.
(** fruit.py 538-550: the body of the loop *)
Definition itsum_mem svs ext (feats : arr) (ik : nat * nat) (itsum : arr) : mem (nat * nat) :=
  call (on_iterated_sum hk) itsum ;;
  do! l := eval (sieves_at svs ext (fst ik)) in
  do! k := sieves_mem l itsum feats (snd ik) in
  ret (S (fst ik), k).
Notation slice := (parts (prepT K) (issT K) (sieveT K)).
(** fruit.py 410-420 [nfeatures] *)
Definition parts_nfeatures (p : slice) : res nat :=
  let! ns := mapM (i_n K) (t_i p) in
  Ok (list_sum (map (s_nf K) (t_s p)) * fold_right Nat.mul 1 ns).
(** fruit.py 498-553 [FruitSlice.transform] *)
Definition slice_mem (p : slice) (x : arr) : mem arr :=
  if negb (t_fit p) then fail RuntimeError
  else
    do! y := preps_mem (t_p p) x in
    call (on_preparation_end hk) y ;;
    do! Y := contents y in
    do! nf := eval (parts_nfeatures p) in
    do! feats := new_array (block2 (repeat (repeat nzero nf) (length Y))) in
    do! _s := iterate_mem (itsum_mem (t_s p) (t_e p) feats) (t_i p) true y (0, 0) in
    call (on_sieving_end hk) feats ;;
    ret feats.
(** fruit.py 166-171: the loop of [Fruit.transform] *)
Fixpoint slices_mem (ps : list slice) (x result : arr) (index : nat) : mem unit :=
  match ps with
  | [] => ret tt
  | p :: r =>
      for_each (on_next_slice hk) (fun cb => cb) ;;
      do! k := eval (parts_nfeatures p) in
      do! f := slice_mem p x in
      do! F := contents f in
      assign result (set_columns index k (unblock2 F)) ;;
      slices_mem r x result (index + k)
  end.
End Mem2.
Arguments t_fit {P I S}. Arguments t_p {P I S}. Arguments t_i {P I S}. Arguments t_s {P I S}. Arguments t_e {P I S}.
Arguments hooks T : clear implicits.

Section Fruit.
Context {T : Type} `{Num T}.
Notation mem := (mem (T := T)).
Notation "'do!' x := c 'in' k" := (seqm c (fun x => k)) (at level 200, x name, c at level 100, k at level 200).
Notation "c ;; k" := (seqm c (fun _ => k)) (at level 100, right associativity).
(** fruit.py 138-173 [Fruit.transform] of a fitted fruit without a given cache;
    [np.nan_to_num(result, copy=False)] works in place. *)
Definition fruit_mem (K : kit T) pmem (hk : hooks T) (ps : list (parts (prepT K) (issT K) (sieveT K))) (x : arr) : mem arr :=
  do! X := contents x in
  do! ns := eval (mapM (parts_nfeatures K) ps) in
  do! result := new_array (block2 (repeat (repeat nzero (list_sum ns)) (length X))) in
  slices_mem K pmem hk (CRef x) ps x result 0 ;;
  assign result (fun A => Ok (block2 (nan_to_num (unblock2 A)))) ;;
  ret result.
End Fruit.
