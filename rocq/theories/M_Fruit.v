(** Model of fruits/fruit.py: FruitSlice and Fruit, with object identity.

    The seeds (preparateurs, ISS, sieves) are given by an arbitrary
    implementation [kit] of their common interface, so that the theorems hold
    for user-defined seeds as well; [M_Seeds.v] provides the seeds of the
    library.  Objects live in a heap and are referred to by numbers, so that
    sharing between slices, fruits and their copies is visible.  numpy.random's
    global state is the component [h_g].

    Simplifications: a SharedSeedCache is represented by the input it was
    created with (C31), so caches created without an input and handed to
    [fit]/[transform] are not covered; callbacks only record what they are
    given; [np.nan_to_num] is the operation [nfin] of the numbers; no float rounding in the
    index computations of [label]; the iterator methods are in M_FruitIter,
    [summary] in M_Summary. *)
From Coq Require Import Ascii String List Arith ZArith Bool.
From Verif Require Import Num Arr M_Str M_Np M_Prep.
Import ListNotations.

(** ** The interface of seeds (seed.py, preparation/abstract.py, iss/iss.py,
    sieving/abstract.py) *)
Record kit (T : Type) := {
  rng : Type;                                              (* state of numpy.random *)
  k_randint : rng -> nat -> nat * rng;                     (* randint(0, n), n > 0 *)
  k_choice : rng -> nat -> nat -> list nat * rng;          (* choice(n, size, replace=False), size <= n *)
  prepT : Type; issT : Type; sieveT : Type;
  (* [obj._cache = cache] *)
  p_attach : dataset T -> prepT -> prepT;
  i_attach : dataset T -> issT -> issT;
  s_attach : dataset T -> sieveT -> sieveT;
  (* [fit]: outcome, object afterwards, random state afterwards *)
  p_fit : rng -> dataset T -> prepT -> res unit * prepT * rng;
  i_fit : rng -> dataset T -> issT -> res unit * issT * rng;
  s_fit : rng -> mts T -> sieveT -> res unit * sieveT * rng;
  i_requires : issT -> bool;                               (* requires_fitting *)
  s_requires : sieveT -> bool;
  (* [transform]: outcome and object afterwards *)
  p_transform : dataset T -> prepT -> res (dataset T) * prepT;
  s_transform : mts T -> sieveT -> res (mts T) * sieveT;
  (* [batch_transform]: the batches in order; a batch that raises ends the generator *)
  i_batches : issT -> dataset T -> list (res (list (mts T)));
  p_copy : prepT -> res prepT; i_copy : issT -> res issT; s_copy : sieveT -> res sieveT;
  i_n : issT -> res nat;                                   (* n_iterated_sums() *)
  s_nf : sieveT -> nat;                                    (* nfeatures() *)
  p_label : prepT -> pystr; i_label : issT -> nat -> res pystr; s_label : sieveT -> nat -> res pystr
}.
Arguments rng {T}. Arguments k_randint {T}. Arguments k_choice {T}.
Arguments prepT {T}. Arguments issT {T}. Arguments sieveT {T}.
Arguments p_attach {T}. Arguments i_attach {T}. Arguments s_attach {T}.
Arguments p_fit {T}. Arguments i_fit {T}. Arguments s_fit {T}.
Arguments i_requires {T}. Arguments s_requires {T}. Arguments p_transform {T}. Arguments s_transform {T}.
Arguments i_batches {T}. Arguments p_copy {T}. Arguments i_copy {T}. Arguments s_copy {T}.
Arguments i_n {T}. Arguments s_nf {T}. Arguments p_label {T}. Arguments i_label {T}. Arguments s_label {T}.

(** [fit_sample_size]: the int 1, or anything else, for which
    [SFrac f] gives f n = int(fit_sample_size * n). *)
Inductive sample := SOne | SFrac (f : nat -> nat).
(** fruit.py 308-322: a FruitSlice; seeds are references. *)
Record slice := { sl_p : list nat; sl_i : list nat; sl_s : list nat; sl_ext : list (list nat);
                  sl_fitted : bool; sl_sample : sample }.
Definition slice_new : slice :=
  {| sl_p := []; sl_i := []; sl_s := []; sl_ext := []; sl_fitted := false; sl_sample := SOne |}.
(** fruit.py 52-59: a Fruit. *)
Record fruit := { f_name : pystr; f_slices : list nat; f_idx : nat; f_fitted : bool }.
Definition fruit_new (name : pystr) : fruit := {| f_name := name; f_slices := []; f_idx := 0; f_fitted := false |}.

(** What a callback is called with (callback.py). *)
Inductive event (T : Type) :=
| ENextSlice | EPrep (X : dataset T) | EPrepEnd (X : dataset T)
| EItsum (Y : mts T) | ESieve (A : mts T) | ESieveEnd (A : mts T).
Arguments ENextSlice {T}. Arguments EPrep {T} X. Arguments EPrepEnd {T} X.
Arguments EItsum {T} Y. Arguments ESieve {T} A. Arguments ESieveEnd {T} A.

Section Fruit.
Context {T : Type} `{Num T}.
Variable K : kit T.

Record heap := { h_p : list (prepT K); h_i : list (issT K); h_s : list (sieveT K);
                 h_sl : list slice; h_fr : list fruit; h_g : rng K;
                 h_log : list (nat * event T) (* newest first *) }.
Definition heap0 (g : rng K) : heap :=
  {| h_p := []; h_i := []; h_s := []; h_sl := []; h_fr := []; h_g := g; h_log := [] |}.

(** ** Computations with exceptions; the heap survives an exception *)
Definition M (A : Type) := heap -> res A * heap.
Definition ret {A} (a : A) : M A := fun h => (Ok a, h).
Definition raise {A} (e : exn) : M A := fun h => (Err e, h).
Definition bindM {A B} (m : M A) (f : A -> M B) : M B :=
  fun h => match m h with (Ok a, h') => f a h' | (Err e, h') => (Err e, h') end.
Definition liftR {A} (r : res A) : M A := fun h => (r, h).
Notation "x <- m ;; k" := (bindM m (fun x => k)) (at level 100, m at next level, right associativity).
Notation "m ;;; k" := (bindM m (fun _ => k)) (at level 100, right associativity).
(** Reference to an object that does not exist: cannot happen in Python;
    AttributeError here. *)
Definition look {A} (sel : heap -> list A) (i : nat) : M A :=
  fun h => match nth_error (sel h) i with Some a => (Ok a, h) | None => (Err AttributeError, h) end.

Definition set_p (i : nat) (v : prepT K) : M unit := fun h =>
  (Ok tt, {| h_p := upd i v (h_p h); h_i := h_i h; h_s := h_s h; h_sl := h_sl h; h_fr := h_fr h; h_g := h_g h; h_log := h_log h |}).
Definition set_i (i : nat) (v : issT K) : M unit := fun h =>
  (Ok tt, {| h_p := h_p h; h_i := upd i v (h_i h); h_s := h_s h; h_sl := h_sl h; h_fr := h_fr h; h_g := h_g h; h_log := h_log h |}).
Definition set_s (i : nat) (v : sieveT K) : M unit := fun h =>
  (Ok tt, {| h_p := h_p h; h_i := h_i h; h_s := upd i v (h_s h); h_sl := h_sl h; h_fr := h_fr h; h_g := h_g h; h_log := h_log h |}).
Definition set_sl (i : nat) (v : slice) : M unit := fun h =>
  (Ok tt, {| h_p := h_p h; h_i := h_i h; h_s := h_s h; h_sl := upd i v (h_sl h); h_fr := h_fr h; h_g := h_g h; h_log := h_log h |}).
Definition set_fr (i : nat) (v : fruit) : M unit := fun h =>
  (Ok tt, {| h_p := h_p h; h_i := h_i h; h_s := h_s h; h_sl := h_sl h; h_fr := upd i v (h_fr h); h_g := h_g h; h_log := h_log h |}).
Definition set_g (g : rng K) : M unit := fun h =>
  (Ok tt, {| h_p := h_p h; h_i := h_i h; h_s := h_s h; h_sl := h_sl h; h_fr := h_fr h; h_g := g; h_log := h_log h |}).
Definition get_g : M (rng K) := fun h => (Ok (h_g h), h).
(** Object creation. *)
Definition new_p (v : prepT K) : M nat := fun h =>
  (Ok (length (h_p h)), {| h_p := h_p h ++ [v]; h_i := h_i h; h_s := h_s h; h_sl := h_sl h; h_fr := h_fr h; h_g := h_g h; h_log := h_log h |}).
Definition new_i (v : issT K) : M nat := fun h =>
  (Ok (length (h_i h)), {| h_p := h_p h; h_i := h_i h ++ [v]; h_s := h_s h; h_sl := h_sl h; h_fr := h_fr h; h_g := h_g h; h_log := h_log h |}).
Definition new_s (v : sieveT K) : M nat := fun h =>
  (Ok (length (h_s h)), {| h_p := h_p h; h_i := h_i h; h_s := h_s h ++ [v]; h_sl := h_sl h; h_fr := h_fr h; h_g := h_g h; h_log := h_log h |}).
Definition new_sl (v : slice) : M nat := fun h =>
  (Ok (length (h_sl h)), {| h_p := h_p h; h_i := h_i h; h_s := h_s h; h_sl := h_sl h ++ [v]; h_fr := h_fr h; h_g := h_g h; h_log := h_log h |}).
Definition new_fr (v : fruit) : M nat := fun h =>
  (Ok (length (h_fr h)), {| h_p := h_p h; h_i := h_i h; h_s := h_s h; h_sl := h_sl h; h_fr := h_fr h ++ [v]; h_g := h_g h; h_log := h_log h |}).
(** [for callback in callbacks: callback.on_...(...)] for [cbs] callbacks. *)
Definition emit (cbs : nat) (e : event T) : M unit := fun h =>
  (Ok tt, {| h_p := h_p h; h_i := h_i h; h_s := h_s h; h_sl := h_sl h; h_fr := h_fr h; h_g := h_g h;
             h_log := rev (map (fun c => (c, e)) (seq 0 cbs)) ++ h_log h |}).

(** [for x in l: body] *)
Fixpoint forM {A} (l : list A) (body : A -> M unit) : M unit :=
  match l with [] => ret tt | x :: r => body x ;;; forM r body end.
(** [[body for x in l]] *)
Fixpoint collect {A B} (l : list A) (body : A -> M B) : M (list B) :=
  match l with [] => ret [] | x :: r => y <- body x ;; ys <- collect r body ;; ret (y :: ys) end.

(** ** FruitSlice: structure *)
Definition upd_sl (i : nat) (f : slice -> slice) : M unit := s <- look h_sl i ;; set_sl i (f s).
Definition with_p (l : list nat) (s : slice) : slice :=
  {| sl_p := l; sl_i := sl_i s; sl_s := sl_s s; sl_ext := sl_ext s; sl_fitted := false; sl_sample := sl_sample s |}.
Definition with_i (l : list nat) (s : slice) : slice :=
  {| sl_p := sl_p s; sl_i := l; sl_s := sl_s s; sl_ext := sl_ext s; sl_fitted := false; sl_sample := sl_sample s |}.
Definition with_s (l : list nat) (s : slice) : slice :=
  {| sl_p := sl_p s; sl_i := sl_i s; sl_s := l; sl_ext := sl_ext s; sl_fitted := false; sl_sample := sl_sample s |}.
Definition with_ext (l : list (list nat)) (s : slice) : slice :=
  {| sl_p := sl_p s; sl_i := sl_i s; sl_s := sl_s s; sl_ext := l; sl_fitted := sl_fitted s; sl_sample := sl_sample s |}.
Definition with_fitted (b : bool) (s : slice) : slice :=
  {| sl_p := sl_p s; sl_i := sl_i s; sl_s := sl_s s; sl_ext := sl_ext s; sl_fitted := b; sl_sample := sl_sample s |}.
Definition with_sample (x : sample) (s : slice) : slice :=
  {| sl_p := sl_p s; sl_i := sl_i s; sl_s := sl_s s; sl_ext := sl_ext s; sl_fitted := sl_fitted s; sl_sample := x |}.
(** fruit.py 324-329, 340-345, 357-362: the three add methods. *)
Definition add_p (sl id : nat) : M unit := upd_sl sl (fun s => with_p (sl_p s ++ [id]) s).
Definition add_i (sl id : nat) : M unit := upd_sl sl (fun s => with_i (sl_i s ++ [id]) s).
Definition add_s (sl id : nat) : M unit := upd_sl sl (fun s => with_s (sl_s s ++ [id]) s).
(** fruit.py 335-338, 351-355, 368-372: the clear methods. *)
Definition clear_p (sl : nat) : M unit := upd_sl sl (with_p []).
Definition clear_i (sl : nat) : M unit := upd_sl sl (fun s => with_ext [] (with_i [] s)).
Definition clear_s (sl : nat) : M unit := upd_sl sl (fun s => with_ext [] (with_s [] s)).
(** fruit.py 397-408 (the attribute iss_mode is never read) *)
Definition clear (sl : nat) : M unit := clear_p sl ;;; clear_i sl ;;; clear_s sl ;;; upd_sl sl (with_sample SOne).
(** The arguments of [add]: an object, a class (with the object or exception
    its constructor without arguments gives), anything else. *)
Inductive arg :=
| ArgP (id : nat) | ArgI (id : nat) | ArgS (id : nat)
| ClsP (r : res (prepT K)) | ClsI (r : res (issT K)) | ClsS (r : res (sieveT K))
| ArgOther.
(** fruit.py 374-395 [add] (an object reference always exists in Python, hence the lookups) *)
Definition add1 (sl : nat) (a : arg) : M unit :=
  match a with
  | ArgP id => look h_p id ;;; add_p sl id | ArgI id => look h_i id ;;; add_i sl id | ArgS id => look h_s id ;;; add_s sl id
  | ClsP r => v <- liftR r ;; id <- new_p v ;; add_p sl id
  | ClsI r => v <- liftR r ;; id <- new_i v ;; add_i sl id
  | ClsS r => v <- liftR r ;; id <- new_s v ;; add_s sl id
  | ArgOther => raise TypeError
  end.
Definition slice_add (sl : nat) (objects : list arg) : M unit := forM objects (add1 sl).

(** fruit.py 416-420 [niteratedsums]; 410-414 [nfeatures] *)
Definition niteratedsums (sl : nat) : M nat :=
  s <- look h_sl sl ;;
  ns <- collect (sl_i s) (fun i => o <- look h_i i ;; liftR (i_n K o)) ;;
  ret (fold_right Nat.mul 1 ns).
Definition sum_nf (ids : list nat) : M nat :=
  ns <- collect ids (fun i => o <- look h_s i ;; ret (s_nf K o)) ;; ret (list_sum ns).
Definition slice_nfeatures (sl : nat) : M nat :=
  s <- look h_sl sl ;; a <- sum_nf (sl_s s) ;; n <- niteratedsums sl ;; ret (a * n).

(** ** FruitSlice: fit *)
(** fruit.py 430-438 [_select_fit_sample]: the indices of the chosen series. *)
Definition select_sample (size : sample) (n : nat) : M (list nat) :=
  g <- get_g ;;
  match size with
  | SOne => if n =? 0 then raise ValueError
            else let (i, g') := k_randint K g n in set_g g' ;;; ret [i]
  | SFrac f => let s := Nat.max (f n) 1 in
               if n <? s then raise ValueError
               else let (l, g') := k_choice K g n s in set_g g' ;;; ret l
  end.
(** fruit.py 473-477: the preparateurs *)
Fixpoint fit_preps (c : dataset T) (ids : list nat) (Y : dataset T) : M (dataset T) :=
  match ids with
  | [] => ret Y
  | id :: r =>
      p <- look h_p id ;; g <- get_g ;;
      let '(x, p1, g') := p_fit K g Y (p_attach K c p) in
      set_p id p1 ;;; set_g g' ;;; liftR x ;;;
      let (y, p2) := p_transform K Y p1 in
      set_p id p2 ;;; Z <- liftR y ;; fit_preps c r Z
  end.
(** fruit.py 479-482: one ISS *)
Definition fit_iss (c : dataset T) (Y : dataset T) (id : nat) : M unit :=
  i <- look h_i id ;; g <- get_g ;;
  let i0 := i_attach K c i in
  if i_requires K i0
  then let '(x, i1, g') := i_fit K g Y i0 in set_i id i1 ;;; set_g g' ;;; liftR x
  else set_i id i0.
(** fruit.py 440-454 [_iterate_iss]: the iterated sums in the order in which
    they are yielded; the generator ends with the first exception (the
    consumers below stop there). *)
Fixpoint iterate_iss (is : list (issT K)) (X : dataset T) : list (res (mts T)) :=
  match is with
  | [] => [Ok (map (fun x => nth 0 x []) X)]
  | i :: rest =>
      flat_map (fun b => match b with
                         | Err e => [Err e]
                         | Ok itsums => flat_map (fun s => iterate_iss rest (map (fun row => [row]) s)) itsums
                         end) (i_batches K i X)
  end.
(** fruit.py 490-495: one pass of the loop. *)
Definition fit_sieve (c : dataset T) (Y : mts T) (id : nat) : M unit :=
  s <- look h_s id ;; g <- get_g ;;
  let '(x, s1, g') := s_fit K g Y (s_attach K c s) in set_s id s1 ;;; set_g g' ;;; liftR x.
Definition copy_sieve (id : nat) : M nat := s <- look h_s id ;; s' <- liftR (s_copy K s) ;; new_s s'.
Fixpoint fit_ext (c : dataset T) (sl : nat) (sieves : list nat) (its : list (res (mts T))) : M unit :=
  match its with
  | [] => ret tt
  | Err e :: _ => raise e
  | Ok Y :: r =>
      ids <- collect sieves copy_sieve ;;
      forM ids (fit_sieve c Y) ;;;
      upd_sl sl (fun s => with_ext (sl_ext s ++ [ids]) s) ;;;
      fit_ext c sl sieves r
  end.
Definition nonempty {A} (l : list A) : bool := match l with [] => false | _ => true end.
(** fruit.py 456-496 [fit]; 422-428 [_compile] *)
Definition slice_fit (sl : nat) (X : dataset T) (cache : option (dataset T)) : M unit :=
  s <- look h_sl sl ;;
  if negb (nonempty (sl_i s)) then raise RuntimeError
  else if negb (nonempty (sl_s s)) then raise RuntimeError
  else
    let c := match cache with Some c => c | None => X end in
    idx <- select_sample (sl_sample s) (length X) ;;
    Y <- fit_preps c (sl_p s) (map (fun i => nth i X []) idx) ;;
    forM (sl_i s) (fit_iss c Y) ;;;
    svs <- collect (sl_s s) (look h_s) ;;
    if negb (existsb (s_requires K) svs) then upd_sl sl (with_fitted true)
    else
      upd_sl sl (with_ext []) ;;;
      is <- collect (sl_i s) (look h_i) ;;
      fit_ext c sl (sl_s s) (iterate_iss is Y) ;;;
      upd_sl sl (with_fitted true).

(** ** FruitSlice: transform *)
(** [A[:, k:k+nf] = R] *)
Definition set_cols (k nf : nat) (R A : mts T) : res (mts T) :=
  let put R' := map2M (fun r row => py_set_slice (Some (Z.of_nat k)) (Some (Z.of_nat (k + nf))) r row) R' A in
  if length R =? length A then put R
  else match R with [r] => put (repeat r (length A)) | _ => Err ValueError end.
(** fruit.py 525-530: the preparateurs *)
Fixpoint run_preps (c : dataset T) (cbs : nat) (ids : list nat) (Y : dataset T) : M (dataset T) :=
  match ids with
  | [] => ret Y
  | id :: r =>
      p <- look h_p id ;;
      let (y, p1) := p_transform K Y (p_attach K c p) in
      set_p id p1 ;;; Z <- liftR y ;;
      emit cbs (EPrep Z) ;;; run_preps c cbs r Z
  end.
(** fruit.py 544-550: the sieves on one iterated sum; k is the next column. *)
Fixpoint run_sieves (c : dataset T) (cbs : nat) (ids : list nat) (Y : mts T) (kA : nat * mts T) : M (nat * mts T) :=
  match ids with
  | [] => ret kA
  | id :: r =>
      s <- look h_s id ;;
      let s0 := s_attach K c s in
      let (k, A) := kA in
      let nf := s_nf K s0 in
      let (y, s1) := s_transform K Y s0 in
      set_s id s1 ;;; R <- liftR y ;; A' <- liftR (set_cols k nf R A) ;;
      emit cbs (ESieve (py_slice (Some (Z.of_nat k)) (Some (Z.of_nat (k + nf))) A')) ;;;
      run_sieves c cbs r Y (k + nf, A')
  end.
(** fruit.py 537-550: the loop over the iterated sums *)
Fixpoint run_itsums (c : dataset T) (cbs : nat) (s : slice) (i : nat) (its : list (res (mts T)))
    (kA : nat * mts T) : M (nat * mts T) :=
  match its with
  | [] => ret kA
  | Err e :: _ => raise e
  | Ok Y :: r =>
      emit cbs (EItsum Y) ;;;
      ids <- (if nonempty (sl_ext s)
              then match nth_error (sl_ext s) i with Some l => ret l | None => raise IndexError end
              else ret (sl_s s)) ;;
      kA' <- run_sieves c cbs ids Y kA ;;
      run_itsums c cbs s (S i) r kA'
  end.
(** fruit.py 498-553 [transform] *)
Definition slice_transform (sl : nat) (X : dataset T) (cbs : nat) (cache : option (dataset T)) : M (mts T) :=
  s <- look h_sl sl ;;
  if negb (sl_fitted s) then raise RuntimeError
  else
    let c := match cache with Some c => c | None => X end in
    Y <- run_preps c cbs (sl_p s) X ;;
    emit cbs (EPrepEnd Y) ;;;
    nf <- slice_nfeatures sl ;;
    forM (sl_i s) (fun id => i <- look h_i id ;; set_i id (i_attach K c i)) ;;;
    is <- collect (sl_i s) (look h_i) ;;
    kA <- run_itsums c cbs s 0 (iterate_iss is Y) (0, repeat (repeat nzero nf) (length Y)) ;;
    emit cbs (ESieveEnd (snd kA)) ;;;
    ret (snd kA).
(** fruit.py 555-560 [fit_transform] *)
Definition slice_fit_transform (sl : nat) (X : dataset T) : M (mts T) :=
  slice_fit sl X None ;;; slice_transform sl X 0 None.

(** ** FruitSlice: copies *)
(** fruit.py 598-609 [copy]: the seeds are shared, fit_sample_size is not taken over. *)
Definition slice_copy (sl : nat) : M nat :=
  s <- look h_sl sl ;;
  new <- new_sl slice_new ;;
  slice_add new (map ArgP (sl_p s)) ;;; slice_add new (map ArgI (sl_i s)) ;;; slice_add new (map ArgS (sl_s s)) ;;;
  ret new.
(** fruit.py 611-623 [deepcopy] *)
Definition slice_deepcopy (sl : nat) : M nat :=
  s <- look h_sl sl ;;
  new <- new_sl slice_new ;;
  forM (sl_p s) (fun id => p <- look h_p id ;; p' <- liftR (p_copy K p) ;; n <- new_p p' ;; add_p new n) ;;;
  forM (sl_i s) (fun id => i <- look h_i id ;; i' <- liftR (i_copy K i) ;; n <- new_i i' ;; add_i new n) ;;;
  forM (sl_s s) (fun id => v <- look h_s id ;; v' <- liftR (s_copy K v) ;; n <- new_s v' ;; add_s new n) ;;;
  upd_sl new (with_sample (sl_sample s)) ;;;
  ret new.

(** ** Fruit *)
Definition upd_fr (i : nat) (f : fruit -> fruit) : M unit := x <- look h_fr i ;; set_fr i (f x).
Definition fr_cut (sl : nat) (f : fruit) : fruit :=
  {| f_name := f_name f; f_slices := f_slices f ++ [sl]; f_idx := length (f_slices f); f_fitted := false |}.
Definition fr_fitted (b : bool) (f : fruit) : fruit :=
  {| f_name := f_name f; f_slices := f_slices f; f_idx := f_idx f; f_fitted := b |}.
Definition fr_index (i : nat) (f : fruit) : fruit :=
  {| f_name := f_name f; f_slices := f_slices f; f_idx := i; f_fitted := f_fitted f |}.
(** fruit.py 61-73 [cut] *)
Definition fruit_cut (f : nat) (sl : option nat) : M unit :=
  id <- (match sl with Some id => look h_sl id ;;; ret id | None => new_sl slice_new end) ;; upd_fr f (fr_cut id).
(** fruit.py 82-88 [get_slice]; lists are indexed as in Python *)
Definition fruit_get_slice (f : nat) (index : option int) : M nat :=
  x <- look h_fr f ;;
  match index with
  | None => match nth_error (f_slices x) (f_idx x) with Some id => ret id | None => raise IndexError end
  | Some z => i <- liftR (py_index (length (f_slices x)) z) ;;
              match nth_error (f_slices x) i with Some id => ret id | None => raise IndexError end
  end.
(** fruit.py 75-80 [copycut] *)
Definition fruit_copycut (f : nat) : M unit :=
  s <- fruit_get_slice f None ;; d <- slice_deepcopy s ;; fruit_cut f (Some d).
(** fruit.py 90-98 [switch_slice] *)
Definition fruit_switch (f : nat) (z : int) : M unit :=
  x <- look h_fr f ;;
  if (0 <=? z)%Z && (z <? Z.of_nat (length (f_slices x)))%Z then set_fr f (fr_index (Z.to_nat z) x) else raise IndexError.
(** fruit.py 100-115 [add] *)
Definition fruit_add (f : nat) (objects : list arg) : M unit :=
  x <- look h_fr f ;;
  (if nonempty (f_slices x) then ret tt else fruit_cut f None) ;;;
  s <- fruit_get_slice f None ;;
  slice_add s objects ;;;
  upd_fr f (fr_fitted false).
(** fruit.py 117-119 [nfeatures] *)
Definition fruit_nfeatures (f : nat) : M nat :=
  x <- look h_fr f ;; ns <- collect (f_slices x) slice_nfeatures ;; ret (list_sum ns).
(** fruit.py 121-136 [fit] *)
Definition fruit_fit (f : nat) (X : dataset T) (cache : option (dataset T)) : M unit :=
  x <- look h_fr f ;;
  let c := match cache with Some c => c | None => X end in
  forM (f_slices x) (fun sl => slice_fit sl X (Some c)) ;;;
  upd_fr f (fr_fitted true).
(** fruit.py 138-173 [transform] *)
Fixpoint run_slices (c X : dataset T) (cbs : nat) (ids : list nat) (index : nat) (A : mts T) : M (mts T) :=
  match ids with
  | [] => ret A
  | sl :: r =>
      emit cbs ENextSlice ;;;
      k <- slice_nfeatures sl ;;
      R <- slice_transform sl X cbs (Some c) ;;
      A' <- liftR (set_cols index k R A) ;;
      run_slices c X cbs r (index + k) A'
  end.
(** fruit.py 172: NaN becomes 0, infinities become the largest numbers. *)
Definition nan_to_num (A : mts T) : mts T := map (map nfin) A.
Definition fruit_transform (f : nat) (X : dataset T) (cbs : nat) (cache : option (dataset T)) : M (mts T) :=
  x <- look h_fr f ;;
  if negb (f_fitted x) then raise RuntimeError
  else
    let c := match cache with Some c => c | None => X end in
    n <- fruit_nfeatures f ;;
    A <- run_slices c X cbs (f_slices x) 0 (repeat (repeat nzero n) (length X)) ;;
    ret (nan_to_num A).
(** fruit.py 175-184 [fit_transform] *)
Definition fruit_fit_transform (f : nat) (X : dataset T) (cbs : nat) : M (mts T) :=
  fruit_fit f X None ;;; fruit_transform f X cbs None.
(** fruit.py 215-220 [copy], 222-227 [deepcopy] *)
Definition fruit_copy (f : nat) : M nat :=
  x <- look h_fr f ;;
  new <- new_fr (fruit_new (f_name x ++ str " (Copy)")) ;;
  forM (f_slices x) (fun sl => s <- slice_copy sl ;; fruit_cut new (Some s)) ;;;
  ret new.
Definition fruit_deepcopy (f : nat) : M nat :=
  x <- look h_fr f ;;
  new <- new_fr (fruit_new (f_name x ++ str " (Deepcopy)")) ;;
  forM (f_slices x) (fun sl => s <- slice_deepcopy sl ;; fruit_cut new (Some s)) ;;;
  ret new.

(** ** Labels *)
Inductive level := LvPrepared | LvSums | LvFeatures.
(** [s.split(sep)[0]] *)
Fixpoint before (sep s : pystr) : pystr :=
  match s with
  | [] => []
  | c :: r => if startswith s sep then [] else c :: before sep r
  end.
Definition short (verbose1 : bool) (sep s : pystr) : pystr := if verbose1 then before sep s else s.
Definition drop4 (s : pystr) : pystr := firstn (length s - 4) s.          (* string[:-4] *)
Definition or_input (s : pystr) : pystr := match s with [] => str "input" | _ => drop4 s end.
(** fruit.py 667-676: the ISS part; n is the current n_i *)
Fixpoint label_iss (v1 : bool) (ids : list nat) (index n : nat) : M pystr :=
  match ids with
  | [] => ret []
  | id :: r =>
      i <- look h_i id ;;
      m <- liftR (i_n K i) ;;
      if (n =? 0) || (m =? 0) then raise ZeroDivisionError else
      l <- liftR (i_label K i ((index mod n) / (n / m))) ;;
      rest <- label_iss v1 r index (n / m) ;;
      ret (short v1 (str " : ") l ++ str " -> " ++ rest)
  end.
(** fruit.py 681-686: the sieve part *)
Fixpoint label_sieves (ids : list nat) (findex : nat) : M pystr :=
  match ids with
  | [] => raise RuntimeError
  | id :: r => s <- look h_s id ;;
               if findex <? s_nf K s then liftR (s_label K s findex) else label_sieves r (findex - s_nf K s)
  end.
Definition label_preps (v1 : bool) (ids : list nat) : M pystr :=
  ls <- collect ids (fun id => p <- look h_p id ;; ret (short v1 (str "(") (p_label K p) ++ str " -> ")) ;;
  ret (concat ls).
(** fruit.py 625-686 [label] *)
Definition slice_label (sl : nat) (index : nat) (lv : level) (v1 : bool) : M pystr :=
  s <- look h_sl sl ;;
  match lv with
  | LvPrepared =>
      if length (sl_p s) <=? index then raise IndexError
      else p <- label_preps v1 (firstn (index + 1) (sl_p s)) ;; ret (or_input p)
  | _ =>
      p <- label_preps v1 (sl_p s) ;;
      let pre := match p with [] => [] | _ => drop4 p ++ str " | " end in
      tot <- sum_nf (sl_s s) ;;
      let '(idx, findex) := match lv with LvFeatures => (index / tot, index mod tot) | _ => (index, 0) end in
      if (match lv with LvFeatures => tot =? 0 | _ => false end) then raise ZeroDivisionError else
      n <- niteratedsums sl ;;
      its <- label_iss v1 (sl_i s) idx n ;;
      let st := pre ++ its in
      match lv with
      | LvFeatures => f <- label_sieves (sl_s s) findex ;;
                      ret ((match st with [] => [] | _ => drop4 st ++ str " | " end) ++ f)
      | _ => ret (or_input st)
      end
  end.
(** fruit.py 229-261 [label] *)
Fixpoint fruit_label_from (ids : list nat) (index : nat) (lv : level) (v1 : bool) : M pystr :=
  match ids with
  | [] => raise IndexError
  | sl :: r =>
      total <- (match lv with
                | LvPrepared => s <- look h_sl sl ;; ret (length (sl_p s))
                | LvSums => niteratedsums sl
                | LvFeatures => slice_nfeatures sl
                end) ;;
      if index <? total then slice_label sl index lv v1 else fruit_label_from r (index - total) lv v1
  end.
Definition fruit_label (f : nat) (index : int) (lv : level) (v1 : bool) : M pystr :=
  x <- look h_fr f ;;
  if (index <? 0)%Z then raise RuntimeError else fruit_label_from (f_slices x) (Z.to_nat index) lv v1.
End Fruit.
