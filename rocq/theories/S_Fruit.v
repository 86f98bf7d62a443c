(** Specification vocabulary for fruit.py (C25-C29, C33, C34, C60): histories
    of API calls, what is expected of seeds, and what the features of a slice
    are.  Nothing here refers to the way [M_Fruit] computes; only the seeds'
    own methods (the [kit]) and the attributes of slices and fruits are used. *)
From Coq Require Import Ascii String List Arith ZArith Bool RelationClasses.
From Verif Require Import Num Arr M_Str M_Np M_Fruit.
Import ListNotations.

Section Spec.
Context {T : Type} `{Num T}.
Variable K : kit T.
Notation heap := (heap K).

(** ** Histories *)
(** A call of the public API.  Calls on seeds directly are included: seeds are
    objects the user can also use outside of the slices they were added to. *)
Inductive op :=
| ONewPrep (v : prepT K) | ONewIss (v : issT K) | ONewSieve (v : sieveT K)
| ONewSlice | ONewFruit (name : pystr)
| OPrepFit (id : nat) (X : dataset T) | OPrepTransform (id : nat) (X : dataset T)
| OIssFit (id : nat) (X : dataset T)
| OSieveFit (id : nat) (Y : mts T) | OSieveTransform (id : nat) (Y : mts T)
| OSampleSize (sl : nat) (x : sample)
| OAdd (sl : nat) (objects : list (arg K))
| OClearPreps (sl : nat) | OClearIss (sl : nat) | OClearSieves (sl : nat) | OClear (sl : nat)
| OFit (sl : nat) (X : dataset T) (cache : option (dataset T))
| OTransform (sl : nat) (X : dataset T) (cbs : nat) (cache : option (dataset T))
| OFitTransform (sl : nat) (X : dataset T)
| OCopy (sl : nat) | ODeepcopy (sl : nat)
| FCut (f : nat) (sl : option nat) | FCopycut (f : nat) | FSwitch (f : nat) (z : int)
| FAdd (f : nat) (objects : list (arg K))
| FFit (f : nat) (X : dataset T) (cache : option (dataset T))
| FTransform (f : nat) (X : dataset T) (cbs : nat) (cache : option (dataset T))
| FFitTransform (f : nat) (X : dataset T) (cbs : nat)
| FCopy (f : nat) | FDeepcopy (f : nat).

Definition void {A} (m : M K A) : M K unit := fun h => match m h with (Ok _, h') => (Ok tt, h') | (Err e, h') => (Err e, h') end.
Definition exec (o : op) : M K unit :=
  match o with
  | ONewPrep v => void (new_p K v) | ONewIss v => void (new_i K v) | ONewSieve v => void (new_s K v)
  | ONewSlice => void (new_sl K slice_new) | ONewFruit n => void (new_fr K (fruit_new n))
  | OPrepFit id X => bindM K (look K (h_p K) id) (fun p => bindM K (get_g K) (fun g =>
      let '(x, p', g') := p_fit K g X p in
      bindM K (set_p K id p') (fun _ => bindM K (set_g K g') (fun _ => liftR K x))))
  | OPrepTransform id X => bindM K (look K (h_p K) id) (fun p =>
      let (x, p') := p_transform K X p in bindM K (set_p K id p') (fun _ => void (liftR K x)))
  | OIssFit id X => bindM K (look K (h_i K) id) (fun i => bindM K (get_g K) (fun g =>
      let '(x, i', g') := i_fit K g X i in
      bindM K (set_i K id i') (fun _ => bindM K (set_g K g') (fun _ => liftR K x))))
  | OSieveFit id Y => bindM K (look K (h_s K) id) (fun s => bindM K (get_g K) (fun g =>
      let '(x, s', g') := s_fit K g Y s in
      bindM K (set_s K id s') (fun _ => bindM K (set_g K g') (fun _ => liftR K x))))
  | OSieveTransform id Y => bindM K (look K (h_s K) id) (fun s =>
      let (x, s') := s_transform K Y s in bindM K (set_s K id s') (fun _ => void (liftR K x)))
  | OSampleSize sl x => upd_sl K sl (with_sample x)
  | OAdd sl objects => slice_add K sl objects
  | OClearPreps sl => clear_p K sl | OClearIss sl => clear_i K sl | OClearSieves sl => clear_s K sl
  | OClear sl => clear K sl
  | OFit sl X c => slice_fit K sl X c
  | OTransform sl X cbs c => void (slice_transform K sl X cbs c)
  | OFitTransform sl X => void (slice_fit_transform K sl X)
  | OCopy sl => void (slice_copy K sl) | ODeepcopy sl => void (slice_deepcopy K sl)
  | FCut f sl => fruit_cut K f sl | FCopycut f => fruit_copycut K f | FSwitch f z => fruit_switch K f z
  | FAdd f objects => fruit_add K f objects
  | FFit f X c => fruit_fit K f X c
  | FTransform f X cbs c => void (fruit_transform K f X cbs c)
  | FFitTransform f X cbs => void (fruit_fit_transform K f X cbs)
  | FCopy f => void (fruit_copy K f) | FDeepcopy f => void (fruit_deepcopy K f)
  end.
(** The state after a history; exceptions are caught by the caller and the
    history goes on. *)
Definition run (h : heap) (ops : list op) : heap := fold_left (fun h o => snd (exec o h)) ops h.
Definition reachable (h : heap) : Prop := exists g ops, h = run (heap0 K g) ops.

(** ** What is expected of seeds *)
(** [eqP], [eqI], [eqS]: seeds with the same configuration and the same fitted
    state, which may differ in the attached cache.  A [transform] that returns
    leaves the seed in the same state (up to the cache), and its result is a
    function of the state, the cache and the argument.  Counts and labels do
    not depend on fitting. *)
Record lawful := {
  eqP : prepT K -> prepT K -> Prop; eqI : issT K -> issT K -> Prop; eqS : sieveT K -> sieveT K -> Prop;
  eqP_equiv : Equivalence eqP; eqI_equiv : Equivalence eqI; eqS_equiv : Equivalence eqS;
  eqP_attach : forall c p, eqP (p_attach K c p) p;
  eqI_attach : forall c i, eqI (i_attach K c i) i;
  eqS_attach : forall c s, eqS (s_attach K c s) s;
  eqP_transform : forall c X p q, eqP p q ->
    fst (p_transform K X (p_attach K c p)) = fst (p_transform K X (p_attach K c q));
  eqS_transform : forall c Y s t, eqS s t ->
    fst (s_transform K Y (s_attach K c s)) = fst (s_transform K Y (s_attach K c t));
  eqI_batches : forall c X i j, eqI i j -> i_batches K (i_attach K c i) X = i_batches K (i_attach K c j) X;
  p_transform_keeps : forall X p Z, fst (p_transform K X p) = Ok Z -> eqP (snd (p_transform K X p)) p;
  s_transform_keeps : forall Y s R, fst (s_transform K Y s) = Ok R -> eqS (snd (s_transform K Y s)) s;
  eqI_n : forall i j, eqI i j -> i_n K i = i_n K j;
  eqS_nf : forall s t, eqS s t -> s_nf K s = s_nf K t;
  eqS_requires : forall s t, eqS s t -> s_requires K s = s_requires K t;
  eqI_label : forall i j k, eqI i j -> i_label K i k = i_label K j k;
  eqP_label : forall p q, eqP p q -> p_label K p = p_label K q;
  eqS_label : forall s t, eqS s t -> s_label K s = s_label K t;
  i_fit_n : forall g X i, i_n K (snd (fst (i_fit K g X i))) = i_n K i;
  s_fit_nf : forall g Y s, s_nf K (snd (fst (s_fit K g Y s))) = s_nf K s;
  s_fit_requires : forall g Y s, s_requires K (snd (fst (s_fit K g Y s))) = s_requires K s;
  s_transform_nf : forall Y s, s_nf K (snd (s_transform K Y s)) = s_nf K s;
  s_transform_requires : forall Y s, s_requires K (snd (s_transform K Y s)) = s_requires K s;
  s_copy_nf : forall s s', s_copy K s = Ok s' -> s_nf K s' = s_nf K s;
  s_copy_requires : forall s s', s_copy K s = Ok s' -> s_requires K s' = s_requires K s;
  s_fit_label : forall g Y s, s_label K (snd (fst (s_fit K g Y s))) = s_label K s;
  s_transform_label : forall Y s, s_label K (snd (s_transform K Y s)) = s_label K s;
  s_copy_label : forall s s', s_copy K s = Ok s' -> s_label K s' = s_label K s
}.

(** Sieves return one row per series with [nfeatures()] columns, provided the
    cache belongs to the series: it was made from as many series. *)
Definition sieve_shaped (s : sieveT K) : Prop :=
  forall c Y R, length c = length Y -> fst (s_transform K Y (s_attach K c s)) = Ok R ->
  length R = length Y /\ forall row, In row R -> length row = s_nf K s.
(** Preparateurs keep the number of series (with a cache of as many series). *)
Definition prep_rows (p : prepT K) : Prop :=
  forall c X Z, length c = length X -> fst (p_transform K X (p_attach K c p)) = Ok Z -> length Z = length X.
(** An ISS (with its cache, made from as many series, attached) yields exactly
    [n_iterated_sums()] iterated sums, each with one row per series. *)
Definition sums_of (i : issT K) (X : dataset T) (L : list (mts T)) : Prop :=
  exists bs, i_batches K i X = map Ok bs /\ L = concat bs.
Definition iss_counts (m : nat) (i : issT K) : Prop :=
  forall X L n, length X = m -> sums_of i X L -> i_n K i = Ok n ->
  length L = n /\ forall Y, In Y L -> length Y = length X.
Definition iss_exact (i : issT K) : Prop := forall c, iss_counts (length c) (i_attach K c i).

(** A cache handed to [transform] was made from as many series as are
    transformed. *)
Definition cache_rows (cache : option (dataset T)) (X : dataset T) : Prop :=
  match cache with Some c => length c = length X | None => True end.

(** ** The features of a slice *)
(** The preparateurs applied one after the other. *)
Fixpoint prepared (c : dataset T) (ps : list (prepT K)) (X Y : dataset T) : Prop :=
  match ps with
  | [] => Y = X
  | p :: r => exists Z, fst (p_transform K X (p_attach K c p)) = Ok Z /\ prepared c r Z Y
  end.
(** The outputs of the preparateurs applied one after the other. *)
Fixpoint stages (c : dataset T) (ps : list (prepT K)) (X : dataset T) (Zs : list (dataset T)) : Prop :=
  match ps, Zs with
  | [], [] => True
  | p :: ps', Z :: Zs' => fst (p_transform K X (p_attach K c p)) = Ok Z /\ stages c ps' Z Zs'
  | _, _ => False
  end.
(** The iterated sum numbered js = [j_1; ...; j_m]: the j_1-th iterated sum of
    the first ISS, of which the j_2-th iterated sum of the second ISS is
    taken, and so on. *)
Fixpoint itsum (is : list (issT K)) (js : list nat) (X : dataset T) (Y : mts T) : Prop :=
  match is, js with
  | [], [] => Y = map (fun x => nth 0 x []) X
  | i :: is', j :: js' => exists L Z, sums_of i X L /\ nth_error L j = Some Z /\
                                      itsum is' js' (map (fun row => [row]) Z) Y
  | _, _ => False
  end.
(** Position of js in the order of the nested loops: mixed radix notation. *)
Fixpoint radix (ns js : list nat) : nat :=
  match ns, js with _ :: ns', j :: js' => j * fold_right Nat.mul 1 ns' + radix ns' js' | _, _ => 0 end.
Definition column (M : mts T) (k : nat) : list T := map (fun row => nth k row nzero) M.

(** Objects behind references. *)
Definition objs {A} (l : list A) (ids : list nat) (os : list A) : Prop :=
  Forall2 (fun id o => nth_error l id = Some o) ids os.
(** The sieves used for the k-th iterated sum. *)
Definition sieves_for (s : slice) (k : nat) : list nat :=
  match sl_ext s with [] => sl_s s | e => nth k e [] end.

(** What the slice consists of: what its get methods return. *)
Definition structure (h : heap) (sl : nat) : option (list nat * list nat * list nat) :=
  option_map (fun s => (sl_p s, sl_i s, sl_s s)) (nth_error (h_sl K h) sl).

(** All seeds of a slice, including its fitted sieves, have the shapes above. *)
Definition shaped (h : heap) (s : slice) : Prop :=
  (forall id p, In id (sl_p s) -> nth_error (h_p K h) id = Some p -> prep_rows p) /\
  (forall id i, In id (sl_i s) -> nth_error (h_i K h) id = Some i -> iss_exact i) /\
  (forall id v, In id (sl_s s) \/ In id (concat (sl_ext s)) -> nth_error (h_s K h) id = Some v -> sieve_shaped v).

(** ** Fits and structural changes of a history *)
(** The currently selected slice of a fruit. *)
Definition selected (h : heap) (f : nat) : option nat :=
  match nth_error (h_fr K h) f with Some x => nth_error (f_slices x) (f_idx x) | None => None end.
(** [o], performed in state [h], adds something to or clears slice [sl]. *)
Definition changes (h : heap) (o : op) (sl : nat) : Prop :=
  match o with
  | OAdd s _ | OClearPreps s | OClearIss s | OClearSieves s | OClear s => s = sl
  | FAdd f _ => selected h f = Some sl
  | _ => False
  end.
(** [o], performed in state [h], really changes slice [sl]: a clear, or an add
    whose first argument is accepted (further arguments may raise). *)
Definition modifies (h : heap) (o : op) (sl : nat) : Prop :=
  match o with
  | OAdd s (a :: _) => s = sl /\ fst (add1 K sl a h) = Ok tt
  | OClearPreps s | OClearIss s | OClearSieves s | OClear s => s = sl /\ nth_error (h_sl K h) sl <> None
  | FAdd f (a :: _) => selected h f = Some sl /\ fst (add1 K sl a h) = Ok tt
  | _ => False
  end.
(** [o] returns from adding to or cutting fruit [f]. *)
Definition fruit_modifies (h : heap) (o : op) (f : nat) : Prop :=
  match o with
  | FCut f' sl => f' = f /\ fst (fruit_cut K f sl h) = Ok tt
  | FCopycut f' => f' = f /\ fst (fruit_copycut K f h) = Ok tt
  | FAdd f' objects => f' = f /\ fst (fruit_add K f objects h) = Ok tt
  | _ => False
  end.
(** [o], performed in state [h], fits slice [sl] without an exception (of the
    fit of this slice or of the slices fitted before it). *)
Definition fits_all (X c : dataset T) (sls : list nat) (h : heap) : Prop :=
  fst (forM K sls (fun sl => slice_fit K sl X (Some c)) h) = Ok tt.
Definition fits (h : heap) (o : op) (sl : nat) : Prop :=
  let via f X c := exists x before after, nth_error (h_fr K h) f = Some x /\ f_slices x = before ++ sl :: after /\
                                          fits_all X c (before ++ [sl]) h in
  match o with
  | OFit s X c => s = sl /\ fst (slice_fit K sl X c h) = Ok tt
  | OFitTransform s X => s = sl /\ fst (slice_fit K sl X None h) = Ok tt
  | FFit f X c => via f X (match c with Some c => c | None => X end)
  | FFitTransform f X _ => via f X X
  | _ => False
  end.
(** [o] adds to or cuts fruit [f]; [o] fits fruit [f]. *)
Definition fruit_changes (o : op) (f : nat) : Prop :=
  match o with FCut f' _ | FCopycut f' | FAdd f' _ => f' = f | _ => False end.
Definition fruit_fits (h : heap) (o : op) (f : nat) : Prop :=
  match o with
  | FFit f' X c => f' = f /\ fst (fruit_fit K f X c h) = Ok tt
  | FFitTransform f' X _ => f' = f /\ fst (fruit_fit K f X None h) = Ok tt
  | _ => False
  end.
End Spec.
Arguments op {T} K.
