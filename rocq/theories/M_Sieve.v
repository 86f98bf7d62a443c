(** Model of fruits/sieving/ (segment.py, increment.py, implicit.py,
    wrapper.py) and of the parts of seed.py the wrappers use.

    The input of a sieve is a list of series (shape (n, l)); the result a list
    of feature rows.  numba's prange loops write disjoint entries and are
    sequentialised. *)
From Coq Require Import Ascii String List Arith ZArith Bool.
From Verif Require Import Num Arr M_Str M_Np M_Prep M_Cache.
Import ListNotations.

(** ** Extended numbers: bin edges may be infinite (segment.py 69-72 and 79-83) *)
Inductive xnum (T : Type) := NInf | Fin (v : T) | PInf.
Arguments NInf {T}. Arguments Fin {T} v. Arguments PInf {T}.

Section Sieve.
Context {T : Type} `{Num T}.
Variable parse : pystr -> res T.        (* float(), see M_Cache.v *)

(** [q < x] and [x <= q] for an edge q, and the order np.sort uses. *)
Definition xlt (q : xnum T) (x : T) : bool :=
  match q with NInf => true | Fin v => nltb v x | PInf => false end.
Definition xge (q : xnum T) (x : T) : bool :=
  match q with NInf => false | Fin v => nleb x v | PInf => true end.
Definition xleb (a b : xnum T) : bool :=
  match a, b with
  | NInf, _ => true | _, PInf => true
  | Fin v, Fin w => nleb v w
  | _, _ => false
  end.
Fixpoint xinsert (x : xnum T) (l : list (xnum T)) : list (xnum T) :=
  match l with [] => [x] | y :: r => if xleb x y then x :: l else y :: xinsert x r end.
Definition xsort (l : list (xnum T)) : list (xnum T) := fold_right xinsert [] l.
Fixpoint zinsert (x : Z) (l : list Z) : list Z :=
  match l with [] => [x] | y :: r => if (x <=? y)%Z then x :: l else y :: zinsert x r end.
Definition zsort (l : list Z) : list Z := fold_right zinsert [] l.

(** ** segment.py 14-104 *)
(** A cut is an int or a float; a float is represented by its [str()]. *)
Inductive cut_arg := CutI (z : Z) | CutF (repr : pystr).
(** An entry of q: -1, 0, 1 or a probability a/b for which a quantile is
    computed. *)
Inductive q_arg := QNeg | QZero | QOne | QProb (a b : nat).
(** The classes derived from SegmentSieve; the increment sieves carry [inc]. *)
Inductive seg_kind := KMAX | KMIN | KEND | KCUR | KAVG | KSTD
                    | KNPI (inc : Z) | KMPI (inc : Z) | KXPI (inc : Z) | KLPI (inc : Z).
Record seg_cfg := { sg_kind : seg_kind; sg_cut : list cut_arg; sg_q : list q_arg; sg_norm : pystr }.
Definition is_inc_kind (k : seg_kind) : option Z :=
  match k with KNPI i | KMPI i | KXPI i | KLPI i => Some i | _ => None end.
(** segment.py 34-42; increment.py 49-61: default edges (-1, 1) and (0, 1). *)
Definition seg_new (k : seg_kind) (cut : list cut_arg) (q : option (list q_arg)) (norm : pystr) : seg_cfg :=
  {| sg_kind := k; sg_cut := cut;
     sg_q := match q, is_inc_kind k with
             | Some l, _ => l | None, Some _ => [QZero; QOne] | None, None => [QNeg; QOne] end;
     sg_norm := norm |}.
(** segment.py 90-91 and increment.py 83-84 [_copy]: the norm is not passed. *)
Definition seg_copy (c : seg_cfg) : seg_cfg :=
  seg_new (sg_kind c) (sg_cut c) (Some (sg_q c)) (str "L2").
(** segment.py 44-49 *)
Definition is_prob (q : q_arg) : bool := match q with QProb _ _ => true | _ => false end.
Definition seg_requires (c : seg_cfg) : bool := existsb is_prob (sg_q c).
(** segment.py 87-88 *)
Definition seg_nfeatures (c : seg_cfg) : nat := length (sg_cut c) * (length (sg_q c) - 1).

(** segment.py 51-64 [_get_transformed_cuts]: column i+1 of new_cuts.  [get]
    is [self._cache.get(COQUANTILE, .)]. *)
Definition cut_column (get : pystr -> res (cval T)) (norm : pystr) (n l : nat) (c : cut_arg) : res (list Z) :=
  match c with
  | CutI z => Ok (repeat (if (0 <=? z)%Z then z else (Z.of_nat l + z + 1)%Z) n)
  | CutF r =>
      let! v := get (r ++ [colon] ++ norm) in
      match v with
      | VCoq cs => py_set_slice None None (map Z.of_nat cs) (repeat 0%Z n)
      | VSum _ => Err ValueError
      end
  end.
Definition cuts_of (get : pystr -> res (cval T)) (norm : pystr) (n l : nat) (cut : list cut_arg) : res (list (list Z)) :=
  let! cols := mapM (cut_column get norm n l) cut in
  Ok (map (fun i => zsort (0%Z :: map (fun col => nth i col 0%Z) cols)) (seq 0 n)).

(** segment.py 66-75 [_fit] and 77-85 [_get_unfitted_quantiles]. *)
Definition edge_fit (data : list T) (q : q_arg) : xnum T :=
  match q with QNeg => NInf | QZero => Fin nzero | QOne => PInf | QProb a b => Fin (np_quantile a b data) end.
Definition edges_fit (c : seg_cfg) (X : mts T) : list (xnum T) := xsort (map (edge_fit (concat X)) (sg_q c)).
Definition edge_plain (q : q_arg) : res (xnum T) :=
  match q with QNeg => Ok NInf | QZero => Ok (Fin nzero) | QOne => Ok PInf | QProb _ _ => Err RuntimeError end.

(** increment.py 63-71 [_pre_transform]; one row: |inc| times increments of
    lag 1 or cumulative sums. *)
Fixpoint times {A} (m : nat) (f : A -> A) (x : A) : A := match m with O => x | S k => times k f (f x) end.
Definition inc1 (x : series T) : series T := match increments1 1 x with Ok v => v | Err _ => [] end.
Definition pre1 (inc : Z) (x : series T) : series T :=
  if (0 <? inc)%Z then times (Z.to_nat inc) inc1 x
  else if (inc <? 0)%Z then times (Z.to_nat (- inc)) cumsum x
  else x.
Definition pre_transform (k : seg_kind) (X : mts T) : mts T :=
  match is_inc_kind k with Some i => map (pre1 i) X | None => X end.

(** [np.logical_and(q_k < arr, arr <= q_{k+1})] *)
Definition in_bin (lo hi : xnum T) (x : T) : bool := xlt lo x && xge hi x.
(** increment.py 229-237: longest run of True. *)
Fixpoint longest_run (b : list bool) (cur best : nat) : nat :=
  match b with
  | [] => best
  | true :: r => let c := S cur in longest_run r c (if best <? c then c else best)
  | false :: r => longest_run r 0 best
  end.
(** The indices of the True entries ([np.where(.)[0]]). *)
Definition where_ (b : list bool) : list nat := filter (fun i => nth i b false) (seq 0 (length b)).

(** One entry of the backends: segment a:b of row x (already increments of
    second order for CUR), bin (lo, hi].
    MAX segment.py 129-139, MIN 177-187, CUR 252-259, NPI increment.py 121-128,
    MPI 152-162, XPI 187-197, LPI 222-237.  AVG._transform (segment.py 305-309)
    and STD._transform (348-352) call CUR._backend. *)
Definition cell (k : seg_kind) (x : series T) (a b : Z) (lo hi : xnum T) : res T :=
  let seg := py_slice (Some a) (Some b) x in
  let sel := filter (in_bin lo hi) seg in
  match k with
  | KMAX => if (a =? b)%Z then Ok nzero else vmax sel
  | KMIN => if (a =? b)%Z then Ok nzero else vmin sel
  | KCUR | KAVG | KSTD => Ok (vsum (map (fun v => nmul v v) sel))
  | KNPI _ => Ok (nofnat (length sel))
  | KMPI _ => Ok (match sel with [] => nzero | _ => vmean sel end)
  | KXPI _ => let ind := where_ (map (in_bin lo hi) seg) in
              Ok (match ind with [] => nzero | _ => vmean (map nofnat ind) end)
  | KLPI _ => Ok (nofnat (longest_run (map (in_bin lo hi) seg) 0 0))
  | KEND => Ok nzero                                (* END has no bins, see below *)
  end.
Fixpoint pairs {A} (l : list A) : list (A * A) :=
  match l with x :: ((y :: _) as r) => (x, y) :: pairs r | _ => [] end.
(** Row i of the result: index j*(nq-1)+k. *)
Definition backend_row (k : seg_kind) (edges : list (xnum T)) (x : series T) (cs : list Z) : res (list T) :=
  let! rows := mapM (fun ab => mapM (fun e => cell k x (fst ab) (snd ab) (fst e) (snd e)) (pairs edges)) (pairs cs) in
  Ok (concat rows).
(** segment.py 210-219 END._transform: X[i, cuts[i, j+1] - 1]. *)
Definition end_row (x : series T) (cs : list Z) : res (list T) :=
  mapM (fun c => let! i := py_index (length x) (c - 1) in Ok (nth i x nzero)) (tl cs).

(** The rows the backend works on: CUR (and AVG, STD) takes second order
    increments first (segment.py 249-251). *)
Definition backend_input (k : seg_kind) (X : mts T) : mts T :=
  match k with KCUR | KAVG | KSTD => map (fun x => inc1 (inc1 x)) X | _ => X end.

(** [_fit] of all segment sieves (segment.py 66-75; increment.py 73-74 fits on the increments). *)
Definition seg_fit (c : seg_cfg) (X : mts T) : list (xnum T) := edges_fit c (pre_transform (sg_kind c) X).
(** [_transform]; state = the attribute [_quantiles], absent before fitting.
    Returns the result and the new state. *)
Definition seg_transform (c : seg_cfg) (get : pystr -> res (cval T)) (st : option (list (xnum T))) (X : mts T)
    : res (mts T) * option (list (xnum T)) :=
  let Y := pre_transform (sg_kind c) X in
  let cuts := cuts_of get (sg_norm c) (length Y) (tlen Y) (sg_cut c) in
  match sg_kind c with
  | KEND => ((let! cs := cuts in map2M end_row Y cs), st)
  | k =>
      match (if seg_requires c then Ok st else let! e := mapM edge_plain (sg_q c) in Ok (Some e)) with
      | Err e => (Err e, st)
      | Ok st' =>
          ((let! cs := cuts in
            match st' with
            | None => Err AttributeError                    (* no attribute _quantiles *)
            | Some [] => Err ValueError                     (* np.zeros with a negative shape *)
            | Some edges => map2M (backend_row k edges) (backend_input k Y) cs
            end), st')
      end
  end.

(** ** implicit.py 11-206: PPV and CPV *)
(** [qf p v] stands for [np.quantile(v, p)]. *)
Variable qf : T -> list T -> T.
Record ppv_cfg := { pv_components : bool;           (* CPV instead of PPV *)
                    pv_qc : list (T * bool);        (* _q_c_input *)
                    pv_segments : bool }.
Fixpoint qc_insert (x : T * bool) (l : list (T * bool)) : list (T * bool) :=
  match l with
  | [] => [x]
  | y :: r => if nleb (fst x) (fst y) then x :: l else y :: qc_insert x r
  end.
(** stable sort by the first component *)
Definition qc_sort (l : list (T * bool)) : list (T * bool) := fold_right qc_insert [] l.
Definition is_prob_value (q : T) : bool := nleb nzero q && nleb q nunit.
(** implicit.py 53-91 with both arguments given as lists (lines 60-69; a sample
    size outside (0, 1], lines 84-85, is not modelled).  [order] is the
    iteration order of [set(quantile)], an arbitrary duplicate free
    enumeration of its elements. *)
Definition ppv_new (components : bool) (quantile : list T) (constant : list bool) (segments : bool)
    (order : list T) : res ppv_cfg :=
  if negb (length quantile =? length constant) then Err ValueError
  else if negb (forallb (fun qc => snd qc || is_prob_value (fst qc)) (combine quantile constant)) then Err ValueError
  else
    let qc := if segments then qc_sort (combine order constant) else combine quantile constant in
    if segments && (length quantile =? 1) then Err ValueError
    else Ok {| pv_components := components; pv_qc := qc; pv_segments := segments |}.
(** lines 70-77: a single threshold with a single flag; its range is
    not checked. *)
Definition ppv_new_scalar (components : bool) (q : T) (constant segments : bool) : res ppv_cfg :=
  if segments then Err ValueError
  else Ok {| pv_components := components; pv_qc := [(q, constant)]; pv_segments := false |}.
(** lines 93-97 *)
Definition ppv_nfeatures (c : ppv_cfg) : nat := if pv_segments c then length (pv_qc c) - 1 else length (pv_qc c).
(** lines 99-112; [sel i] are the series drawn for threshold i.  [_q] is first
    set to the given values and then updated one by one; np.quantile raises
    ValueError for a probability outside [0, 1], which leaves the remaining
    given values in [_q]. *)
Fixpoint ppv_fit_from (i : nat) (qc : list (T * bool)) (sel : nat -> list nat) (X : mts T) : res unit * list T :=
  match qc with
  | [] => (Ok tt, [])
  | (q, true) :: r => let (x, l) := ppv_fit_from (S i) r sel X in (x, q :: l)
  | (q, false) :: r =>
      if is_prob_value q then
        let (x, l) := ppv_fit_from (S i) r sel X in
        (x, qf q (concat (map (fun s => nth s X []) (sel i))) :: l)
      else (Err ValueError, q :: map fst r)
  end.
Definition ppv_fit (c : ppv_cfg) (sel : nat -> list nat) (X : mts T) : res unit * list T :=
  ppv_fit_from 0 (pv_qc c) sel X.
(** lines 114-129: fraction of entries satisfying the condition. *)
Definition fraction (p : T -> bool) (x : series T) : T := ndiv (nofnat (vcount p x)) (nofnat (length x)).
(** lines 169-190: 2 * (number of 0 -> 1 steps) / n, n rounded up to even. *)
Definition components (p : T -> bool) (x : series T) : T :=
  let b := map (fun v => if p v then nunit else nzero) x in
  let n := if Nat.odd (length x) then S (length x) else length x in
  ndiv (nmul (nofnat 2) (nofnat (vcount (fun v => neqb v nunit) (inc1 b)))) (nofnat n).
Definition ppv_conditions (c : ppv_cfg) (q : list T) : list (T -> bool) :=
  if pv_segments c then map (fun ab => fun v => nleb (fst ab) v && nltb v (snd ab)) (pairs q)
  else map (fun a => fun v => nleb a v) q.
Definition ppv_transform (c : ppv_cfg) (st : option (list T)) (X : mts T) : res (mts T) :=
  match st with
  | None => Err RuntimeError
  | Some q => Ok (map (fun x => map (fun p => if pv_components c then components p x else fraction p x)
                                    (ppv_conditions c q)) X)
  end.

(** ** Sieve objects with their [_cache] attribute; wrapper.py *)
(** The attribute [_cache] is represented by the input the cache was created
    with: by C31 every [get] on it returns the fresh computation on that
    input, whatever was requested before. *)
Inductive sieve :=
| SSeg (c : seg_cfg) (st : option (list (xnum T))) (ca : option (dataset T))
| SPpv (c : ppv_cfg) (st : option (list T)) (ca : option (dataset T))
| SInc (s : sieve) (depth : nat) (shift : Z) (ca : option (dataset T))   (* wrapper.py 9-66 *)
| SInt (s : sieve) (ca : option (dataset T)).                            (* wrapper.py 69-114 *)
Definition sv_cache (s : sieve) : option (dataset T) :=
  match s with SSeg _ _ ca | SPpv _ _ ca | SInc _ _ _ ca | SInt _ ca => ca end.
(** [s._cache = c], [del s._cache]. *)
Definition sv_set_cache (s : sieve) (ca : option (dataset T)) : sieve :=
  match s with
  | SSeg c st _ => SSeg c st ca | SPpv c st _ => SPpv c st ca
  | SInc i d k _ => SInc i d k ca | SInt i _ => SInt i ca
  end.
Fixpoint sv_nfeatures (s : sieve) : nat :=
  match s with
  | SSeg c _ _ => seg_nfeatures c | SPpv c _ _ => ppv_nfeatures c
  | SInc i _ _ _ => sv_nfeatures i | SInt i _ => sv_nfeatures i
  end.
Fixpoint sv_requires (s : sieve) : bool :=
  match s with
  | SSeg c _ _ => seg_requires c | SPpv _ _ _ => true
  | SInc i _ _ _ => sv_requires i | SInt i _ => sv_requires i
  end.
(** [copy()]: a new object without fitted state and without cache (segment.py
    90, increment.py 83, implicit.py 131-137 and 192-197, wrapper.py 55-56,
    103-104).  For a segmented PPV the constructor is given [_q_c_input],
    which is already sorted and duplicate free; [order] is the iteration order
    of the set built from it. *)
Fixpoint sv_copy (order : list T -> list T) (s : sieve) : res sieve :=
  match s with
  | SSeg c _ _ => Ok (SSeg (seg_copy c) None None)
  | SPpv c _ _ =>
      let! c' := ppv_new (pv_components c) (map fst (pv_qc c)) (map snd (pv_qc c)) (pv_segments c)
                         (order (map fst (pv_qc c))) in
      Ok (SPpv c' None None)
  | SInc i d k _ => let! i' := sv_copy order i in Ok (SInc i' d k None)
  | SInt i _ => let! i' := sv_copy order i in Ok (SInt i' None)
  end.

(** wrapper.py 41-44 and 47-50: the loop body always starts from X, so it runs
    [depth] times with the same result. *)
Fixpoint wrap_inc (depth : nat) (shift : Z) (X acc : mts T) : res (mts T) :=
  match depth with
  | O => Ok acc
  | S d => let! Y := mapM (increments1 shift) X in wrap_inc d shift X Y
  end.

(** [sieve.get] on the cache held by the attribute. *)
Definition get_on (inp : dataset T) (key : pystr) : res (cval T) := cache_fresh parse inp COQUANTILE key.
(** seed.py 40-51 [transform] around [_transform]: when there is no cache, one
    is created from X and removed afterwards, except when [_transform] raises
    (there is no try/finally), in which case it stays. *)
Fixpoint sv_transform (s : sieve) (X : mts T) : res (mts T) * sieve :=
  let inp := match sv_cache s with Some inp => inp | None => map (fun x => [x]) X end in
  let had := sv_cache s in
  match s with
  | SSeg c st _ =>
      match seg_transform c (get_on inp) st X with
      | (Ok r, st') => (Ok r, SSeg c st' had)
      | (Err e, st') => (Err e, SSeg c st' (Some inp))
      end
  | SPpv c st _ =>
      match ppv_transform c st X with
      | Ok r => (Ok r, SPpv c st had)
      | Err e => (Err e, SPpv c st (Some inp))
      end
  | SInc i d k _ =>
      match wrap_inc d k X X with
      | Err e => (Err e, SInc i d k (Some inp))
      | Ok Y => match sv_transform i Y with
                | (Ok r, i') => (Ok r, SInc i' d k had)
                | (Err e, i') => (Err e, SInc i' d k (Some inp))
                end
      end
  | SInt i _ =>
      match sv_transform i (map cumsum X) with
      | (Ok r, i') => (Ok r, SInt i' had)
      | (Err e, i') => (Err e, SInt i' (Some inp))
      end
  end.
(** seed.py 26-34 [fit]; [sel] are the random selections of PPV. *)
Fixpoint sv_fit (sel : nat -> list nat) (s : sieve) (X : mts T) : res unit * sieve :=
  let inp := match sv_cache s with Some inp => inp | None => map (fun x => [x]) X end in
  let had := sv_cache s in
  match s with
  | SSeg c _ _ => (Ok tt, SSeg c (Some (seg_fit c X)) had)
  | SPpv c _ _ =>
      match ppv_fit c sel X with
      | (Ok _, q) => (Ok tt, SPpv c (Some q) had)
      | (Err e, q) => (Err e, SPpv c (Some q) (Some inp))
      end
  | SInc i d k _ =>
      match wrap_inc d k X X with
      | Err e => (Err e, SInc i d k (Some inp))
      | Ok Y => match sv_fit sel i Y with
                | (Ok _, i') => (Ok tt, SInc i' d k had)
                | (Err e, i') => (Err e, SInc i' d k (Some inp))
                end
      end
  | SInt i _ =>
      match sv_fit sel i (map cumsum X) with
      | (Ok _, i') => (Ok tt, SInt i' had)
      | (Err e, i') => (Err e, SInt i' (Some inp))
      end
  end.
End Sieve.
Arguments sieve T : clear implicits.
Arguments ppv_cfg T : clear implicits.
