(** Model of fruits/cache.py (array functions), fruits/preparation/ and the
    lookups of fruits/iss/weighting.py.

    A dataset is a list of samples, a sample a list of dimensions, a dimension
    a list of time steps.  Broadcast operations over samples and dimensions
    are [map]/[mapM]; numba's parallel loops write disjoint rows and are
    sequentialised.  float64 rounding, NaN and infinities are not modelled. *)
From Coq Require Import List Arith ZArith Bool.
From Verif Require Import Num Arr M_Str M_Np.
Import ListNotations.

Section Prep.
Context {T : Type} `{Num T}.

(** ** cache.py *)

(** cache.py 8-13 [_increments], one row:
    result = zeros; result[k:] = x[k:] - x[:-k].
    The two slices have different lengths only for k = 0 (then numpy cannot
    assign the result: ValueError), for every other k of either sign they
    have the same length. *)
Definition increments1 (k : int) (x : series T) : res (series T) :=
  let a := py_slice (Some k) None x in
  let b := py_slice None (Some (- k)%Z) x in
  if length a =? length b
  then py_set_slice (Some k) None (map2 nsub a b) (zeros (length x))
  else Err ValueError.
Definition increments (k : int) (X : dataset T) : res (dataset T) :=
  mapM (mapM (increments1 k)) X.

(** [_increments(X, 1)[i, 0, :]] as used by the two functions below. *)
Definition inc_first (x : mts T) : series T :=
  match increments1 1 (nth 0 x []) with Ok v => v | Err _ => [] end.
(** cache.py 25-31 [_L1_sum], cache.py 34-40 [_L2_sum]: only dimension 0. *)
Definition L1_sum (X : dataset T) : list (series T) :=
  map (fun x => cumsum (map nabs (inc_first x))) X.
Definition L2_sum (X : dataset T) : list (series T) :=
  map (fun x => cumsum (map (fun v => nmul v v) (inc_first x))) X.
(** cache.py 16-22 [_coquantile]: sum(X[i, :] <= q * X[i, -1]). *)
Definition coquantile1 (q : T) (y : series T) : nat :=
  vcount (fun v => nleb v (nmul q (last y nzero))) y.
Definition coquantile (q : T) (Y : list (series T)) : list nat := map (coquantile1 q) Y.

(** ** transform.py 15-89: INC *)
Inductive shift_arg :=
| ShInt (z : int)                    (* an int *)
| ShFun (f : nat -> int).            (* float s: l |-> ceil(s*l); or a callable *)
(** lines 44-54: depth < 1 raises ValueError. *)
Record inc_cfg := { inc_shift : shift_arg; inc_depth : nat; inc_zp : bool }.
Definition inc_new (s : shift_arg) (depth : int) (zp : bool) : res inc_cfg :=
  if (depth <? 1)%Z then Err ValueError
  else Ok {| inc_shift := s; inc_depth := Z.to_nat depth; inc_zp := zp |}.
(** lines 73-74: out[:, :, :self._shift] = X[:, :, :self._shift]; slicing with
    a float or a function is a TypeError. *)
Definition inc_prefix1 (z : int) (x out : series T) : res (series T) :=
  py_set_slice None (Some z) (py_slice None (Some z) x) out.
Fixpoint map2M {A B C} (f : A -> B -> res C) (l1 : list A) (l2 : list B) : res (list C) :=
  match l1, l2 with
  | x :: r1, y :: r2 => let! z := f x y in let! zs := map2M f r1 r2 in Ok (z :: zs)
  | _, _ => Ok []
  end.
Definition inc_step (c : inc_cfg) (k : int) (X out : dataset T) : res (dataset T) :=
  let! out' := increments k out in
  if inc_zp c then Ok out'
  else match inc_shift c with
       | ShFun _ => Err TypeError
       | ShInt z => map2M (map2M (inc_prefix1 z)) X out'
       end.
Fixpoint inc_loop (c : inc_cfg) (k : int) (X : dataset T) (n : nat) (out : dataset T) : res (dataset T) :=
  match n with
  | O => Ok out
  | S m => let! o := inc_step c k X out in inc_loop c k X m o
  end.
(** lines 60-75 *)
Definition inc_transform (c : inc_cfg) (X : dataset T) : res (dataset T) :=
  let k := match inc_shift c with ShInt z => z | ShFun f => f (lenX X) end in
  inc_loop c k X (inc_depth c) X.

(** ** transform.py 92-158: STD *)
Record std_cfg := { std_separately : bool; std_var : bool; std_eps : T }.
Definition std_state := option (T * T).
(** lines 125-131 *)
Definition std_fit (c : std_cfg) (X : dataset T) (s : std_state) : std_state :=
  if std_separately c then s
  else let all := concat (concat X) in
       Some (vmean all, if std_var c then vstd all else nunit).
Definition std_row (c : std_cfg) (x : series T) : series T :=
  let m := vmean x in
  let s := if std_var c then vstd x else nunit in
  map (fun v => ndiv (nsub v m) (nadd s (std_eps c))) x.
(** lines 133-144 *)
Definition std_transform (c : std_cfg) (s : std_state) (X : dataset T) : res (dataset T) :=
  if std_separately c then Ok (map (map (std_row c)) X)
  else match s with
       | None => Err RuntimeError
       | Some (m, sd) =>
           Ok (map (map (map (fun v => ndiv (nsub v m) (nadd sd (std_eps c))))) X)
       end.
(** lines 146-147: std_eps is not passed on (it gets the default [eps0] = 1e-5). *)
Definition std_copy (eps0 : T) (c : std_cfg) : std_cfg :=
  {| std_separately := std_separately c; std_var := std_var c; std_eps := eps0 |}.

(** ** transform.py 161-209: NRM *)
Definition nrm_row (mn mx : T) (x : series T) : series T :=
  if neqb mn mx then zeros (length x)
  else map (fun v => ndiv (nsub v mn) (nsub mx mn)) x.
Definition nrm_sample (scale_dim : bool) (x : mts T) : res (mts T) :=
  let! mns := mapM vmin x in
  let! mxs := mapM vmax x in
  if scale_dim
  then let! mn := vmin mns in let! mx := vmax mxs in Ok (map (nrm_row mn mx) x)
  else Ok (map (fun p => nrm_row (fst (fst p)) (snd (fst p)) (snd p))
               (combine (combine mns mxs) x)).
(** lines 184-198 *)
Definition nrm_transform (scale_dim : bool) (X : dataset T) : res (dataset T) :=
  mapM (nrm_sample scale_dim) X.

(** ** transform.py 212-274: MAV *)
Inductive width_arg := WInt (z : int) | WFloat (f : nat -> int).  (* f l = int(w * l) *)
Definition mav_state := option int.      (* the attribute _w, None if unset *)
(** lines 250-256 *)
Definition mav_fit (w : width_arg) (X : dataset T) (s : mav_state) : mav_state :=
  match w with
  | WFloat f => let v := f (lenX X) in Some (if (v <=? 0)%Z then 1%Z else v)
  | WInt z => if (0 <? z)%Z then Some z else s
  end.
(** lines 233-239 [_backend], one row: for k in range(width, l+1):
    result[k-1] = sum(X[k-width:k]) / width. *)
Definition mav_row (w : nat) (x : series T) : series T :=
  map (fun t => if w <=? S t
                then ndiv (vsum (firstn w (skipn (S t - w) x))) (nofnat w)
                else nzero) (seq 0 (length x)).
(** lines 261-262: mean over the dimensions; the code returns a 2-d array, here
    one dimension per sample. *)
Definition mav_dims (x : mts T) : mts T :=
  [map (fun t => ndiv (vsum (map (fun r => nth t r nzero) x)) (nofnat (length x)))
       (seq 0 (tlen x))].
(** lines 258-263 *)
Definition mav_transform (w : width_arg) (s : mav_state) (X : dataset T) : res (dataset T) :=
  match s with
  | None => Err RuntimeError
  | Some v =>
      match w with
      | WInt (-1)%Z => Ok (map mav_dims X)
      | _ => Ok (map (map (mav_row (Z.to_nat v))) X)
      end
  end.

(** ** transform.py 277-309: LAG *)
(** row[first::step] = vals (of the right length) *)
Definition set_strided (first step : nat) (vals row : series T) : series T :=
  map (fun t => if (first <=? t) && ((t - first) mod step =? 0)
                then nth ((t - first) / step) vals nzero else nth t row nzero)
      (seq 0 (length row)).
Definition lag_pair (x : series T) : list (series T) :=
  let z := zeros (2 * length x - 1) in
  [set_strided 1 2 (skipn 1 x) (set_strided 0 2 x z);
   set_strided 1 2 (removelast x) (set_strided 0 2 x z)].
(** lines 291-298; a series of length 0 asks for an array of length -1:
    ValueError. *)
Definition lag_transform (X : dataset T) : res (dataset T) :=
  if lenX X =? 0 then Err ValueError else Ok (map (flat_map lag_pair) X).

(** ** transform.py 312-388: FFN *)
Definition relu (v : T) : T := nmul v (if nltb nzero v then nunit else nzero). (* temp*(temp>0) *)
Definition dotv (a b : list T) : T := vsum (map2 nmul a b).
Definition column (x : mts T) (t : nat) : list T := map (fun r => nth t r nzero) x.
Definition center_row (x : series T) : series T := map (fun v => nsub v (vmean x)) x.
Record ffn_cfg := { ffn_center : bool; ffn_relu_out : bool }.
(** weights1 (hidden x d), biases (hidden), weights2 (out x hidden), drawn by fit 344-360 *)
Record ffn_state := { ffn_w1 : list (list T); ffn_b : list T; ffn_w2 : list (list T) }.
Definition ffn_point (c : ffn_cfg) (s : ffn_state) (v : list T) : list T :=
  let hid := map2 (fun w b => nadd (dotv w v) b) (ffn_w1 s) (ffn_b s) in
  let out := map (fun w => dotv w (map relu hid)) (ffn_w2 s) in
  if ffn_relu_out c then map relu out else out.
(** lines 362-376: every time step separately; out[o][t]. *)
Definition ffn_sample (c : ffn_cfg) (s : ffn_state) (x : mts T) : mts T :=
  let y := if ffn_center c then map center_row x else x in
  map (fun o => map (fun t => nth o (ffn_point c s (column y t)) nzero) (seq 0 (tlen y)))
      (seq 0 (length (ffn_w2 s))).
(** [np.tensordot] with weights for another number of dimensions is a
    ValueError. *)
Definition ffn_transform (c : ffn_cfg) (s : option ffn_state) (X : dataset T) : res (dataset T) :=
  match s with
  | None => Err RuntimeError
  | Some st => if forallb (fun x => forallb (fun w => length w =? length x) (ffn_w1 st)) X
               then Ok (map (ffn_sample c st) X) else Err ValueError
  end.

(** ** transform.py 391-568: RIN and 616-746: JLD, common grouping *)
(** start_dim of every output dimension: sums of ndim before it. *)
Fixpoint starts (s : nat) (ndim : list nat) : list nat :=
  match ndim with [] => [] | n :: r => s :: starts (s + n) r end.
Definition groups (ndim : list nat) : list (list nat) :=
  map2 (fun s n => seq s n) (starts 0 ndim) ndim.
(** divmod(d, out): [q+1]*r + [q]*(out-r); lines 500-504 and 699-703 *)
Definition group_sizes (d out : nat) : list nat :=
  repeat (d / out + 1) (d mod out) ++ repeat (d / out) (out - d mod out).

Definition at3 (x : mts T) (j t : nat) : T := nth t (nth j x []) nzero.

(** lines 447-468 [RIN._backend], one sample:
    for k in range(w, l): s = sum_{j in group} ( sum_l -X[dims[j], l]*kernel[j, l-k+w] + X[j, k] ) *)
Definition rin_point (w : nat) (kernel : list (list T)) (dims : list nat) (x : mts T)
    (k : nat) (g : list nat) : T :=
  fold_left (fun s j =>
     let s' := fold_left (fun s l => nadd s (nmul (nopp (at3 x (nth j dims 0) l))
                                                 (nth (l + w - k) (nth j kernel []) nzero)))
                         (seq (k - w) w) s in
     nadd s' (at3 x j k)) g nzero.
Definition rin_backend (kernel : list (list T)) (ndim dims : list nat) (x : mts T) : mts T :=
  let w := tlen kernel in
  map (fun g => map (fun k => if k <? w then nzero else rin_point w kernel dims x k g)
                    (seq 0 (tlen x))) (groups ndim).
Record rin_state := { rin_kernel : list (list T); rin_ndim : list nat; rin_dims : list nat }.
(** lines 485-489: a constant kernel is used as given, identity grouping. *)
Definition rin_fit_const (kernel : list (list T)) (d : nat) : rin_state :=
  {| rin_kernel := kernel; rin_ndim := repeat 1 d; rin_dims := seq 0 d |}.
(** lines 508-520, one row of an accepted draw [k] (force_sum_one). *)
Definition rin_force (k : list T) : list T :=
  let change := nsub nunit (vsum k) in
  let diff := map (fun v => nsub nunit (nabs v)) k in
  map2 nadd k (map (fun v => nmul v (ndiv change (vsum diff))) diff).
(** lines 522-523, one row of the draw [k]: centred normal weights. *)
Definition rin_centre (k : list T) : list T := map (fun v => nsub v (vmean k)) k.
(** lines 491-523: out_dim > d raises ValueError; [draw] is the sampled
    kernel (d rows) and [perm] the random permutation of the dimensions. *)
Definition rin_fit (out_dim : int) (force : bool) (draw : list (list T)) (perm : list nat)
    (d : nat) : res rin_state :=
  let out := if (0 <? out_dim)%Z then Z.to_nat out_dim else d in
  if d <? out then Err ValueError
  else Ok {| rin_kernel := map (if force then rin_force else rin_centre) draw;
             rin_ndim := group_sizes d out; rin_dims := perm |}.
(** lines 525-544 *)
Definition rin_transform (adaptive : bool) (s : option rin_state) (X : dataset T) : res (dataset T) :=
  match s with
  | None => Err RuntimeError
  | Some st =>
      let w := tlen (rin_kernel st) in
      if adaptive
      then Ok (map (fun x => map (skipn w)
             (rin_backend (rin_kernel st) (rin_ndim st) (rin_dims st)
                          (map (fun r => zeros w ++ r) x))) X)
      else Ok (map (rin_backend (rin_kernel st) (rin_ndim st) (rin_dims st)) X)
  end.

(** lines 651-670 [JLD._backend], one sample. *)
Definition jld_backend (kernel bias : list T) (ndim dims : list nat) (x : mts T) : mts T :=
  map2 (fun g b =>
          map (fun t => fold_left (fun acc j => nadd acc (nadd (nmul (at3 x (nth j dims 0) t)
                                                                    (nth j kernel nzero)) b))
                                  g nzero) (seq 0 (tlen x)))
       (groups ndim) bias.
Record jld_state := { jld_kernel : list T; jld_bias : list T;
                      jld_ndim : list nat; jld_dims : list nat }.
(** lines 687-722; [out] is the resolved number of output dimensions, [draw]
    the normal weights, [bdraw] the bias draw, [perm] the random permutation. *)
Definition jld_fit (out : nat) (distribute bias : bool) (draw bdraw : list T) (perm : list nat)
    (d : nat) : res jld_state :=
  let b := if bias then bdraw else zeros out in
  if distribute
  then if d <? out then Err ValueError
       else Ok {| jld_kernel := draw; jld_bias := b; jld_ndim := group_sizes d out; jld_dims := perm |}
  else Ok {| jld_kernel := draw; jld_bias := b; jld_ndim := repeat d out;
             jld_dims := concat (repeat (seq 0 d) out) |}.
Definition jld_transform (s : option jld_state) (X : dataset T) : res (dataset T) :=
  match s with
  | None => Err AttributeError
  | Some st => Ok (map (jld_backend (jld_kernel st) (jld_bias st) (jld_ndim st) (jld_dims st)) X)
  end.

(** ** transform.py 571-613: RDW.  Lines 591-595, the parameters handed to
    [np.random.dirichlet]: for every dimension the maximum over time of the
    mean over the series of the absolute values, divided by the largest one;
    [eps] (1e-5) is added everywhere if one of them is zero.  [np.max] of no
    numbers is a ValueError.  (On an empty dataset numpy computes with NaN;
    not modelled.) *)
Definition rdw_alphas (eps : T) (X : dataset T) : res (list T) :=
  let! raw := mapM (fun j => vmax (map (fun t => vmean (map (fun x => nabs (at3 x j t)) X)) (seq 0 (lenX X))))
                   (seq 0 (dimX X)) in
  let! m := vmax (filter (fun a => negb (neqb a nzero)) raw) in
  let al := map (fun a => if neqb a nzero then a else ndiv a m) raw in
  Ok (if existsb (fun a => neqb a nzero) al then map (fun a => nadd a eps) al else al).
(** lines 590-599; [draw] is the result of [np.random.dirichlet] resp. of
    [np.random.random]. *)
Definition rdw_fit (eps : T) (dirichlet : bool) (draw : list T) (X : dataset T) : res (list T) :=
  if dirichlet then let! al := rdw_alphas eps X in Ok draw
  else Ok (map (fun v => ndiv v (vsum draw)) draw).

(** ** transform.py 838-907: RPE.  [den] is the number T**freq. *)
Definition rpe_sample (den : T) (x : mts T) : mts T :=
  let a := nth 0 x [] in let b := nth 1 x [] in
  let th := fun k => ndiv (nofnat k) den in
  [map (fun k => nsub (nmul (ncos (th k)) (nth k a nzero)) (nmul (nsin (th k)) (nth k b nzero)))
       (seq 0 (tlen x));
   map (fun k => nadd (nmul (nsin (th k)) (nth k a nzero)) (nmul (ncos (th k)) (nth k b nzero)))
       (seq 0 (tlen x))].
Definition rpe_transform (den : T) (X : dataset T) : res (dataset T) :=
  if dimX X =? 2 then Ok (map (rpe_sample den) X) else Err ValueError.

(** ** transform.py 910-958: CTS.  The shift is int(s), or max(1, int(s*l))
    for 0 < s < 1 ([CFrac f], f l = int(s * l)). *)
Inductive cts_arg := CInt (z : int) | CFrac (f : nat -> int).
Definition cts_row (pseudo : bool) (shift : int) (x : series T) : res (series T) :=
  if pseudo then Ok (py_fill_slice None (Some shift) nzero x)
  else let! y := py_set_slice None (Some (- shift)%Z) (py_slice (Some shift) None x) x in
       py_set_slice (Some (- shift)%Z) None (py_slice (Some (-1)%Z) None y) y.
Definition cts_transform (s : cts_arg) (pseudo : bool) (X : dataset T) : res (dataset T) :=
  let shift := match s with CInt z => z | CFrac f => Z.max 1 (f (lenX X)) end in
  mapM (mapM (cts_row pseudo shift)) X.

(** ** transform.py 961-1015: QTC *)
Definition qtc_fit (a b : nat) (X : dataset T) : T := np_quantile a b (concat (concat X)).
Definition qtc_transform (lower : bool) (bound : option T) (s : option T) (X : dataset T)
    : res (dataset T) :=
  match s with
  | None => Err AttributeError
  | Some q =>
      let r := match bound with None => q | Some b => b end in
      Ok (map (map (map (fun v => if (if lower then nltb v q else nltb q v) then r else v))) X)
  end.

(** ** filter.py 11-68: DIL.  Random draws: [ncl] is randint(1, l//10), [ch]
    the unsorted result of np.random.choice, [dr i] determines the i-th
    randint(1, max_length + 1). *)
Record dil_state := { dil_indices : list nat; dil_lengths : list nat }.
(** lines 33-41 *)
Definition dil_nclusters (clusters : option (nat -> int)) (ncl l : nat) : int :=
  match clusters with
  | Some f => f l
  | None => if l / 10 <=? 1 then 1%Z else Z.of_nat ncl
  end.
(** lines 48-54 *)
Fixpoint dil_lens (dr : nat -> nat) (l i : nat) (idx : list nat) : list nat :=
  match idx with
  | [] => []
  | a :: r =>
      let m := match r with [] => l - a | b :: _ => b - a end in
      (1 + dr i mod m) :: dil_lens dr l (S i) r
  end.
(** lines 33-54; a negative number of clusters is a ValueError of
    np.random.choice, more clusters than time steps an IndexError at
    self._indices[i+1]. *)
Definition dil_fit (clusters : option (nat -> int)) (ncl : nat) (ch : list nat) (dr : nat -> nat)
    (X : dataset T) : res dil_state :=
  let l := lenX X in
  let n := dil_nclusters clusters ncl l in
  if (n <? 0)%Z then Err ValueError
  else if (Z.of_nat l <? n)%Z then Err IndexError
  else let idx := if (Z.of_nat l <=? n)%Z then seq 0 l else nsort ch in
       Ok {| dil_indices := idx; dil_lengths := dil_lens dr l 0 idx |}.
(** lines 56-62 *)
Definition dil_row (s : dil_state) (x : series T) : series T :=
  fold_left (fun v p => py_fill_slice (Some (Z.of_nat (fst p))) (Some (Z.of_nat (fst p + snd p))) nzero v)
            (combine (dil_indices s) (dil_lengths s)) x.
Definition dil_transform (s : option dil_state) (X : dataset T) : res (dataset T) :=
  match s with None => Err RuntimeError | Some st => Ok (map (map (dil_row st)) X) end.

(** ** filter.py 71-120: WIN.  [cs], [ce]: coquantiles of the start and the
    end for every sample, as returned by the cache. *)
Definition win_row (cs ce : int) (x : series T) : res (series T) :=
  py_set_slice (Some (cs - 1)%Z) (Some ce) (py_slice (Some (cs - 1)%Z) (Some ce) x)
               (zeros (length x)).
Definition win_apply (cs ce : list nat) (X : dataset T) : res (dataset T) :=
  map2M (fun p x => mapM (win_row (Z.of_nat (fst p)) (Z.of_nat (snd p))) x) (combine cs ce) X.
(** lines 93-108 with a cache whose input is [C]. *)
Definition win_transform (start stop : T) (C X : dataset T) : res (dataset T) :=
  win_apply (coquantile start (L2_sum C)) (coquantile stop (L2_sum C)) X.

(** ** filter.py 123-206: DOT.  [DInt z]: an int, [DFloat f]: f l = int(v * l). *)
Inductive dot_arg := DInt (z : int) | DFloat (f : nat -> int).
Definition dot_n (n : dot_arg) (l : nat) : int :=
  match n with
  | DFloat f => let v := f l in if (v <=? 0)%Z then 1%Z else v
  | DInt z => if (Z.of_nat l <=? z)%Z then Z.of_nat l else z
  end.
Definition dot_first (first : option dot_arg) (n : int) (l : nat) : int :=
  match first with
  | Some (DFloat f) => let v := f l in let v := if (v <=? 0)%Z then 1%Z else v in
                       if (Z.of_nat l <=? v)%Z then (Z.of_nat l - 1)%Z else v
  | Some (DInt z) => if (Z.of_nat l <=? z)%Z then (Z.of_nat l - 1)%Z else z
  | None => (n - 1)%Z
  end.
(** lines 165-187 *)
Definition dot_fit (n : dot_arg) (first : option dot_arg) (X : dataset T) : int * int :=
  let nn := dot_n n (lenX X) in (nn, dot_first first nn (lenX X)).
(** lines 189-194 *)
Definition dot_row (n first : int) (x : series T) : res (series T) :=
  let! idx := stride_idx first n (length x) in
  Ok (map (fun t => if existsb (Nat.eqb t) idx then nth t x nzero else nzero) (seq 0 (length x))).
Definition dot_transform (s : option (int * int)) (X : dataset T) : res (dataset T) :=
  match s with
  | None => Err RuntimeError
  | Some (n, first) => mapM (mapM (dot_row n first)) X
  end.

(** ** filter.py 209-270: PDD with density dn/dd and proportion pn/pd. *)
Record pdd_state := { pdd_indices : list nat; pdd_width : nat }.
(** np.linspace(0, stop, num, dtype="int") *)
Definition linspace_int (stop num : nat) : list nat :=
  map (fun i => (i * stop) / (num - 1)) (seq 0 num).
(** lines 239-250 *)
Definition pdd_fit (dn dd pn pd : nat) (X : dataset T) : pdd_state :=
  let l := lenX X in
  let p := Nat.max ((pn * l) / pd) 1 in
  let points := Nat.max (((dd - dn) * l) / dd) 1 in
  let width := p / points in
  let points := if points =? l - width then points - 1 else points in
  {| pdd_indices := linspace_int (l - width) points; pdd_width := width |}.
(** lines 252-258 *)
Definition pdd_row (s : pdd_state) (x : series T) : series T :=
  fold_left (fun v i => py_fill_slice (Some (Z.of_nat i)) (Some (Z.of_nat (i + pdd_width s))) nzero v)
            (pdd_indices s) x.
Definition pdd_transform (s : option pdd_state) (X : dataset T) : res (dataset T) :=
  match s with None => Err RuntimeError | Some st => Ok (map (map (pdd_row st)) X) end.

(** ** wrapper.py 11-50: DIM over a preparateur with (fitted) transform [p]. *)
Definition select_dims (dims : list nat) (x : mts T) : mts T := map (fun j => nth j x []) dims.
(** np.delete(X, dims, axis=1) *)
Definition delete_dims (dims : list nat) (x : mts T) : mts T :=
  map (fun j => nth j x []) (filter (fun j => negb (existsb (Nat.eqb j) dims)) (seq 0 (length x))).
Definition same_len (X Y : dataset T) : bool :=
  (length X =? length Y) && (lenX X =? lenX Y).
(** lines 40-44: X[:, dims, :], np.delete, np.concatenate along dimensions
    (ValueError if the numbers of samples or time steps differ). *)
Definition dim_transform (dim : list int) (p : dataset T -> res (dataset T)) (X : dataset T)
    : res (dataset T) :=
  let! dims := mapM (py_index (dimX X)) dim in
  let! Y := p (map (select_dims dims) X) in
  if same_len X Y then Ok (map2 (fun x y => delete_dims dims x ++ y) X Y)
  else Err ValueError.
(** wrapper.py 53-103: NEW.  lines 78-95; assigning an array of another length
    is a ValueError unless it broadcasts (one sample or one time step). *)
Definition stretch (n : nat) (y : series T) : series T :=
  match y with [v] => repeat v n | _ => y end.
Definition new_transform (p : option (dataset T -> res (dataset T))) (X : dataset T)
    : res (dataset T) :=
  match p with
  | None => Ok (map (fun x => x ++ x) X)
  | Some f =>
      let! Y := f X in
      if ((length X =? length Y) || (length Y =? 1)) && ((lenX X =? lenX Y) || (lenX Y =? 1))
      then let Y' := if length X =? length Y then Y else repeat (hd [] Y) (length X) in
           Ok (map2 (fun x y => x ++ map (stretch (lenX X)) y) X Y')
      else Err ValueError
  end.

(** ** Integer arrays.  An array of numpy has a dtype, int64 or float64 here;
    storing a float in an integer array truncates it. *)
Definition store (dt : dtype) (v : T) : T := match dt with TInt => ntrunc v | TFloat => v end.
Definition pyval (v : pynum T) : T := match v with PyInt z => nofZ z | PyFloat x => x end.
(** [np.vectorize(f)(x)]: the dtype of the result is the type of what [f]
    returns for the first element; the other results are converted to it.
    (On an empty array [vectorize] raises a ValueError, as [np.min] in the next
    step does.  For the two-dimensional arrays of L1 and L2 the first element
    of the first row decides; all rows start with 0.0, so that it is the same
    to let every row decide.) *)
Definition vectorize (f : T -> pynum T) (x : series T) : dtype * series T :=
  let dt := match x with v :: _ => match f v with PyInt _ => TInt | PyFloat _ => TFloat end | [] => TFloat end in
  (dt, map (fun v => store dt (pyval (f v))) x).

(** ** weighting.py: lookups (one row per sample) *)
(** [NRM(scale_dim=False)._transform(r) * scale] for an array of dtype [dt]:
    [np.zeros_like] (transform.py 195) makes an array of the same dtype, into
    which the normalised values are stored. *)
Definition nrm_scale (scale : T) (dr : dtype * series T) : res (series T) :=
  let (dt, r) := dr in
  let! mn := vmin r in let! mx := vmax r in
  Ok (map (fun v => nmul v scale) (map (store dt) (nrm_row mn mx r))).
(** weighting.py 100-110 Indices; [np.arange(1, l+1)] is an integer array. *)
Definition indices_row (relative : bool) (tr : option (T -> pynum T)) (l : nat) : dtype * series T :=
  let r := map (fun i => nofnat (S i)) (seq 0 l) in
  let (dt, r) := if relative then (TFloat, map (fun v => ndiv v (nofnat l)) r) else (TInt, r) in
  match tr with None => (dt, r) | Some f => vectorize f r end.
Definition indices_lookup (relative : bool) (tr : option (T -> pynum T)) (scale : T) (X : dataset T)
    : res (list (series T)) :=
  let! r := nrm_scale scale (indices_row relative tr (lenX X)) in
  Ok (map (fun _ => r) X).
(** weighting.py 148-160 L1 and 198-210 L2; [S] is the result of [_L1_sum]
    resp. [_L2_sum] on the cache input or the prepared input, [eps] = 1e-5. *)
Definition lp_row (relative : bool) (eps : T) (tr : option (T -> pynum T)) (y : series T) : dtype * series T :=
  let r := if relative then map (fun v => ndiv v (nadd (last y nzero) eps)) y else y in
  match tr with None => (TFloat, r) | Some f => vectorize f r end.
Definition lp_lookup (relative : bool) (eps : T) (tr : option (T -> pynum T)) (scale : T)
    (S : list (series T)) : res (list (series T)) :=
  mapM (fun y => nrm_scale scale (lp_row relative eps tr y)) S.
(** weighting.py 231-243: n <= 1 raises ValueError. *)
Definition plateaus_new (n : int) : res nat :=
  if (n <=? 1)%Z then Err ValueError else Ok (Z.to_nat n).
(** weighting.py 245-256 *)
Definition plateaus_row (n : nat) (rev_ : bool) (l : nat) : series T :=
  let step := l / n in
  let r := fold_left (fun v i => py_fill_slice (Some (Z.of_nat (i * step)))
                                              (Some (Z.of_nat ((i + 1) * step)))
                                   (ndiv (nofnat i) (nofnat (n - 1))) v)
                     (seq 0 n) (ones l) in
  if rev_ then rev r else r.
Definition plateaus_lookup (n : nat) (rev_ : bool) (scale : T) (X : dataset T)
    : res (list (series T)) :=
  let! r := nrm_scale scale (TFloat, plateaus_row n rev_ (lenX X)) in
  Ok (map (fun _ => r) X).
End Prep.
