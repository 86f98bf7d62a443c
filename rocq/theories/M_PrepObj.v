(** Preparateurs as objects: configuration, fitted attributes and the [_cache]
    attribute (fruits/preparation/*.py, fruits/seed.py).

    [_cache] is represented by the input the cache was created with (by C31
    every [get] on it is the computation on that input).  Random numbers drawn
    by [fit] come from an arbitrary oracle [rand].  A [fit] that raises leaves
    the fitted attributes as they were (DIL and RIN may have written some of
    them before raising; not modelled). *)
From Coq Require Import Ascii String List Arith ZArith Bool.
From Verif Require Import Num Arr M_Str M_Np M_Prep M_Cache.
Import ListNotations.

(** What one call of [fit] gets from numpy.random: the k-th integer, the k-th
    index selection, the k-th matrix of the requested size. *)
Record rand (T : Type) := { r_nat : nat -> nat; r_idx : nat -> list nat; r_mat : nat -> nat -> nat -> list (list T) }.
Arguments r_nat {T} r. Arguments r_idx {T} r. Arguments r_mat {T} r.

Section PrepObj.
Context {T : Type} `{Num T}.
Variable parse : pystr -> res T.            (* float() *)
Variable powf : T -> T -> T.                (* x ** y on floats *)
Variable eps0 : T.                          (* the default std_eps = 1e-5 *)

(** RIN's width: an int or a callable. *)
Inductive rin_width := RWInt (z : int) | RWFun (f : nat -> int).
(** The preparateurs that do not wrap another one.  The last argument of a
    constructor, if it is an option, holds the attributes written by [fit]. *)
Inductive leaf :=
| LINC (c : inc_cfg)                                                         (* transform.py 15-89 *)
| LSTD (c : std_cfg (T := T)) (st : std_state (T := T))                      (* 92-158 *)
| LNRM (scale_dim : bool)                                                    (* 161-209 *)
| LMAV (w : width_arg) (st : mav_state)                                      (* 212-274 *)
| LLAG                                                                       (* 277-309 *)
| LFFN (d_out : nat) (d_hidden : option nat) (c : ffn_cfg) (st : option (ffn_state (T := T)))   (* 312-388 *)
| LRIN (w : rin_width) (adaptive : bool) (out_dim : int) (force : bool)
       (kernel : option (list (list T))) (st : option (rin_state (T := T)))  (* 391-568 *)
| LRDW (dirichlet : bool) (st : option (list T))                             (* 571-613 *)
| LJLD (out : nat -> nat) (distribute bias : bool) (st : option (jld_state (T := T)))
       (* 616-746; out d is the number of output dimensions for d input dimensions *)
| LSPE (freq : T) (op : pystr) (fn : option (T -> T)) (step : option pystr) (max_length : option nat)  (* 749-835 *)
| LRPE (freq : T) (max_length : option nat)                                  (* 838-907 *)
| LCTS (s : cts_arg) (pseudo : bool)                                         (* 910-958 *)
| LQTC (a b : nat) (lower : bool) (bound : option T) (st : option T)         (* 961-1015, q = a/b *)
| LFUN (f : dataset T -> res (dataset T))                                    (* 1018-1048 *)
| LDIL (clusters : option (nat -> int)) (st : option dil_state)              (* filter.py 11-68 *)
| LWIN (start stop : pystr)                                                  (* filter.py 71-120 *)
| LDOT (n : dot_arg) (first : option dot_arg) (st : option (int * int))      (* filter.py 123-206 *)
| LPDD (dn dd pn pd : nat) (st : option pdd_state).                          (* filter.py 209-270 *)

(** [_fit]; abstract.py 16-17 does nothing. *)
Definition leaf_fit (r : rand T) (f : leaf) (X : dataset T) : res leaf :=
  match f with
  | LSTD c st => Ok (LSTD c (std_fit c X st))
  | LMAV w st => Ok (LMAV w (mav_fit w X st))
  | LFFN o h c _ =>
      let d := dimX X in let hid := match h with None => 2 * d | Some k => k end in
      Ok (LFFN o h c (Some {| ffn_w1 := r_mat r 0 hid d; ffn_b := hd [] (r_mat r 1 1 hid); ffn_w2 := r_mat r 2 o hid |}))
  | LRIN w a o f (Some k) _ => Ok (LRIN w a o f (Some k) (Some (rin_fit_const k (dimX X))))
  | LRIN w a o f None _ =>
      let width := match w with RWFun g => g (lenX X) | RWInt z => Z.min z (Z.of_nat (lenX X) - 1) end in
      let! st := rin_fit o f (r_mat r 0 (dimX X) (Z.to_nat width)) (r_idx r 0) (dimX X) in
      Ok (LRIN w a o f None (Some st))
  | LRDW d _ => let! w := rdw_fit eps0 d (hd [] (r_mat r 0 1 (dimX X))) X in Ok (LRDW d (Some w))
  | LJLD out ds b _ =>
      let d := dimX X in let o := out d in
      let! st := jld_fit o ds b (hd [] (r_mat r 0 1 (if ds then d else d * o))) (hd [] (r_mat r 1 1 o)) (r_idx r 0) d in
      Ok (LJLD out ds b (Some st))
  | LQTC a b lo bd _ => Ok (LQTC a b lo bd (Some (qtc_fit a b X)))
  | LDIL cl _ => let! st := dil_fit cl (r_nat r 0) (r_idx r 0) (fun i => r_nat r (S i)) X in Ok (LDIL cl (Some st))
  | LDOT n fi _ => Ok (LDOT n fi (Some (dot_fit n fi X)))
  | LPDD a b c d _ => Ok (LPDD a b c d (Some (pdd_fit a b c d X)))
  | _ => Ok f
  end.

(** numpy broadcasting of two axes. *)
Definition bcast {A B} (l1 : list A) (l2 : list B) : res (list A * list B) :=
  if length l1 =? length l2 then Ok (l1, l2)
  else match l1, l2 with
       | [x], _ => Ok (repeat x (length l2), l2)
       | _, [y] => Ok (l1, repeat y (length l1))
       | _, _ => Err ValueError
       end.
(** [X * wave] resp. [X + wave] for a wave of shape (n', 1, l'). *)
Definition wave_apply (op : T -> T -> T) (X : dataset T) (wave : list (series T)) : res (dataset T) :=
  let! (X', W) := bcast X wave in
  map2M (fun x w => mapM (fun row => let! (a, b) := bcast row w in Ok (map2 op a b)) x) X' W.
(** transform.py 789-812 [SPE._transform] *)
Definition spe_run (inp : dataset T) (freq : T) (op : pystr) (fn : option (T -> T)) (step : option pystr)
    (ml : option nat) (X : dataset T) : res (dataset T) :=
  let f := match fn with None => nsin | Some g => g end in
  let! wave :=
    match step with
    | None => let t := powf (nofnat (match ml with None => lenX X | Some m => m end)) freq in
              Ok [map (fun i => f (ndiv (nofnat i) t)) (seq 0 (lenX X))]
    | Some key =>
        let! v := cache_fresh parse inp CISS key in
        match v with
        | VSum sums => Ok (map (fun s => let t := powf (match ml with None => last s nzero | Some m => nofnat m end) freq in
                                      map (fun x => f (ndiv x t)) s) sums)
        | VCoq _ => Err ValueError
        end
    end in
  if eqs op (str "multiplicative") then wave_apply nmul X wave
  else if eqs op (str "additive") then wave_apply nadd X wave
  else Err ValueError.
(** filter.py 93-108 [WIN._transform]; more series than the cache has rows: IndexError. *)
Definition win_run (inp : dataset T) (start stop : pystr) (X : dataset T) : res (dataset T) :=
  let! a := cache_fresh parse inp COQUANTILE (start ++ str ":L2") in
  let! b := cache_fresh parse inp COQUANTILE (stop ++ str ":L2") in
  match a, b with
  | VCoq cs, VCoq ce => if length X <=? Nat.min (length cs) (length ce) then win_apply cs ce X else Err IndexError
  | _, _ => Err ValueError
  end.
(** [_transform]; [inp] is the input of the cache. *)
Definition leaf_transform (inp : dataset T) (f : leaf) (X : dataset T) : res (dataset T) :=
  match f with
  | LINC c => inc_transform c X
  | LSTD c st => std_transform c st X
  | LNRM s => nrm_transform s X
  | LMAV w st => mav_transform w st X
  | LLAG => lag_transform X
  | LFFN _ _ c st => ffn_transform c st X
  | LRIN _ a _ _ _ st => rin_transform a st X
  | LRDW _ st => match st with
                 | None => Err AttributeError
                 | Some w => mapM (fun x => let! (rows, es) := bcast x w in      (* X ** w[newaxis, :, newaxis] *)
                                            Ok (map2 (fun row e => map (fun v => powf v e) row) rows es)) X
                 end
  | LJLD _ _ _ st => jld_transform st X
  | LSPE fr op fn step ml => spe_run inp fr op fn step ml X
  | LRPE fr ml => rpe_transform (powf (nofnat (match ml with None => lenX X | Some m => m end)) fr) X
  | LCTS s p => cts_transform s p X
  | LQTC _ _ lo bd st => qtc_transform lo bd st X
  | LFUN g => g X
  | LDIL _ st => dil_transform st X
  | LWIN a b => win_run inp a b X
  | LDOT _ _ st => dot_transform st X
  | LPDD _ _ _ _ st => pdd_transform st X
  end.
(** [_copy]: a new object made from the constructor arguments; STD does not
    pass std_eps on (transform.py 146-147). *)
Definition leaf_copy (f : leaf) : leaf :=
  match f with
  | LSTD c _ => LSTD (std_copy eps0 c) None
  | LMAV w _ => LMAV w None
  | LFFN o h c _ => LFFN o h c None
  | LRIN w a o f k _ => LRIN w a o f k None
  | LRDW d _ => LRDW d None
  | LJLD o ds b _ => LJLD o ds b None
  | LQTC a b lo bd _ => LQTC a b lo bd None
  | LDIL cl _ => LDIL cl None
  | LDOT n fi _ => LDOT n fi None
  | LPDD a b c d _ => LPDD a b c d None
  | LINC _ | LNRM _ | LLAG | LSPE _ _ _ _ _ | LRPE _ _ | LCTS _ _ | LFUN _ | LWIN _ _ => f
  end.
(** The class name, i.e. the label up to the first "(". *)
Definition leaf_name (f : leaf) : pystr :=
  match f with
  | LINC _ => "INC" | LSTD _ _ => "STD" | LNRM _ => "NRM" | LMAV _ _ => "MAV" | LLAG => "LAG"
  | LFFN _ _ _ _ => "FFN" | LRIN _ _ _ _ _ _ => "RIN" | LRDW _ _ => "RDW" | LJLD _ _ _ _ => "JLD"
  | LSPE _ _ _ _ _ => "SPE" | LRPE _ _ => "RPE" | LCTS _ _ => "CTS" | LQTC _ _ _ _ _ => "QTC" | LFUN _ => "FUN"
  | LDIL _ _ => "DIL" | LWIN _ _ => "WIN" | LDOT _ _ _ => "DOT" | LPDD _ _ _ _ _ => "PDD"
  end%string.

(** Objects: the cache attribute and the two wrappers (wrapper.py 11-103). *)
Inductive prep :=
| PLeaf (f : leaf) (ca : option (dataset T))
| PDim (p : prep) (dim : list int) (ca : option (dataset T))
| PNew0 (ca : option (dataset T))                      (* NEW() *)
| PNew (p : prep) (ca : option (dataset T)).           (* NEW(p) *)
Definition pr_cache (p : prep) : option (dataset T) :=
  match p with PLeaf _ ca | PDim _ _ ca | PNew0 ca | PNew _ ca => ca end.
(** [p._cache = c] *)
Definition pr_set_cache (p : prep) (ca : option (dataset T)) : prep :=
  match p with PLeaf f _ => PLeaf f ca | PDim q d _ => PDim q d ca | PNew0 _ => PNew0 ca | PNew q _ => PNew q ca end.
(** [copy()] *)
Fixpoint pr_copy (p : prep) : prep :=
  match p with
  | PLeaf f _ => PLeaf (leaf_copy f) None
  | PDim q d _ => PDim (pr_copy q) d None
  | PNew0 _ => PNew0 None
  | PNew q _ => PNew (pr_copy q) None
  end.
(** seed.py 26-35 [fit] around [_fit]: a cache made from X is put in place when
    there is none and removed afterwards, unless [_fit] raises. *)
Fixpoint pr_fit (r : rand T) (p : prep) (X : dataset T) : res unit * prep :=
  let inp := match pr_cache p with Some i => i | None => X end in
  let had := pr_cache p in
  match p with
  | PLeaf f _ => match leaf_fit r f X with Ok f' => (Ok tt, PLeaf f' had) | Err e => (Err e, PLeaf f (Some inp)) end
  | PDim q d _ =>                                       (* wrapper.py 37-38 *)
      match mapM (py_index (dimX X)) d with
      | Err e => (Err e, PDim q d (Some inp))
      | Ok dims => match pr_fit r q (map (select_dims dims) X) with
                   | (Ok _, q') => (Ok tt, PDim q' d had)
                   | (Err e, q') => (Err e, PDim q' d (Some inp))
                   end
      end
  | PNew0 _ => (Ok tt, PNew0 had)
  | PNew q _ => match pr_fit r q X with                 (* wrapper.py 74-76 *)
                | (Ok _, q') => (Ok tt, PNew q' had)
                | (Err e, q') => (Err e, PNew q' (Some inp))
                end
  end.
(** seed.py 40-51 [transform] *)
Fixpoint pr_transform (p : prep) (X : dataset T) : res (dataset T) * prep :=
  let inp := match pr_cache p with Some i => i | None => X end in
  let had := pr_cache p in
  match p with
  | PLeaf f _ => match leaf_transform inp f X with Ok Y => (Ok Y, PLeaf f had) | Err e => (Err e, PLeaf f (Some inp)) end
  | PDim q d _ =>
      match mapM (py_index (dimX X)) d with
      | Err e => (Err e, PDim q d (Some inp))
      | Ok dims =>
          let (r, q') := pr_transform q (map (select_dims dims) X) in
          match dim_transform d (fun _ => r) X with
          | Ok Y => (Ok Y, PDim q' d had)
          | Err e => (Err e, PDim q' d (Some inp))
          end
      end
  | PNew0 _ => match new_transform None X with Ok Y => (Ok Y, PNew0 had) | Err e => (Err e, PNew0 (Some inp)) end
  | PNew q _ =>
      let (r, q') := pr_transform q X in
      match new_transform (Some (fun _ => r)) X with
      | Ok Y => (Ok Y, PNew q' had)
      | Err e => (Err e, PNew q' (Some inp))
      end
  end.
Definition pr_name (p : prep) : pystr :=
  match p with PLeaf f _ => leaf_name f | PDim _ _ _ => "DIM" | PNew0 _ | PNew _ _ => "NEW" end%string.
End PrepObj.
Arguments leaf T : clear implicits.
Arguments prep T : clear implicits.
