(** Integer datasets: dtypes along the pipeline.

    numpy arrays carry a dtype.  The rest of the model computes with numbers
    only, which is right for float64 arrays.  Here every array is given a dtype,
    int64 or float64 (an int64 array holds integers; overflow is not modelled),
    and the places where it matters are made explicit:
    - a function compiled by numba with an explicit signature (f8[:,:,:] ...)
      called with an integer array is a TypeError,
    - [np.zeros_like(X)], [X.copy()] and [dtype=X.dtype] give an array of the
      same dtype, and storing a float in an integer array truncates it,
    - [np.concatenate] gives a float array if one of the arrays is one.
    A function given by the user (FUN, SPE's [function], Custom weightings) is
    taken to return a float array. *)
From Coq Require Import Ascii String List Arith ZArith Bool.
From Verif Require Import Num Arr M_Str M_Np M_Prep M_Cache M_PrepObj M_Semiring M_Words M_ISS M_Cos M_Seeds.
Import ListNotations.

Section Dtype.
Context {T : Type} `{Num T}.
Variable parse : pystr -> res T.            (* float() *)
Variable powf : T -> T -> T.                (* x ** y on floats *)
Variable eps5 : T.                          (* 1e-5 *)

(** Calling a compiled function with an array of dtype [dt]. *)
Definition float_only (dt : dtype) : res unit := match dt with TInt => Err TypeError | TFloat => Ok tt end.
(** [np.concatenate] *)
Definition promote (a b : dtype) : dtype := match a, b with TInt, TInt => TInt | _, _ => TFloat end.
Definition as_float (r : res (dataset T)) : res (dtype * dataset T) := let! Y := r in Ok (TFloat, Y).
Definition as_is (dt : dtype) (r : res (dataset T)) : res (dtype * dataset T) := let! Y := r in Ok (dt, Y).
(** cache.py 95-135 [get] on a cache whose input has dtype [cd]: [_L1_sum] and
    [_L2_sum] are compiled functions. *)
Definition cache_dt (cd : dtype) (inp : dataset T) (t : ctype) (key : pystr) : res (cval T) :=
  let lp := fun norm => eqs norm (str "L1") || eqs norm (str "L2") in
  let! _ := (match t with
             | COQUANTILE => match split_on colon key with
                             | [c; norm] => if lp norm then float_only cd else Ok tt
                             | _ => Ok tt
                             end
             | CISS => if lp key then float_only cd else Ok tt
             end) in
  cache_fresh parse inp t key.
(** [_transform] of the preparateurs; [cd] is the dtype of the input [inp] of
    the cache, [dt] that of X.  Compiled: INC (cache.py 8, transform.py 71),
    MAV (227), RIN (441, np.pad keeps the dtype), JLD (645), RPE (853).  Same
    dtype as X: NRM (195), CTS (944), DIL (filter.py 59), WIN (102), PDD (255);
    float: STD, LAG (292), FFN, RDW, SPE, QTC (np.where with the fitted
    quantile), DOT (192). *)
Definition leaf_dt (cd : dtype) (inp : dataset T) (dt : dtype) (f : leaf T) (X : dataset T) : res (dtype * dataset T) :=
  match f with
  | LINC c => match inc_depth c with
              | O => as_is dt (inc_transform c X)
              | S _ => let! _ := float_only dt in as_float (inc_transform c X)
              end
  | LNRM s => let! Y := nrm_transform s X in Ok (dt, map (map (map (store dt))) Y)
  | LMAV w st => match st, w with
                 | None, _ => Err RuntimeError
                 | Some _, WInt (-1)%Z => as_float (mav_transform w st X)
                 | Some _, _ => let! _ := float_only dt in as_float (mav_transform w st X)
                 end
  | LRIN _ a _ _ _ st => match st with
                         | None => Err RuntimeError
                         | Some _ => let! _ := float_only dt in as_float (rin_transform a st X)
                         end
  | LJLD _ _ _ st => match st with
                     | None => Err AttributeError
                     | Some _ => let! _ := float_only dt in as_float (jld_transform st X)
                     end
  | LRPE _ _ => if dimX X =? 2 then let! _ := float_only dt in as_float (leaf_transform parse powf inp f X)
                else Err ValueError
  | LSPE _ _ _ step _ =>
      let! _ := (match step with Some key => let! _ := cache_dt cd inp CISS key in Ok tt | None => Ok tt end) in
      as_float (leaf_transform parse powf inp f X)
  | LWIN start stop =>
      let! _ := cache_dt cd inp COQUANTILE (start ++ str ":L2") in
      let! _ := cache_dt cd inp COQUANTILE (stop ++ str ":L2") in
      as_is dt (leaf_transform parse powf inp f X)
  | LCTS _ _ | LDIL _ _ | LPDD _ _ _ _ _ => as_is dt (leaf_transform parse powf inp f X)
  | LSTD _ _ | LLAG | LFFN _ _ _ _ | LRDW _ _ | LQTC _ _ _ _ _ | LFUN _ | LDOT _ _ _ =>
      as_float (leaf_transform parse powf inp f X)
  end.
(** seed.py 40-51 [transform] with wrapper.py 40-44 and 78-95: DIM concatenates,
    NEW copies into an array of X's dtype.  [cd] is the dtype of the caches that
    are attached to the objects; an object without cache gets one made from X. *)
Fixpoint pr_dt (cd : dtype) (p : prep T) (dt : dtype) (X : dataset T) : res (dtype * dataset T) :=
  match p with
  | PLeaf f ca => match ca with
                  | Some inp => leaf_dt cd inp dt f X
                  | None => leaf_dt dt X dt f X
                  end
  | PDim q d _ =>
      let! dims := M_Np.mapM (py_index (dimX X)) d in
      let! (dq, Y) := pr_dt cd q dt (map (select_dims dims) X) in
      as_is (promote dt dq) (dim_transform d (fun _ => Ok Y) X)
  | PNew0 _ => as_is dt (new_transform None X)
  | PNew q _ =>
      let! (dq, Y) := pr_dt cd q dt X in
      as_is dt (new_transform (Some (fun _ => Ok (map (map (map (store dt))) Y))) X)
  end.
(** The preparateurs of a slice, one after the other (fruit.py 526-530). *)
Fixpoint chain_dt (cd : dtype) (ps : list (prep T)) (dt : dtype) (X : dataset T) : res (dtype * dataset T) :=
  match ps with
  | [] => Ok (dt, X)
  | p :: r => let! (d, Y) := pr_dt cd p dt X in chain_dt cd r d Y
  end.
Fixpoint chain (ps : list (prep T)) (X : dataset T) : res (dataset T) :=
  match ps with [] => Ok X | p :: r => let! Y := fst (pr_transform parse powf p X) in chain r Y end.

(** weighting.py 148-151 and 198-201: L1 and L2. *)
Definition lookup_dt (cd dt : dtype) (inp : dataset T) (k : wkind) (X : dataset T) : res (list (series T)) :=
  let! _ := (match k with WLp _ prepared _ _ _ => float_only (if prepared then dt else cd) | _ => Ok tt end) in
  wt_lookup eps5 inp k X.
(** iss.py 21-67 with semiring.py 14-42: a simple word is handed to a compiled
    function; other words are computed with numpy, starting from a float array. *)
Fixpoint plain_dt (cd dt : dtype) (inp : dataset T) (c : iss_obj) (X : dataset T) (i : nat) (ws : list (iword T))
    : list (res (list (mts T))) :=
  match ws with
  | [] => []
  | w :: r =>
      let cfg := io_cfg eps5 inp c in
      let rows :=
        if (match is_plan_opt cfg with None => is_argmax (io_sr c) | Some _ => false end) then Err NotImplementedError
        else
          let! _ := (match io_wt c with
                     | Some (k, _) => if is_simple w then lookup_dt cd dt inp k X else Ok []
                     | None => Ok [] end) in
          let! _ := (if is_simple w then float_only dt else Ok tt) in
          batch_rows (io_sr c) X (is_wt cfg) (is_plan_opt cfg) i [iw_val w] in
      match rows with
      | Err e => [Err e]
      | Ok b => Ok b :: plain_dt cd dt inp c X (S i) r
      end
  end.
(** [batch_transform(X)] resp. cos.py 301-333 (all three kernels are compiled). *)
Definition iss_dt (cd dt : dtype) (i : issO T) (X : dataset T) : list (res (list (mts T))) :=
  match i with
  | IPlain c ca =>
      match io_words c with
      | [] => [Err ValueError]
      | ws => match ca with
              | Some inp => plain_dt cd dt inp c X 0 ws
              | None => plain_dt dt dt X c X 0 ws
              end
      end
  | ICos c st _ => match dt, cos_batches c st X 1 with
                   | TInt, _ :: _ => [Err TypeError]
                   | _, bs => bs
                   end
  end.
End Dtype.
