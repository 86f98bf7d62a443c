(** The preparation stage with numpy arrays as objects in memory: which arrays
    are allocated, shared and written to (fruits/preparation/*.py, fruits/seed.py,
    fruits/fruit.py 431-440, 473-477 and 525-532).

    M_Prep and M_PrepObj say WHAT [transform] returns; this file says WHERE: the
    statements of the Python methods are executed one by one on a heap of arrays.
    A block of memory holds one array of shape (n, d, l); an array is a block
    together with the rows (first axis) that are visible, which covers the views
    the code makes of a caller's array (fruit.py 437).  An assignment to a slice
    evaluates its right-hand side first (numpy buffers overlapping operands).
    Kernels compiled by numba and numpy expressions return newly allocated arrays
    with the contents given in M_Prep (their loops over the result: M_Par).
    Simplifications: two-dimensional arrays (cached sums, weights) are values;
    the views [out[:, :, w:]] and [.swapaxes] of RIN and FFN, taken of an array
    that is not used otherwise, are arrays of their own. *)
From Coq Require Import Ascii String List Arith ZArith Bool.
From Verif Require Import Num Arr M_Str M_Np M_Prep M_Cache M_PrepObj.
Import ListNotations.

Section Mem.
Context {T : Type} `{Num T}.

(** Memory, and references to arrays in it. *)
Definition memory := list (dataset T).
Record arr := { base : nat; rows : list nat }.
(** The contents of an array. *)
Definition load (m : memory) (a : arr) : dataset T := map (fun i => nth i (nth (base a) m []) []) (rows a).
(** Row [i] of the view becomes row [rows a !! i] of the block. *)
Definition put_rows (rs : list nat) (Y block : dataset T) : dataset T :=
  fold_left (fun b p => upd (fst p) (snd p) b) (combine rs Y) block.
Definition put (a : arr) (Y : dataset T) (m : memory) : memory :=
  upd (base a) (put_rows (rows a) Y (nth (base a) m [])) m.

(** Programs: they return something or raise, and change the memory. *)
Definition mem (A : Type) := memory -> res A * memory.
Definition ret {A} (x : A) : mem A := fun m => (Ok x, m).
Definition fail {A} (e : exn) : mem A := fun m => (Err e, m).
Definition seqm {A B} (c : mem A) (k : A -> mem B) : mem B :=
  fun m => match c m with (Ok x, m') => k x m' | (Err e, m') => (Err e, m') end.
Notation "'do!' x := c 'in' k" := (seqm c (fun x => k)) (at level 200, x name, c at level 100, k at level 200).
Notation "c ;; k" := (seqm c (fun _ => k)) (at level 100, right associativity).
Definition contents (a : arr) : mem (dataset T) := fun m => (Ok (load m a), m).
(** a value that is computed and may raise *)
Definition eval {A} (r : res A) : mem A := fun m => (r, m).
(** a new array: [np.zeros], [np.copy], the result of an expression *)
Definition new_array (Y : dataset T) : mem arr := fun m => (Ok {| base := length m; rows := seq 0 (length Y) |}, m ++ [Y]).
(** an assignment to (a part of) the array [a]: [f] is the new contents as a
    function of the old one *)
Definition assign (a : arr) (f : dataset T -> res (dataset T)) : mem unit :=
  fun m => match f (load m a) with Ok Y => (Ok tt, put a Y m) | Err e => (Err e, m) end.
Fixpoint for_each {A} (l : list A) (body : A -> mem unit) : mem unit :=
  match l with [] => ret tt | x :: r => body x ;; for_each r body end.

(** [a[:, :, lo:hi] = v] *)
Definition set_times (lo hi : option int) (V A : dataset T) : res (dataset T) :=
  map2M (map2M (py_set_slice lo hi)) V A.
(** [a[:, :, lo:hi] = 0] *)
Definition zero_times (lo hi : option int) (A : dataset T) : res (dataset T) :=
  Ok (map (map (py_fill_slice lo hi nzero)) A).
(** [X[:, :, lo:hi]] *)
Definition get_times (lo hi : option int) (A : dataset T) : dataset T := map (map (py_slice lo hi)) A.
(** [np.zeros_like(X)], [np.zeros(X.shape)] *)
Definition zeros_like (X : dataset T) : dataset T := map (map (fun r => zeros (length r))) X.
(** [a[:, j, first::2] = v] *)
Definition set_dim_strided (j first : nat) (V : list (series T)) (A : dataset T) : res (dataset T) :=
  Ok (map2 (fun x v => upd j (set_strided first 2 v (nth j x [])) x) A V).
(** [a[i, j, lo:hi] = v] *)
Definition set_cell (i j : nat) (lo hi : option int) (v : series T) (A : dataset T) : res (dataset T) :=
  let x := nth i A [] in
  let! r := py_set_slice lo hi v (nth j x []) in
  Ok (upd i (upd j r x) A).
(** [a[mask] = V[mask]], the mask given per sample and dimension *)
Definition set_masked (mask : list (list bool)) (V A : dataset T) : res (dataset T) :=
  Ok (map2 (fun ms p => map2 (fun (b : bool) q => if b then fst q else snd q) ms (combine (fst p) (snd p)))
           mask (combine V A)).
(** [a[:, first:, :] = V], [a[:, :first, :] = V] *)
Definition set_dims_from (first : nat) (V A : dataset T) : res (dataset T) :=
  Ok (map2 (fun x v => firstn first x ++ v) A V).
Definition set_dims_upto (V A : dataset T) : res (dataset T) :=
  Ok (map2 (fun x v => v ++ skipn (length v) x) A V).

Variable parse : pystr -> res T.            (* float() *)
Variable powf : T -> T -> T.                (* x ** y *)
(** What calling the function of a FUN does; the function is user code and gets
    the array itself. *)
Variable ufun : (dataset T -> res (dataset T)) -> arr -> mem arr.

(** The [_input] of a cache: a reference to an array (cache.py 74-82 does not
    copy it), or contents that nobody writes to. *)
Inductive source := CRef (a : arr) | CVal (X : dataset T).
Definition look (s : source) : mem (dataset T) := match s with CRef a => contents a | CVal X => ret X end.

(** transform.py 69-75, the loop of [INC._transform]; [out] and [x] may be the
    same array. *)
Fixpoint inc_mem (c : inc_cfg) (k : int) (x : arr) (depth : nat) (out : arr) : mem arr :=
  match depth with
  | O => ret out
  | S m =>
      do! O := contents out in
      do! Y := eval (increments k O) in
      do! out' := new_array Y in                                     (* out = _increments(out, shift) *)
      (if inc_zp c then ret tt
       else match inc_shift c with
            | ShFun _ => fail TypeError
            | ShInt z => do! X := contents x in                      (* out[:, :, :s] = X[:, :, :s] *)
                         assign out' (set_times None (Some z) (get_times None (Some z) X))
            end) ;;
      inc_mem c k x m out'
  end.
(** transform.py 184-198 [NRM._transform] *)
Definition nrm_mem (scale_dim : bool) (x : arr) : mem arr :=
  do! X := contents x in
  do! mns := eval (mapM (mapM vmin) X) in
  do! mxs := eval (mapM (mapM vmax) X) in
  do! mns := (if scale_dim then eval (mapM (fun r => let! v := vmin r in Ok (repeat v (length r))) mns) else ret mns) in
  do! mxs := (if scale_dim then eval (mapM (fun r => let! v := vmax r in Ok (repeat v (length r))) mxs) else ret mxs) in
  let mask := map2 (map2 (fun a b => negb (neqb a b))) mns mxs in
  do! out := new_array (zeros_like X) in
  let V := map2 (fun ab r => map2 (fun p v => map (fun u => ndiv (nsub u (fst p)) (nsub (snd p) (fst p))) v) ab r)
                (map2 (fun a b => combine a b) mns mxs) X in
  assign out (set_masked mask V) ;;
  assign out (fun A => set_masked (map (map negb) mask) (zeros_like A) A) ;;
  ret out.
(** transform.py 291-298 [LAG._transform] *)
Definition lag_mem (x : arr) : mem arr :=
  do! X := contents x in
  if lenX X =? 0 then fail ValueError else
  do! out := new_array (map (fun s => repeat (zeros (2 * lenX X - 1)) (2 * length s)) X) in
  for_each (seq 0 (dimX X)) (fun i =>
    let R := map (fun s => nth i s []) X in
    assign out (set_dim_strided (2 * i) 0 R) ;;
    assign out (set_dim_strided (2 * i) 1 (map (skipn 1) R)) ;;
    assign out (set_dim_strided (2 * i + 1) 0 R) ;;
    assign out (set_dim_strided (2 * i + 1) 1 (map (@removelast T) R))) ;;
  ret out.
(** transform.py 933-944 [CTS._transform] *)
Definition cts_mem (s : cts_arg) (pseudo : bool) (x : arr) : mem arr :=
  do! X := contents x in
  let shift := match s with CInt z => z | CFrac f => Z.max 1 (f (lenX X)) end in
  do! y := new_array X in                                            (* Y = X.copy() *)
  (if pseudo then assign y (zero_times None (Some shift))
   else assign y (fun Y => set_times None (Some (- shift)%Z) (get_times (Some shift) None Y) Y) ;;
        assign y (fun Y => set_times (Some (- shift)%Z) None (get_times (Some (-1)%Z) None Y) Y)) ;;
  ret y.
(** filter.py 56-62 [DIL._transform] and 252-258 [PDD._transform] *)
Definition strips_mem (strips : list (nat * nat)) (x : arr) : mem arr :=
  do! X := contents x in
  do! y := new_array X in                                            (* X.copy() *)
  for_each strips (fun p => assign y (zero_times (Some (Z.of_nat (fst p))) (Some (Z.of_nat (fst p + snd p))))) ;;
  ret y.
(** filter.py 101-108, the loop of [WIN._transform] *)
Definition win_mem (cs ce : list nat) (x : arr) : mem arr :=
  do! X := contents x in
  do! y := new_array (zeros_like X) in
  for_each (seq 0 (length X)) (fun i =>
    for_each (seq 0 (dimX X)) (fun j =>
      let a := Some (Z.of_nat (nth i cs 0%nat) - 1)%Z in let b := Some (Z.of_nat (nth i ce 0%nat)) in
      assign y (set_cell i j a b (py_slice a b (nth j (nth i X []) []))))) ;;
  ret y.
(** filter.py 189-194 [DOT._transform]: [out[:, :, f::n] = X[:, :, f::n]] *)
Definition dot_mem (n first : int) (x : arr) : mem arr :=
  do! X := contents x in
  do! out := new_array (zeros_like X) in
  assign out (map2M (map2M (fun v o => let! idx := stride_idx first n (length o) in
                 Ok (map (fun t => if existsb (Nat.eqb t) idx then nth t v nzero else nth t o nzero) (seq 0 (length o))))) X) ;;
  ret out.
(** [_transform] of a preparateur that wraps no other one: the classes above
    statement by statement, the others are expressions. *)
Definition leaf_mem (inp : source) (f : leaf T) (x : arr) : mem arr :=
  match f with
  | LINC c => do! X := contents x in
              inc_mem c (match inc_shift c with ShInt z => z | ShFun g => g (lenX X) end) x (inc_depth c) x
  | LNRM s => nrm_mem s x
  | LLAG => lag_mem x
  | LCTS s p => cts_mem s p x
  | LFUN g => ufun g x
  | LDIL _ st => match st with None => fail RuntimeError
                 | Some s => strips_mem (combine (dil_indices s) (dil_lengths s)) x end
  | LPDD _ _ _ _ st => match st with None => fail RuntimeError
                       | Some s => strips_mem (map (fun i => (i, pdd_width s)) (pdd_indices s)) x end
  | LWIN start stop =>
      do! I := look inp in
      do! a := eval (cache_fresh parse I COQUANTILE (start ++ str ":L2")) in
      do! b := eval (cache_fresh parse I COQUANTILE (stop ++ str ":L2")) in
      match a, b with
      | VCoq cs, VCoq ce =>
          do! X := contents x in
          if length X <=? Nat.min (length cs) (length ce) then win_mem cs ce x else fail IndexError
      | _, _ => fail ValueError
      end
  | LDOT _ _ st => match st with None => fail RuntimeError | Some (n, first) => dot_mem n first x end
  | _ => do! I := look inp in do! X := contents x in
         do! Y := eval (leaf_transform parse powf I f X) in new_array Y
  end.
(** wrapper.py 40-44 and 78-95 around the statements of the wrapped
    preparateur, whose cache is the one it has or is made from its argument
    (seed.py 40-51). *)
Fixpoint prep_mem (inp : option source) (p : prep T) (x : arr) : mem arr :=
  let src := match inp with Some s => s | None => match pr_cache p with Some i => CVal i | None => CRef x end end in
  match p with
  | PLeaf f _ => leaf_mem src f x
  | PDim q d _ =>
      do! X := contents x in
      do! dims := eval (mapM (py_index (dimX X)) d) in
      do! z := new_array (map (select_dims dims) X) in               (* X[:, self._dim, :] copies *)
      do! t := prep_mem None q z in
      do! X' := contents x in
      do! r := new_array (map (delete_dims dims) X') in              (* np.delete *)
      do! R := contents r in
      do! Y := contents t in
      if same_len X' Y then new_array (map2 (fun x y => x ++ y) R Y) else fail ValueError
  | PNew0 _ =>
      do! X := contents x in
      do! r := new_array (map (fun s => map (fun row => zeros (length row)) s ++ map (fun row => zeros (length row)) s) X) in
      assign r (set_dims_upto X) ;;                                  (* result[:, :d, :] = X *)
      assign r (set_dims_from (dimX X) X) ;;                         (* result[:, d:, :] = X *)
      ret r
  | PNew q _ =>
      do! t := prep_mem None q x in
      do! X := contents x in
      do! Y := contents t in
      do! r := new_array (map (fun s => map (fun row => zeros (length row)) s
                                         ++ repeat (zeros (lenX X)) (dimX Y)) X) in
      assign r (set_dims_upto X) ;;
      (if ((length X =? length Y) || (length Y =? 1)) && ((lenX X =? lenX Y) || (lenX Y =? 1))
       then let Y' := if length X =? length Y then Y else repeat (hd [] Y) (length X) in
            assign r (set_dims_from (dimX X) (map (map (stretch (lenX X))) Y'))
       else fail ValueError) ;;
      ret r
  end.

(** fruit.py 525-532, the preparation stage of [FruitSlice.transform]: every
    preparateur gets the cache of the input and the callbacks get the array that
    [transform] returned. *)
Fixpoint prepare_mem (on_preparateur : list (arr -> mem unit)) (src : source) (ps : list (prep T)) (x : arr) : mem arr :=
  match ps with
  | [] => ret x
  | p :: r =>
      do! y := prep_mem (Some src) p x in
      for_each on_preparateur (fun cb => cb y) ;;
      prepare_mem on_preparateur src r y
  end.
Definition preparation (on_preparateur on_preparation_end : list (arr -> mem unit)) (ps : list (prep T)) (x : arr) : mem arr :=
  do! y := prepare_mem on_preparateur (CRef x) ps x in
  for_each on_preparation_end (fun cb => cb y) ;;
  ret y.
(** fruit.py 431-440 [_select_fit_sample]: one series is a view of the data,
    several ones are a copy; the preparateurs of [fit] (473-477), already fitted,
    are applied to it. *)
Definition view_sample (ind : nat) (x : arr) : arr := {| base := base x; rows := [nth ind (rows x) 0] |}.
Definition copy_sample (inds : list nat) (x : arr) : mem arr :=
  do! X := contents x in new_array (map (fun i => nth i X []) inds).
Definition fit_one (ind : nat) (ps : list (prep T)) (x : arr) : mem arr := prepare_mem [] (CRef x) ps (view_sample ind x).
Definition fit_many (inds : list nat) (ps : list (prep T)) (x : arr) : mem arr :=
  do! z := copy_sample inds x in prepare_mem [] (CRef x) ps z.
End Mem.
