(** Model of the parallel loops: every [for i in numba.prange(n)] of the
    project as a set of iterations that read and write the shared result
    array in an arbitrary interleaving.

    numba runs a prange loop by handing chunks of iterations to worker
    threads; here every iteration may be interleaved with every other one at
    every single read and write of the shared array, which includes all
    chunkings and all numbers of threads.  The arrays an iteration only reads
    (the input, kernels, cuts, quantiles) are values; scalars and arrays
    assigned inside the loop body are private to the iteration (numba
    privatises them), so they are values as well.  A nested prange is treated
    as one loop over all pairs. *)
From Coq Require Import List Arith ZArith Bool.
From Verif Require Import Num Arr M_Str M_Np M_Semiring M_Prep M_Cache M_Sieve M_Words M_Cos.
Import ListNotations.

(** An index tuple [result[i, j, k]] is the list [[i; j; k]]. *)
Notation addr := (list nat) (only parsing).

Section Lang.
Context {V : Type}.
(** The contents of the shared array. *)
Definition mem := list nat -> V.
Definition addr_eqb (a b : addr) : bool := if list_eq_dec Nat.eq_dec a b then true else false.
Definition store (m : mem) (a : addr) (v : V) : mem := fun b => if addr_eqb a b then v else m b.

(** What is left to do of one iteration. *)
Inductive prog :=
| Halt
| Wr (a : addr) (v : V) (rest : prog)             (* result[a] = v *)
| Rd (a : addr) (rest : V -> prog).               (* a read of result[a] *)

(** One atomic action of any of the iterations. *)
Inductive step : mem * list prog -> mem * list prog -> Prop :=
| step_wr m ps i a v r : nth_error ps i = Some (Wr a v r) -> step (m, ps) (store m a v, upd i r ps)
| step_rd m ps i a k : nth_error ps i = Some (Rd a k) -> step (m, ps) (m, upd i (k (m a)) ps).
Inductive steps : mem * list prog -> mem * list prog -> Prop :=
| steps_nil c : steps c c
| steps_cons c1 c2 c3 : step c1 c2 -> steps c2 c3 -> steps c1 c3.
Definition finished (ps : list prog) : Prop := Forall (fun p => p = Halt) ps.

(** Consecutive assignments. *)
Definition writes (l : list (addr * V)) : prog := fold_right (fun av r => Wr (fst av) (snd av) r) Halt l.
End Lang.
Arguments prog V : clear implicits.
Arguments mem V : clear implicits.

Section Loops.
Context {T : Type} `{Num T}.
(** The cells of the assignment [result[pre] = M]. *)
Definition row_cells (pre : addr) (r : list T) : list (addr * T) :=
  map (fun t => (pre ++ [t], nth t r nzero)) (seq 0 (length r)).
Definition matrix_cells (pre : addr) (M : list (list T)) : list (addr * T) :=
  flat_map (fun r => row_cells (pre ++ [r]) (nth r M [])) (seq 0 (length M)).

(** semiring.py 184-201, 379-403, 554-571: iteration [j] of
    [_iterated_sum_fast]. *)
Definition iss_iter (s : semiring) (X : dataset T) (word : list (list int)) (alpha : list T)
    (lookup : list (list T)) (ext : nat) (total : bool) (j : nat) : prog T :=
  writes (matrix_cells [j] (fast_single s (nth j X []) word alpha (nth j lookup []) ext total)).
Definition iss_threads s X word alpha lookup ext total : list (prog T) :=
  map (iss_iter s X word alpha lookup ext total) (seq 0 (length X)).

(** cos.py 135-139, 157-161, 178-180: iteration [i]; [single f x] is the call
    of the kernel for the frequency with number f. *)
Definition cos_iter (nfreqs : nat) (single : nat -> mts T -> list T) (X : dataset T) (i : nat) : prog T :=
  writes (flat_map (fun f => row_cells [f; i] (single f (nth i X []))) (seq 0 nfreqs)).
(** cos.py 304-328: which kernel is called for word number [w] and frequency
    number [f]. *)
Definition cos_call (c : cos_cfg T) (st : cos_state T) (w : nat) (word : sword T) (f : nat) (x : mts T) : list T :=
  let W := get_weightings (cw_exp c) (cw_total c) (length (sw_exts word)) in
  let fr := nth f (cw_freqs c) nzero in
  match cw_ffn c, cs_ffn st with
  | Some _, Some net => cos_single (cos_ffn (net w f) x) (sw_exts word) fr W (fun _ => [])
  | _, _ =>
      match cw_drop c, cs_drop st with
      | Some _, Some idx => cos_single x (sw_exts word) fr W (idx w f)
      | _, _ => cos_single x (sw_exts word) fr W (fun _ => [])
      end
  end.
Definition cos_threads nfreqs single X : list (prog T) := map (cos_iter nfreqs single X) (seq 0 (length X)).

(** transform.py 235-238 [MAV._backend]: iteration (i, j) for arrays of shape
    (n, d, l). *)
Definition mav_iter (width : nat) (X : dataset T) (l : nat) (ij : nat * nat) : prog T :=
  let (i, j) := ij in
  writes (map (fun k => ([i; j; k - 1],
                         ndiv (vsum (firstn (k - (k - width)) (skipn (k - width) (nth j (nth i X []) []))))
                              (nofnat width)))
              (seq width (l + 1 - width))).
Definition mav_threads width X (n d l : nat) : list (prog T) :=
  map (mav_iter width X l) (list_prod (seq 0 n) (seq 0 d)).

(** transform.py 455-468 [RIN._backend]: iteration [i]; [start] is the
    private variable [start_dim]. *)
Fixpoint rin_cells (kernel : list (list T)) (dims : list nat) (x : mts T) (w l i : nat)
    (ndim : list nat) (new_dim start : nat) : list (addr * T) :=
  match ndim with
  | [] => []
  | nd :: r =>
      map (fun k => ([i; new_dim; k],
             fold_left (fun s j =>
               nadd (fold_left (fun s l => nadd s (nmul (nopp (at3 x (nth j dims 0) l))
                                                        (nth (l + w - k) (nth j kernel []) nzero)))
                               (seq (k - w) w) s)
                    (at3 x j k)) (seq start nd) nzero)) (seq w (l - w))
      ++ rin_cells kernel dims x w l i r (S new_dim) (start + nd)
  end.
Definition rin_iter (kernel : list (list T)) (ndim dims : list nat) (X : dataset T) (l i : nat) : prog T :=
  writes (rin_cells kernel dims (nth i X []) (tlen kernel) l i ndim 0 0).
Definition rin_threads kernel ndim dims X (n l : nat) : list (prog T) :=
  map (rin_iter kernel ndim dims X l) (seq 0 n).

(** transform.py 659-669 [JLD._backend]: iteration (i, k); the compound
    assignment reads and writes the shared array. *)
Definition jld_add (a : addr) (v : T) (rest : prog T) : prog T := Rd a (fun old => Wr a (nadd old v) rest).
Fixpoint jld_body (kernel bias : list T) (dims : list nat) (x : mts T) (i k : nat)
    (ndim : list nat) (new_dim start : nat) : prog T :=
  match ndim with
  | [] => Halt
  | nd :: r =>
      fold_right (fun j rest => jld_add [i; new_dim; k]
                    (nadd (nmul (at3 x (nth j dims 0) k) (nth j kernel nzero)) (nth new_dim bias nzero)) rest)
                 (jld_body kernel bias dims x i k r (S new_dim) (start + nd)) (seq start nd)
  end.
Definition jld_threads (kernel bias : list T) (ndim dims : list nat) (X : dataset T) (n l : nat) : list (prog T) :=
  map (fun ik => jld_body kernel bias dims (nth (fst ik) X []) (fst ik) (snd ik) ndim 0 0)
      (list_prod (seq 0 n) (seq 0 l)).

(** transform.py 865-874 [RPE._backend]: iteration (i, k); [den] is T**freq. *)
Definition rpe_iter (den : T) (X : dataset T) (ik : nat * nat) : prog T :=
  let (i, k) := ik in
  let th := ndiv (nofnat k) den in
  let a := at3 (nth i X []) 0 k in let b := at3 (nth i X []) 1 k in
  writes [([i; 0; k], nsub (nmul (ncos th) a) (nmul (nsin th) b));
          ([i; 1; k], nadd (nmul (nsin th) a) (nmul (ncos th) b))].
Definition rpe_threads den X (n l : nat) : list (prog T) :=
  map (rpe_iter den X) (list_prod (seq 0 n) (seq 0 l)).

(** segment.py 129-141, 177-189, 252-260, 295-303, 338-346 and increment.py
    121-129, 152-163, 187-198, 222-239: iteration [i] of a sieve backend,
    columns j*(nq-1)+k.  An exception ends the iteration. *)
Fixpoint bins_body (k : seg_kind) (x : series T) (i col : nat) (ab : Z * Z) (bins : list (xnum T * xnum T))
    (rest : prog T) : prog T :=
  match bins with
  | [] => rest
  | e :: r => match cell k x (fst ab) (snd ab) (fst e) (snd e) with
              | Err _ => Halt
              | Ok v => Wr [i; col] v (bins_body k x i (S col) ab r rest)
              end
  end.
Fixpoint segs_body (k : seg_kind) (x : series T) (i j : nat) (segs : list (Z * Z)) (bins : list (xnum T * xnum T)) : prog T :=
  match segs with
  | [] => Halt
  | ab :: r => bins_body k x i (j * length bins) ab bins (segs_body k x i (S j) r bins)
  end.
Definition sieve_threads (k : seg_kind) (edges : list (xnum T)) (X : mts T) (cuts : list (list Z)) : list (prog T) :=
  map (fun i => segs_body k (nth i X []) i 0 (pairs (nth i cuts [])) (pairs edges)) (seq 0 (length X)).

(** cache.py 20-21 [_coquantile], 29-30 [_L1_sum], 38-39 [_L2_sum]. *)
Definition coq_threads (q : T) (Y : list (series T)) : list (prog nat) :=
  map (fun i => writes [([i], coquantile1 q (nth i Y []))]) (seq 0 (length Y)).
Definition l1_threads (X : dataset T) : list (prog T) :=
  map (fun i => writes (row_cells [i] (cumsum (map nabs (inc_first (nth i X [])))))) (seq 0 (length X)).
Definition l2_threads (X : dataset T) : list (prog T) :=
  map (fun i => writes (row_cells [i] (cumsum (map (fun v => nmul v v) (inc_first (nth i X [])))))) (seq 0 (length X)).
End Loops.
