(** Specification vocabulary for C33: what callbacks receive. *)
From Coq Require Import Ascii String List Arith ZArith Bool.
From Verif Require Import Num Arr M_Str M_Np M_Fruit S_Fruit.
Import ListNotations.

Section Trace.
Context {T : Type} `{Num T}.
Variable K : kit T.
Notation heap := (heap K).

(** Everything callback number [cb] was called with so far, in order. *)
Definition received (h : heap) (cb : nat) : list (event T) :=
  map snd (filter (fun e => fst e =? cb) (rev (h_log K h))).
(** A feature matrix of which only the first m columns are computed. *)
Definition first_columns (m : nat) (B : mts T) : mts T := map (fun row => firstn m row ++ repeat nzero (length row - m)) B.
(** The calls during the transform of slice [s] of state [h] that returns B:
    one on_preparateur per preparateur with its output, on_preparation_end with
    the prepared data, then for every iterated sum (in the order of C25)
    on_iterated_sum with the iterated sum and one on_sieve per sieve, finally
    on_sieving_end with B.

    The argument of on_sieve, for the sieve whose nf features are the columns
    k, ..., k+nf-1, consists of the ROWS k, ..., k+nf-1 of the matrix with the
    columns computed so far. *)
Definition slice_trace (h : heap) (c X : dataset T) (s : slice) (B : mts T) (tr : list (event T)) : Prop :=
  exists ps is svs Zs ns blocks,
    objs (h_p K h) (sl_p s) ps /\ objs (h_i K h) (sl_i s) is /\ objs (h_s K h) (sl_s s) svs /\
    stages K c ps X Zs /\ Forall2 (fun i n => i_n K i = Ok n) is ns /\
    tr = map EPrep Zs ++ EPrepEnd (last Zs X) :: concat blocks ++ [ESieveEnd B] /\
    length blocks = fold_right Nat.mul 1 ns /\
    forall js, Forall2 lt js ns -> exists Z args,
      itsum K (map (i_attach K c) is) js (last Zs X) Z /\
      nth_error blocks (radix ns js) = Some (EItsum Z :: map ESieve args) /\
      length args = length svs /\
      forall j v, nth_error svs j = Some v ->
      let nfs := map (s_nf K) svs in
      let k := radix ns js * list_sum nfs + list_sum (firstn j nfs) in
      nth_error args j = Some (firstn (s_nf K v) (skipn k (first_columns (k + s_nf K v) B))).
End Trace.
