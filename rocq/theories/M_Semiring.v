(** Model of fruits/iss/semiring.py (kernels and dispatch). *)
From Coq Require Import List Arith ZArith Bool.
From Verif Require Import Num Arr.
Import ListNotations.

Section Semiring.
Context {T : Type} `{Num T}.

(** semiring.py:111-117 (same block at 143-149, 476-482, 513-519,
    cos.py:31-37 and 73-79): the occurrences of one letter in an extended letter.
    [Zd] is the row [Z[letter, :]]. *)
Definition apply_letter (Zd : list T) (occ : int) (tmp : list T) : list T :=
  if (0 <? occ)%Z then Nat.iter (Z.to_nat occ) (fun t => vmul t Zd) tmp
  else if (occ <? 0)%Z then Nat.iter (Z.to_nat (- occ)) (fun t => vdiv t Zd) tmp
  else tmp.

(** semiring.py:110 [for letter, occurence in enumerate(extended_letter)].
    Simplification: reading a row [Z[letter]] that does not exist is an
    unchecked read in numba; the model reads [[]], theorems exclude it. *)
Fixpoint apply_ext (Z : mts T) (letter : nat) (el : list int) (tmp : list T) : list T :=
  match el with
  | [] => tmp
  | o :: el' => apply_ext Z (S letter) el' (apply_letter (nth letter Z []) o tmp)
  end.

(** [tmp = np.roll(tmp, 1); tmp[0] = 0] (semiring.py:109-110, 155-156). *)
Definition shift0 (tmp : list T) : list T := upd 0 nzero (roll1 tmp).

(** [np.exp(weights * a)] and [np.exp(- weights * a)]. *)
Definition expw (g : list T) (a : T) : list T := vexp (vscale g a).
Definition expwn (g : list T) (a : T) : list T := vexp (vscale (vneg g) a).

(** [if len(word) - k <= extended: result[extended-(len(word)-k), :] = row]
    (semiring.py:120-121, 152-153, 301-306, 334-335, 485-490, 523-524). *)
Definition save (len k ext : nat) (row : list T) (result : list (list T)) :=
  if (len - k <=? ext)%nat then upd (ext - (len - k)) row result else result.

(** semiring.py:93-125 [_reals_single]. *)
Fixpoint reals_loop (Z : mts T) (alpha : list T) (g : list T) (len ext k : nat)
    (word : list (list int)) (tmp : list T) (result : list (list T)) :=
  match word with
  | [] => result
  | el :: word' =>
      let tmp := if (0 <? k)%nat then shift0 tmp else tmp in
      let tmp := apply_ext Z 0 el tmp in
      let tmp := if (0 <? k)%nat then vmul tmp (expwn g (nth (k-1) alpha nzero)) else tmp in
      let result := save len k ext (cumsum tmp) result in
      let tmp := if (k <? len - 1)%nat
                 then cumsum (vmul tmp (expw g (nth k alpha nzero))) else tmp in
      reals_loop Z alpha g len ext (S k) word' tmp result
  end.
Definition reals_single (Z : mts T) (word : list (list int)) (alpha g : list T) (ext : nat) :=
  reals_loop Z alpha g (length word) ext 0 word (ones (tlen Z))
             (repeat (zeros (tlen Z)) ext).

(** semiring.py:133-158 [_total_weighted_reals_single]. *)
Fixpoint total_reals_loop (Z : mts T) (alpha : list T) (g : list T) (len ext k : nat)
    (word : list (list int)) (tmp : list T) (result : list (list T)) :=
  match word with
  | [] => result
  | el :: word' =>
      let tmp := apply_ext Z 0 el tmp in
      let tmp := vmul tmp (expw g (nth k alpha nzero)) in
      let tmp := cumsum tmp in
      let result := save len k ext (vmul tmp (expwn g (nth k alpha nzero))) result in
      let tmp := if (k <? len - 1)%nat
                 then vmul (shift0 tmp) (expwn g (nth k alpha nzero)) else tmp in
      total_reals_loop Z alpha g len ext (S k) word' tmp result
  end.
Definition total_reals_single (Z : mts T) (word : list (list int)) (alpha g : list T) (ext : nat) :=
  total_reals_loop Z alpha g (length word) ext 0 word (ones (tlen Z))
                   (repeat (zeros (tlen Z)) ext).

(** semiring.py:297-298, 329-330, 251-252 [for dim, el in enumerate(extended_letter):
    tmp = tmp + el * Z[dim, :]].  As the code, it reads every row below the
    length of the extended letter, also for [el = 0]. *)
Fixpoint arctic_ext (Z : mts T) (dim : nat) (el : list int) (tmp : list T) : list T :=
  match el with
  | [] => tmp
  | e :: el' => arctic_ext Z (S dim) el' (vadd tmp (vscale (nth dim Z []) (nofZ e)))
  end.

(** semiring.py:287-311 [_arctic_single]; both inner loops
    [x[i] = max(x[i-1], tmp[i])] are running maxima. *)
Fixpoint arctic_loop (Z : mts T) (alpha g : list T) (len ext k : nat)
    (word : list (list int)) (tmp : list T) (result : list (list T)) :=
  match word with
  | [] => result
  | el :: word' =>
      let tmp := arctic_ext Z 0 el tmp in
      let tmp := if (0 <? k)%nat then vsub tmp (vscale g (nth (k-1) alpha nzero)) else tmp in
      let result := save len k ext (cummax tmp) result in
      let tmp := if (k <? len - 1)%nat
                 then cummax (vadd tmp (vscale g (nth k alpha nzero))) else tmp in
      arctic_loop Z alpha g len ext (S k) word' tmp result
  end.
Definition arctic_single (Z : mts T) (word : list (list int)) (alpha g : list T) (ext : nat) :=
  arctic_loop Z alpha g (length word) ext 0 word (zeros (tlen Z))
              (repeat (zeros (tlen Z)) ext).

(** semiring.py:319-338 [_total_weighted_arctic_single]. *)
Fixpoint total_arctic_loop (Z : mts T) (alpha g : list T) (len ext k : nat)
    (word : list (list int)) (tmp : list T) (result : list (list T)) :=
  match word with
  | [] => result
  | el :: word' =>
      let tmp := arctic_ext Z 0 el tmp in
      let tmp := vadd tmp (vscale g (nth k alpha nzero)) in
      let tmp := cummax tmp in
      let result := save len k ext (vsub tmp (vscale g (nth k alpha nzero))) result in
      let tmp := if (k <? len - 1)%nat then vsub tmp (vscale g (nth k alpha nzero)) else tmp in
      total_arctic_loop Z alpha g len ext (S k) word' tmp result
  end.
Definition total_arctic_single (Z : mts T) (word : list (list int)) (alpha g : list T) (ext : nat) :=
  total_arctic_loop Z alpha g (length word) ext 0 word (zeros (tlen Z))
                    (repeat (zeros (tlen Z)) ext).

(** semiring.py:466-495 [_bayesian_single]; the result array starts as ones. *)
Fixpoint bayesian_loop (Z : mts T) (alpha g : list T) (len ext k : nat)
    (word : list (list int)) (tmp : list T) (result : list (list T)) :=
  match word with
  | [] => result
  | el :: word' =>
      let tmp := apply_ext Z 0 el tmp in
      let tmp := if (0 <? k)%nat then vmul tmp (expwn g (nth (k-1) alpha nzero)) else tmp in
      let result := save len k ext (cummax tmp) result in
      let tmp := if (k <? len - 1)%nat
                 then cummax (vmul tmp (expw g (nth k alpha nzero))) else tmp in
      bayesian_loop Z alpha g len ext (S k) word' tmp result
  end.
Definition bayesian_single (Z : mts T) (word : list (list int)) (alpha g : list T) (ext : nat) :=
  bayesian_loop Z alpha g (length word) ext 0 word (ones (tlen Z))
                (repeat (ones (tlen Z)) ext).

(** semiring.py:503-527 [_total_weighted_bayesian_single]. *)
Fixpoint total_bayesian_loop (Z : mts T) (alpha g : list T) (len ext k : nat)
    (word : list (list int)) (tmp : list T) (result : list (list T)) :=
  match word with
  | [] => result
  | el :: word' =>
      let tmp := apply_ext Z 0 el tmp in
      let tmp := vmul tmp (expw g (nth k alpha nzero)) in
      let tmp := cummax tmp in
      let result := save len k ext (vmul tmp (expwn g (nth k alpha nzero))) result in
      let tmp := if (k <? len - 1)%nat then vmul tmp (expwn g (nth k alpha nzero)) else tmp in
      total_bayesian_loop Z alpha g len ext (S k) word' tmp result
  end.
Definition total_bayesian_single (Z : mts T) (word : list (list int)) (alpha g : list T) (ext : nat) :=
  total_bayesian_loop Z alpha g (length word) ext 0 word (ones (tlen Z))
                      (repeat (zeros (tlen Z)) ext).

(** semiring.py:239-279 [_arctic_argmax_single], first part: per extended
    letter the value row [result[2*k]] and the index row [result[2*k+1]].
    Index rows are kept as [nat] (the code stores them as floats). *)
Fixpoint argmax_scan (i : nat) (v : T) (a : nat) (tmp : list T) : list (T * nat) :=
  match tmp with                     (* semiring.py:256-263 *)
  | [] => []
  | x :: r => if nleb x v then (v, a) :: argmax_scan (S i) v a r
              else (x, i) :: argmax_scan (S i) x i r
  end.
Definition argmax_row (tmp : list T) : list (T * nat) :=
  match tmp with
  | [] => []
  | x :: r => (x, 0) :: argmax_scan 1 x 0 r    (* result[2*k, 0] = tmp[0] *)
  end.
Fixpoint argmax_loop (Z : mts T) (alpha g : list T) (len k : nat)
    (word : list (list int)) (tmp : list T) : list (list (T * nat)) :=
  match word with
  | [] => []
  | el :: word' =>
      if forallb (Z.eqb 0) el           (* semiring.py:248-249 continue *)
      then map (fun _ => (nzero, 0)) tmp :: argmax_loop Z alpha g len (S k) word' tmp
      else
        let C := arctic_ext Z 0 el (zeros (length tmp)) in
        let tmp := vadd tmp C in
        let tmp := if (0 <? k)%nat then vsub tmp (vscale g (nth (k-1) alpha nzero)) else tmp in
        let row := argmax_row tmp in
        let tmp := if (k <? len - 1)%nat
                   then cummax (vadd tmp (vscale g (nth k alpha nzero))) else tmp in
        row :: argmax_loop Z alpha g len (S k) word' tmp
  end.

(** semiring.py:268-279: translation of the index rows.  [trans_idx rows s next]
    is the list of rows [index+1 .. index+s] given the row above them. *)
Definition clip_row (row : list nat) (c : nat) : list nat :=
  firstn c row ++ repeat (nth (c - 1) row 0) (length row - c).
Fixpoint trans_idx (args : list (list nat)) (s : nat) (next : list nat) : list (list nat) :=
  match s with
  | O => []
  | S s' =>
      let c := last next 0 + 1 in
      let row := clip_row (nth s' args []) c in
      trans_idx args s' row ++ [row]
  end.
Definition argmax_block (rows : list (list (T * nat))) (k : nat) : list (list T) :=
  let args := map (map snd) rows in
  let top := nth k args [] in
  map fst (nth k rows []) :: map (map nofnat) (trans_idx args k top ++ [top]).
Definition arctic_argmax_single (Z : mts T) (word : list (list int)) (alpha g : list T)
  : list (list T) :=
  let rows := argmax_loop Z alpha g (length word) 0 word (zeros (tlen Z)) in
  flat_map (argmax_block rows) (seq 0 (length word)).

(** The abstract operations of a semiring for the general (slow) path:
    semiring.py:77-91 and the static methods 221-231, 448-458, 591-601. *)
Record srops := { sr_one : T; sr_op : T -> T -> T; sr_cum : list T -> list T }.
Definition reals_ops := {| sr_one := nunit; sr_op := nmul; sr_cum := cumsum |}.
Definition arctic_ops := {| sr_one := nzero; sr_op := nadd; sr_cum := cummax |}.
Definition bayesian_ops := {| sr_one := nunit; sr_op := nmul; sr_cum := cummax |}.

(** A bound letter maps a series to an array (letters.py:67-70). *)
Notation bletter := (list (list T) -> list T) (only parsing).

(** semiring.py:63-65. *)
Definition ext_value (o : srops) (Z : mts T) (el : list bletter) : list T :=
  fold_left (fun C l => map2 (sr_op o) C (l Z)) el (repeat (sr_one o) (tlen Z)).

(** semiring.py:54-75 [Semiring._iterated_sum], one sample. *)
Fixpoint slow_loop (o : srops) (Z : mts T) (len ext k : nat)
    (word : list (list bletter)) (tmp : list T) (result : list (list T)) :=
  match word with
  | [] => result
  | el :: word' =>
      let C := ext_value o Z el in
      let tmp := if (0 <? k)%nat then shift0 tmp else tmp in
      let tmp := firstn k tmp ++ map2 (sr_op o) (skipn k tmp) (skipn k C) in
      let tmp := firstn k tmp ++ sr_cum o (skipn k tmp) in
      let result := save len k ext tmp result in
      slow_loop o Z len ext (S k) word' tmp result
  end.
Definition slow_single (o : srops) (Z : mts T) (word : list (list bletter)) (ext : nat) :=
  slow_loop o Z (length word) ext 0 word (repeat (sr_one o) (tlen Z))
            (repeat (zeros (tlen Z)) ext).

(** semiring.py:428-446 [Arctic._iterated_sum], one sample. *)
Fixpoint slow_arctic_loop (o : srops) (Z : mts T) (len ext k : nat)
    (word : list (list bletter)) (tmp : list T) (result : list (list T)) :=
  match word with
  | [] => result
  | el :: word' =>
      let C := ext_value o Z el in
      let tmp := map2 (sr_op o) tmp C in
      let tmp := sr_cum o tmp in
      let result := save len k ext tmp result in
      slow_arctic_loop o Z len ext (S k) word' tmp result
  end.
Definition slow_arctic_single (Z : mts T) (word : list (list bletter)) (ext : nat) :=
  slow_arctic_loop arctic_ops Z (length word) ext 0 word (zeros (tlen Z))
                   (repeat (zeros (tlen Z)) ext).

(** The three semiring classes; [Arctic(argmax)]. *)
Inductive semiring := Reals | Arctic (argmax : bool) | Bayesian.

Definition is_argmax (s : semiring) := match s with Arctic b => b | _ => false end.

(** [iterated_sum_fast] of the classes (semiring.py:167-219, 354-426, 537-589),
    one sample [j]. *)
Definition fast_single (s : semiring) (Z : mts T) (word : list (list int))
    (alpha g : list T) (ext : nat) (total : bool) : list (list T) :=
  match s with
  | Reals => if total then total_reals_single Z word alpha g ext
             else reals_single Z word alpha g ext
  | Arctic true => arctic_argmax_single Z word alpha g
  | Arctic false => if total then total_arctic_single Z word alpha g ext
                    else arctic_single Z word alpha g ext
  | Bayesian => if total then total_bayesian_single Z word alpha g ext
                else bayesian_single Z word alpha g ext
  end.

(** General path of the classes, one sample. *)
Definition general_single (s : semiring) (Z : mts T) (word : list (list bletter)) (ext : nat) :=
  match s with
  | Reals => slow_single reals_ops Z word ext
  | Arctic _ => slow_arctic_single Z word ext
  | Bayesian => slow_single bayesian_ops Z word ext
  end.

(** What [Semiring.iterated_sums] looks at in a word: the count tables and
    alpha of a [SimpleWord], or the bound letters of a general [Word]. *)
Inductive wordv :=
| WSimple (exts : list (list int)) (alpha : list T)
| WGeneral (exts : list (list bletter)).
Definition wlen (w : wordv) : nat :=
  match w with WSimple e _ => length e | WGeneral e => length e end.

(** A [Weighting] as seen from here: [get_lookup] and [total]. *)
Record weighting := { wg_lookup : dataset T -> list (list T); wg_total : bool }.

(** semiring.py:14-42 [Semiring.iterated_sums].  The [NotImplementedError]
    fallback (38-39) is unreachable for the three classes, which all implement
    [iterated_sum_fast].  Result shape (n_samples, extended, length). *)
Definition iterated_sums (s : semiring) (X : dataset T) (w : wordv) (ext : nat)
    (wt : option weighting) : list (list (list T)) :=
  match w with
  | WSimple exts alpha =>
      let alpha := match wt with Some _ => alpha | None => zeros (length exts) end in
      let lookup := match wt with
                    | Some wt => wg_lookup wt X
                    | None => map (fun Z => zeros (tlen Z)) X end in
      let total := match wt with Some wt => wg_total wt | None => true end in
      map2 (fun Z g => fast_single s Z exts alpha g ext total) X lookup
  | WGeneral exts => map (fun Z => general_single s Z exts ext) X
  end.

End Semiring.
Notation bletter T := (list (list T) -> list T) (only parsing).
Arguments srops T : clear implicits.
Arguments wordv T : clear implicits.
Arguments weighting T : clear implicits.
