(** Model of fruits/iss/cos.py: CosWISS.

    Simplifications: frequencies are not rounded to float32 and the int32
    entries of the weighting table do not overflow (this would need words of
    length 13 and a table of more than 2*10^8 rows); numba's prange loops write
    disjoint entries and are sequentialised; an out of range dropout index
    (transforming shorter series than those fitted on) and a number of
    dimensions different from the one fitted on are unchecked accesses in numba
    and excluded by the theorems. *)
From Coq Require Import Ascii String List Arith ZArith Bool.
From Verif Require Import Num Arr M_Str M_Semiring M_Words M_Np M_Prep.
Import ListNotations.

(** [itertools.product(l, repeat=m)] *)
Fixpoint product {A} (l : list A) (m : nat) : list (list A) :=
  match m with O => [[]] | S m' => flat_map (fun x => map (cons x) (product l m')) l end.

(** cos.py 267-274: the strings trig_id; [n] iterations are left, [k] is the
    loop variable, [coeff], [e0], [e1] are trig_coeff and trig_exp. *)
Fixpoint trig_loop (s n k coeff e0 e1 : nat) : list pystr :=
  match n with
  | O => []
  | S n' => (str_nat coeff ++ str_nat e0 ++ str_nat e1)
            :: trig_loop s n' (S k) (coeff * (s - k) / (k + 1)) (e0 - 1) (e1 + 1)
  end.
Definition trig_id (s : nat) : list pystr := trig_loop s (s + 1) 0 1 s 0.
(** [int(t[i])] *)
Definition digit_at (i : nat) (t : pystr) : nat := digit_val (nth i t "0"%char).
Definition incr (i v : nat) (row : list nat) : list nat := upd i (nth i row 0 + v) row.
(** cos.py 281-286: the loop body for gap [i]. *)
Definition weighting_step (row : list nat) (i : nat) (t : pystr) : list nat :=
  let row := upd 0 (nth 0 row 0 * digit_at 0 t) row in
  let row := incr (2 * i + 1) (digit_at 1 t) row in
  let row := incr (2 * i + 3) (digit_at 1 t) row in
  let row := incr (2 * i + 2) (digit_at 2 t) row in
  incr (2 * i + 4) (digit_at 2 t) row.
Fixpoint weighting_row (i : nat) (comb : list pystr) (row : list nat) : list nat :=
  match comb with [] => row | t :: r => weighting_row (S i) r (weighting_step row i t) end.
(** cos.py 265-287 [_get_weightings] for a word of length [len >= 1] and an
    exponent [s >= 0]. *)
Definition get_weightings (s : nat) (total : bool) (len : nat) : list (list nat) :=
  let p := if total then len + 1 else len in
  map (fun comb => weighting_row 0 comb (upd 0 1 (repeat 0 (2 * p + 1)))) (product (trig_id s) (p - 1)).

Section Cos.
Context {T : Type} `{Num T}.
Variable show : T -> pystr.              (* str() of a float *)

(** [np.pi * np.arange(l) / (freq * (l - 1))] *)
Definition angles (freq : T) (l : nat) : list T :=
  map (fun t => ndiv (nmul npi (nofnat t)) (nmul freq (nofZ (Z.of_nat l - 1)))) (seq 0 l).
(** [for _ in range(m): tmp = tmp * v] *)
Definition mul_times (m : nat) (v tmp : list T) : list T := Nat.iter m (fun t => vmul t v) tmp.
(** [tmp[idx] = 0] *)
Definition drop_at (idx : list nat) (tmp : list T) : list T := fold_left (fun t i => upd i nzero t) idx tmp.
(** cos.py 27-42 [_coswiss_single] with [drop k = []], 69-85
    [_leaky_coswiss_single] with [drop k = dropout[k]]: the loop over the
    extended letters. *)
Fixpoint cos_loop (X : mts T) (sinw cosw : list T) (drop : nat -> list nat) (row : list nat) (k : nat)
    (word : list (list int)) (tmp : list T) : list T :=
  match word with
  | [] => tmp
  | el :: r =>
      let tmp := if (0 <? k)%nat then shift0 tmp else tmp in
      let tmp := apply_ext X 0 el tmp in
      let tmp := mul_times (nth (2 * k + 1) row 0) sinw tmp in
      let tmp := mul_times (nth (2 * k + 2) row 0) cosw tmp in
      let tmp := drop_at (drop k) tmp in
      cos_loop X sinw cosw drop row (S k) r (cumsum tmp)
  end.
(** cos.py 23-48 and 65-91: one row of the table. *)
Definition cos_term (X : mts T) (word : list (list int)) (sinw cosw : list T) (drop : nat -> list nat) (row : list nat) : list T :=
  let tmp := cos_loop X sinw cosw drop row 0 word (ones (tlen X)) in
  let tmp := if length row =? 2 * length word + 3
             then mul_times (nth (2 * length word + 2) row 0) cosw
                    (mul_times (nth (2 * length word + 1) row 0) sinw tmp)
             else tmp in
  vscale tmp (nofnat (nth 0 row 0)).
(** cos.py 11-49 [_coswiss_single] and 52-92 [_leaky_coswiss_single]. *)
Definition cos_single (X : mts T) (word : list (list int)) (freq : T) (weightings : list (list nat))
    (drop : nat -> list nat) : list T :=
  let sinw := map nsin (angles freq (tlen X)) in
  let cosw := map ncos (angles freq (tlen X)) in
  fold_left (fun result row => vadd result (cos_term X word sinw cosw drop row)) weightings (zeros (tlen X)).
(** cos.py 95-116 [_ffn]: the network of M_Prep without centering and without
    activation of the output. *)
Definition cos_ffn (st : ffn_state (T := T)) (x : mts T) : mts T :=
  ffn_sample {| ffn_center := false; ffn_relu_out := false |} st x.

(** cos.py 214-231: the attributes; [cw_rate l = int(dropout * l)]. *)
Record cos_cfg := { cw_words : list (sword T); cw_freqs : list T; cw_exp : nat; cw_total : bool;
                    cw_ffn : option nat; cw_drop : option (nat -> nat) }.
(** A word that is not a SimpleWord is None. *)
Definition cos_new (words : list (option (sword T))) (freqs : list T) (exponent : nat) (total : bool)
    (ffn : option nat) (drop : option (nat -> nat)) : res cos_cfg :=
  if forallb (fun w => match w with Some _ => true | None => false end) words
  then Ok {| cw_words := flat_map (fun w => match w with Some v => [v] | None => [] end) words;
             cw_freqs := freqs; cw_exp := exponent; cw_total := total; cw_ffn := ffn; cw_drop := drop |}
  else Err ValueError.
(** [_A], [_b], [_C] resp. [_dropout_indices], indexed by word and frequency;
    absent before fitting. *)
Record cos_state := { cs_ffn : option (nat -> nat -> ffn_state (T := T)); cs_drop : option (nat -> nat -> nat -> list nat) }.
Definition cos_fresh : cos_state := {| cs_ffn := None; cs_drop := None |}.
(** cos.py 233-237 [n_iterated_sums], 239-241 [requires_fitting] *)
Definition cos_n (c : cos_cfg) : nat := length (cw_freqs c) * length (cw_words c).
Definition cos_requires (c : cos_cfg) : bool :=
  match cw_ffn c, cw_drop c with None, None => false | _, _ => true end.
(** cos.py 243-259 [_fit]; [net] and [idx] are the random matrices and index
    selections.  Selecting more indices than there are is a ValueError (if
    anything is selected at all); the network attributes are written before. *)
Definition cos_fit (c : cos_cfg) (net : nat -> nat -> ffn_state (T := T)) (idx : nat -> nat -> nat -> list nat)
    (X : dataset T) (st : cos_state) : res unit * cos_state :=
  let st1 := match cw_ffn c with
             | Some _ => {| cs_ffn := Some net; cs_drop := cs_drop st |}
             | None => st end in
  match cw_drop c with
  | None => (Ok tt, st1)
  | Some rate =>
      match cw_words c, cw_freqs c with
      | [], _ => (Ok tt, {| cs_ffn := cs_ffn st1; cs_drop := Some idx |})
      | _, [] => (Ok tt, {| cs_ffn := cs_ffn st1; cs_drop := Some idx |})
      | _, _ => if lenX X <? rate (lenX X) then (Err ValueError, st1)
                else (Ok tt, {| cs_ffn := cs_ffn st1; cs_drop := Some idx |})
      end
  end.
(** cos.py 304-328: the rows of word number [w]. *)
Definition cos_word (c : cos_cfg) (st : cos_state) (X : dataset T) (w : nat) (word : sword T) : res (list (mts T)) :=
  let W := get_weightings (cw_exp c) (cw_total c) (length (sw_exts word)) in
  let rows g := Ok (map (fun jf => map (g (fst jf) (snd jf)) X) (combine (seq 0 (length (cw_freqs c))) (cw_freqs c))) in
  match cw_ffn c with
  | Some _ => match cs_ffn st with
              | None => Err AttributeError
              | Some net => rows (fun j f x => cos_single (cos_ffn (net w j) x) (sw_exts word) f W (fun _ => []))
              end
  | None => match cw_drop c with
            | Some _ => match cs_drop st with
                        | None => Err AttributeError
                        | Some idx => rows (fun j f x => cos_single x (sw_exts word) f W (idx w j))
                        end
            | None => rows (fun _ f x => cos_single x (sw_exts word) f W (fun _ => []))
            end
  end.
(** cos.py 302-333 [batch_transform]: the yielded batches; the generator ends
    with the first exception. *)
Fixpoint cos_gen (c : cos_cfg) (st : cos_state) (X : dataset T) (bs w : nat) (words : list (sword T))
    (results : list (list (mts T))) : list (res (list (mts T))) :=
  match words with
  | [] => match results with [] => [] | _ => [Ok (concat results)] end
  | word :: r =>
      match cos_word c st X w word with
      | Err e => [Err e]
      | Ok rows => let results := results ++ [rows] in
                   if length results =? bs then Ok (concat results) :: cos_gen c st X bs (S w) r []
                   else cos_gen c st X bs (S w) r results
      end
  end.
Definition cos_batches (c : cos_cfg) (st : cos_state) (X : dataset T) (bs : nat) : list (res (list (mts T))) :=
  cos_gen c st X bs 0 (cw_words c) [].
(** cos.py 261-263 [_transform] *)
Definition cos_transform (c : cos_cfg) (st : cos_state) (X : dataset T) : res (list (mts T)) :=
  match cos_batches c st X (cos_n c) with [] => Err StopIteration | b :: _ => b end.
(** cos.py 345-351 [_label] for an index >= 0. *)
Definition cos_label (c : cos_cfg) (index : nat) : res pystr :=
  match cw_freqs c with
  | [] => Err ZeroDivisionError
  | _ => match nth_error (cw_words c) (index / length (cw_freqs c)), nth_error (cw_freqs c) (index mod length (cw_freqs c)) with
         | Some w, Some f => Ok (sw_name w ++ str "!" ++ show f ++ str " : ^" ++ str_nat (cw_exp c)
                                 ++ (if cw_total c then str " : total" else []))
         | _, _ => Err IndexError
         end
  end.
(** cos.py 335-343 [_copy] *)
Definition cos_copy (c : cos_cfg) : cos_cfg := c.
End Cos.
Arguments cos_cfg T : clear implicits.
Arguments cos_state T : clear implicits.
