(** Model of fruits/iss/cache.py (CachePlan) and fruits/iss/iss.py. *)
From Coq Require Import Ascii String List Arith ZArith Bool.
From Verif Require Import Num Arr M_Str M_Semiring M_Words.
Import ListNotations.
Local Open Scope char_scope.
Local Open Scope nat_scope.

(** ** CachePlan *)

(** cache.py:27-36: the search [for k in range(start, i)] for a word string
    starting with [pre]; [cnt = i - start]. *)
Fixpoint find_prefix (strs : list pystr) (pre : pystr) (start cnt : nat) : option nat :=
  match cnt with
  | O => None
  | S c => if startswith (nth start strs []) pre then Some start
           else find_prefix strs pre (S start) c
  end.
(** cache.py:26-36: the loop over [j]. *)
Fixpoint plan_loop (strs : list pystr) (i : nat) (els : list pystr) (js : list nat)
    (start depth : nat) : nat :=
  match js with
  | [] => depth
  | j :: js' =>
      match find_prefix strs ("[" :: join ["["] (firstn (j + 1) els)) start (i - start) with
      | Some k => plan_loop strs i els js' k (depth - 1)
      | None => depth
      end
  end.
(** cache.py:17-37 [_create_plan]. *)
Definition plan_word (strs : list pystr) (i : nat) : nat :=
  let els := tl (split_on "[" (nth i strs [])) in
  plan_loop strs i els (seq 0 (length els)) 0 (length els).
Definition create_plan (strs : list pystr) : list nat :=
  map (plan_word strs) (seq 0 (length strs)).

(** cache.py:39-43 [unique_el_depth]. *)
Definition unique_el_depth (plan : list nat) (i : nat) : nat := nth i plan 0.

(** Python slice [l[:m]] for a possibly negative [m]. *)
Definition py_prefix {A} (l : list A) (m : int) : list A :=
  if (0 <=? m)%Z then firstn (Z.to_nat m) l else firstn (length l - Z.to_nat (- m)) l.

(** cache.py:55-66 [get_word_string]. *)
Fixpoint word_string_loop (strs : list pystr) (plan : list nat) (is_index : int) : res pystr :=
  match strs, plan with
  | s :: strs', d :: plan' =>
      let k := (is_index - Z.of_nat d)%Z in
      if (k <? 0)%Z then Ok (join ["]"] (py_prefix (split_on "]" s) k) ++ ["]"])
      else word_string_loop strs' plan' k
  | _, _ => Err IndexError
  end.
(** cache.py:45-53 [get_word_index]. *)
Fixpoint word_index_loop (plan : list nat) (i : nat) (is_index : int) : res nat :=
  match plan with
  | d :: plan' =>
      let k := (is_index - Z.of_nat d)%Z in
      if (k <? 0)%Z then Ok i else word_index_loop plan' (S i) k
  | [] => Err IndexError
  end.
(** cache.py:67-81 [n_iterated_sums]. *)
Definition plan_total (plan : list nat) : nat := list_sum plan.
Definition plan_n (plan : list nat) (idx : list nat) : nat :=
  list_sum (map (fun i => nth i plan 0) idx).

(** ** ISS *)
Inductive issmode := SINGLE | EXTENDED.

Section ISS.
Context {T : Type} `{Num T}.

(** A word as used by an ISS: [str(word)] and its content. *)
Record iword := { iw_str : pystr; iw_val : wordv T }.

(** The two kinds of words an ISS can hold: [str(word)] (word.py:124-125,
    267-268), what [iterated_sums] reads of it. *)
Definition simple_iword (w : sword T) : iword :=
  {| iw_str := sw_name w; iw_val := WSimple (sw_exts w) (get_alpha w) |}.
Definition general_iword (reg : registry T) (w : list eletter) : iword :=
  {| iw_str := str_word w; iw_val := WGeneral (bind_word reg w) |}.

Record iss_cfg := { is_words : list iword; is_mode : issmode; is_sr : semiring;
                    is_wt : option (weighting T); is_wt_name : pystr }.

(** iss.py:106-108: the plan is built in the constructor. *)
Definition is_plan (c : iss_cfg) : list nat :=
  match is_mode c with
  | EXTENDED => create_plan (map iw_str (is_words c))
  | SINGLE => []
  end.

(** [np.swapaxes(A, 0, 1)] of an array of shape (n, ext, l). *)
Definition swap01 (ext : nat) (A : list (list (list T))) : list (list (list T)) :=
  map (fun r => map (fun sample => nth r sample []) A) (seq 0 ext).

(** Number of rows of an argmax result: [len + len*(len+1)/2]. *)
Definition argmax_rows (len : nat) : nat := len + len * (len + 1) / 2.

(** Number of rows [Semiring.iterated_sums] returns. *)
Definition sr_rows (s : semiring) (w : wordv T) (ext : nat) : nat :=
  match w, s with
  | WSimple e _, Arctic true => argmax_rows (length e)
  | _, _ => ext
  end.

(** numpy assignment [results[index:index+m, :, :] = A] with shape check and
    broadcasting of a single row. *)
Definition assign_rows (m : nat) (A : list (list (list T))) : res (list (list (list T))) :=
  if length A =? m then Ok A
  else match A with
       | [row] => Ok (repeat row m)
       | _ => Err ValueError
       end.

(** iss.py:36-37, 48-53: depth and number of rows of word [i]. *)
Definition word_ext (plan : option (list nat)) (i : nat) : nat :=
  match plan with None => 1 | Some p => unique_el_depth p i end.
Definition word_rows (s : semiring) (plan : option (list nat)) (i : nat) (w : wordv T) : nat :=
  if is_argmax s then argmax_rows (wlen w) else word_ext plan i.

(** iss.py:47-65: the rows of the words of one batch, starting at word [i].
    (The array [results] has as many rows as the blocks together, iss.py:34-45,
    so the blocks are simply concatenated.) *)
Fixpoint batch_rows (s : semiring) (X : dataset T) (wt : option (weighting T))
    (plan : option (list nat)) (i : nat) (ws : list (wordv T)) : res (list (list (list T))) :=
  match ws with
  | [] => Ok []
  | w :: ws' =>
      let ext := word_ext plan i in
      let! block := assign_rows (word_rows s plan i w)
                      (swap01 (sr_rows s w ext) (iterated_sums s X w ext wt)) in
      let! rest := batch_rows s X wt plan (S i) ws' in
      Ok (block ++ rest)
  end.

(** iss.py:21-67 [_calculate_ISS]: the generator, run for at most [fuel]
    batches.  The boolean tells whether it is exhausted. *)
Fixpoint calc_iss (fuel : nat) (s : semiring) (X : dataset T) (ws : list (wordv T))
    (bs : nat) (wt : option (weighting T)) (plan : option (list nat)) (i : nat)
  : res (list (list (list (list T))) * bool) :=
  if length ws <=? i then Ok ([], true)
  else match fuel with
  | O => Ok ([], false)
  | S f =>
      let bs := if length ws <? i + bs then length ws - i else bs in
      if (match plan with None => is_argmax s | Some _ => false end) then Err NotImplementedError
      else
        let! rows := batch_rows s X wt plan i (firstn bs (skipn i ws)) in
        let! (rest, fin) := calc_iss f s X ws bs wt plan (i + bs) in
        Ok (rows :: rest, fin)
  end.

Definition is_plan_opt (c : iss_cfg) : option (list nat) :=
  match is_mode c with EXTENDED => Some (is_plan c) | SINGLE => None end.

(** iss.py:118-133 [ISS._transform]: first yielded batch with
    [batch_size = len(words)]. *)
Definition iss_transform (c : iss_cfg) (X : dataset T) : res (list (list (list T))) :=
  let ws := map iw_val (is_words c) in
  let! (bs, _) := calc_iss 1 (is_sr c) X ws (length ws) (is_wt c) (is_plan_opt c) 0 in
  match bs with b :: _ => Ok b | [] => Err StopIteration end.

(** iss.py:135-150 [n_iterated_sums]. *)
Definition n_iterated_sums (c : iss_cfg) : res nat :=
  match is_mode c with
  | EXTENDED => if is_argmax (is_sr c)
                then Ok (list_sum (map (fun w => argmax_rows (wlen (iw_val w))) (is_words c)))
                else Ok (plan_total (is_plan c))
  | SINGLE => if is_argmax (is_sr c) then Err NotImplementedError else Ok (length (is_words c))
  end.

(** iss.py:152-185 [batch_transform], run for at most [fuel] batches. *)
Definition batch_transform (fuel : nat) (c : iss_cfg) (X : dataset T) (bs : nat)
  : res (list (list (list (list T))) * bool) :=
  if length (is_words c) <? bs then Err ValueError
  else calc_iss fuel (is_sr c) X (map iw_val (is_words c)) bs (is_wt c) (is_plan_opt c) 0.

(** semiring class names. *)
Definition sr_suffix (s : semiring) : pystr :=
  match s with Reals => [] | Arctic _ => str " : Arctic" | Bayesian => str " : Bayesian" end.

(** iss.py:195-204 [_label] (non-negative index). *)
Definition iss_label (c : iss_cfg) (index : nat) : res pystr :=
  let! s := match is_mode c with
            | EXTENDED => word_string_loop (map iw_str (is_words c)) (is_plan c) (Z.of_nat index)
            | SINGLE => match nth_error (is_words c) index with
                        | Some w => Ok (iw_str w)
                        | None => Err IndexError
                        end
            end in
  Ok (s ++ sr_suffix (is_sr c)
        ++ match is_wt c with Some _ => str " : " ++ is_wt_name c | None => [] end).
End ISS.
Arguments iword T : clear implicits.
Arguments iss_cfg T : clear implicits.
