(** Model of an ISS over a user-defined semiring: a subclass of Semiring that
    implements the three abstract methods elementwise ([_identity] is a
    constant, [_operation] a function of two numbers) and inherits
    [iterated_sums], [iterated_sum_fast] and [_iterated_sum]
    (fruits/iss/semiring.py 12-90). *)
From Coq Require Import Ascii String List Arith ZArith Bool.
From Verif Require Import Num Arr M_Str M_Semiring M_Words M_ISS.
Import ListNotations.

Section Custom.
Context {T : Type} `{Num T}.

(** The letters read from a word.  semiring.py 43-52: the inherited
    [iterated_sum_fast] raises NotImplementedError, so that (38-39) a
    SimpleWord is replaced by a general word with the letters DIM. *)
Definition custom_word (reg : registry T) (w : wordv T) : res (list (list (bletter T))) :=
  match w with
  | WSimple exts _ => let! w' := replace_letters reg exts [str "DIM"] in Ok (bind_word reg w')
  | WGeneral exts => Ok exts
  end.
(** semiring.py 22-25: [get_lookup] is called for a SimpleWord only; its result
    is thrown away with the exception of line 52, and a NotImplementedError
    raised by [get_lookup] itself is caught by the same clause. *)
Definition custom_lookup (X : dataset T) (w : wordv T) (wt : option (dataset T -> res (list (series T)))) : res unit :=
  match w, wt with
  | WSimple _ _, Some g => match g X with Ok _ => Ok tt | Err NotImplementedError => Ok tt | Err e => Err e end
  | _, _ => Ok tt
  end.
(** semiring.py 14-41 [iterated_sums]; 54-75 [_iterated_sum] is [slow_single]. *)
Definition custom_sums (o : srops T) (reg : registry T) (X : dataset T) (w : wordv T) (ext : nat)
    (wt : option (dataset T -> res (list (series T)))) : res (list (mts T)) :=
  let! _ := custom_lookup X w wt in
  let! v := custom_word reg w in
  Ok (map (fun Z => slow_single o Z v ext) X).

(** An ISS (iss.py 92-109) with such a semiring; [ci_name] is its class name. *)
Record ciss := { ci_words : list (iword T); ci_mode : issmode; ci_ops : srops T; ci_name : pystr;
                 ci_reg : registry T;
                 ci_wt : option (dataset T -> res (list (series T))); ci_wt_name : pystr }.
(** iss.py 106-108, 123-125. *)
Definition ci_plan (c : ciss) : option (list nat) :=
  match ci_mode c with EXTENDED => Some (create_plan (map iw_str (ci_words c))) | SINGLE => None end.
(** iss.py 47-65: the rows of the words of one batch, the first being word [i].
    A user-defined semiring is no Arctic, so there are no argmax rows, and every
    block has the number of rows reserved for it. *)
Fixpoint custom_rows (c : ciss) (X : dataset T) (i : nat) (ws : list (wordv T)) : res (list (mts T)) :=
  match ws with
  | [] => Ok []
  | w :: r =>
      let! A := custom_sums (ci_ops c) (ci_reg c) X w (word_ext (ci_plan c) i) (ci_wt c) in
      let! rest := custom_rows c X (S i) r in
      Ok (swap01 (word_ext (ci_plan c) i) A ++ rest)
  end.
(** iss.py 21-67 [_calculate_ISS], run for at most [fuel] batches. *)
Fixpoint custom_calc (fuel : nat) (c : ciss) (X : dataset T) (bs i : nat) : res (list (list (mts T)) * bool) :=
  let ws := map iw_val (ci_words c) in
  if length ws <=? i then Ok ([], true)
  else match fuel with
  | O => Ok ([], false)
  | S f =>
      let bs := if length ws <? i + bs then length ws - i else bs in
      let! rows := custom_rows c X i (firstn bs (skipn i ws)) in
      let! (rest, fin) := custom_calc f c X bs (i + bs) in
      Ok (rows :: rest, fin)
  end.
(** iss.py 118-133 [_transform] *)
Definition custom_transform (c : ciss) (X : dataset T) : res (list (mts T)) :=
  let! (bs, _) := custom_calc 1 c X (length (ci_words c)) 0 in
  match bs with b :: _ => Ok b | [] => Err StopIteration end.
(** iss.py 152-185 [batch_transform], run for at most [fuel] batches *)
Definition custom_batch_transform (fuel : nat) (c : ciss) (X : dataset T) (bs : nat) : res (list (list (mts T)) * bool) :=
  if length (ci_words c) <? bs then Err ValueError else custom_calc fuel c X bs 0.
(** iss.py 135-150 [n_iterated_sums] *)
Definition custom_n (c : ciss) : nat :=
  match ci_plan c with Some p => plan_total p | None => length (ci_words c) end.
(** iss.py 195-204 [_label] (non-negative index) *)
Definition custom_label (c : ciss) (index : nat) : res pystr :=
  let! s := match ci_plan c with
            | Some p => word_string_loop (map iw_str (ci_words c)) p (Z.of_nat index)
            | None => match nth_error (ci_words c) index with Some w => Ok (iw_str w) | None => Err IndexError end
            end in
  Ok (s ++ str " : " ++ ci_name c ++ match ci_wt c with Some _ => str " : " ++ ci_wt_name c | None => [] end).
End Custom.
Arguments ciss T : clear implicits.
