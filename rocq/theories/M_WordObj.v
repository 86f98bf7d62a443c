(** fruits/iss/words/letters.py and the class Word of word.py as objects: the
    registry of letters, mutable extended letters that words share, and the
    iteration index both classes keep as an attribute. *)
From Coq Require Import Ascii String List Arith ZArith Bool.
From Verif Require Import Num Arr M_Str M_Semiring M_Words M_Fruit.
Import ListNotations.

Section WordObj.
Context {T : Type} `{Num T}.

(** letters.py 8-9: int -> (array -> array) *)
Definition fn := int -> bletter T.
(** letters.py 28-33.  [eo_iter] is [_iter_index] + 1. *)
Record elobj := { eo_fns : list fn; eo_dims : list int; eo_repr : pystr; eo_iter : nat }.
(** word.py 64-69.  [_extended_letters] holds references; [wo_iter] is
    [_el_iterator_index] + 1. *)
Record wobj := { wo_els : list nat; wo_iter : nat; wo_alpha : option (list T) }.
(** [_AVAILABLE] (letters.py 96-99; a dict, in order of insertion) and all
    objects made so far. *)
Record wheap := { w_reg : list (pystr * fn); w_els : list elobj; w_words : list wobj }.
Definition wheap0 : wheap := {| w_reg := [(str "DIM", letter_DIM); (str "ABS", letter_ABS)]; w_els := []; w_words := [] |}.

Fixpoint reg_get (r : list (pystr * fn)) (name : pystr) : option fn :=
  match r with [] => None | (n, f) :: r' => if eqs name n then Some f else reg_get r' name end.

Definition el_fresh : elobj := {| eo_fns := []; eo_dims := []; eo_repr := []; eo_iter := 0 |}.
(** letters.py 41-53 [append]: [_get] (108-112) raises before anything is changed. *)
Definition eo_append (r : list (pystr * fn)) (o : elobj) (name : pystr) (dim : int) : res elobj :=
  match reg_get r name with
  | None => Err RuntimeError
  | Some f => Ok {| eo_fns := eo_fns o ++ [f]; eo_dims := eo_dims o ++ [dim];
                    eo_repr := eo_repr o ++ name ++ "("%char :: str_Z (dim + 1) ++ [")"%char]; eo_iter := eo_iter o |}
  end.
(** letters.py 28-39 [ExtendedLetter(s)]: a piece that does not have exactly
    one bracket, or no integer behind it, is a ValueError. *)
Definition eo_build (r : list (pystr * fn)) (s : pystr) : res elobj :=
  fold_left (fun acc piece =>
      let! o := acc in
      match split_on "(" piece with
      | [name; d] => let! z := py_int_text d in eo_append r o name (z - 1)
      | _ => Err ValueError
      end)
    (removelast (split_on ")" s)) (Ok el_fresh).
(** letters.py 55-61 [copy] *)
Definition eo_copy (o : elobj) : elobj := {| eo_fns := eo_fns o; eo_dims := eo_dims o; eo_repr := eo_repr o; eo_iter := 0 |}.
(** letters.py 80-81 [__str__] *)
Definition eo_str (o : elobj) : pystr := ("["%char :: eo_repr o) ++ ["]"%char].
(** The bound letters, letters.py 77-78 [__getitem__] at all positions. *)
Definition eo_bound (o : elobj) : list (bletter T) := map2 (fun f d => f d) (eo_fns o) (eo_dims o).

Definition with_els (l : list elobj) (h : wheap) : wheap := {| w_reg := w_reg h; w_els := l; w_words := w_words h |}.
Definition with_words (l : list wobj) (h : wheap) : wheap := {| w_reg := w_reg h; w_els := w_els h; w_words := l |}.
Definition add_letters (ids : list nat) (w : wobj) : wobj := {| wo_els := wo_els w ++ ids; wo_iter := wo_iter w; wo_alpha := wo_alpha w |}.
Definition mul_ids (w : nat) (ids : list nat) (h : wheap) : wheap :=
  match nth_error (w_words h) w with None => h | Some o => with_words (upd w (add_letters ids o) (w_words h)) h end.

(** word.py 91-93 [multiply] with a Word: a loop over the list of [other],
    which it appends to if [other] is the word itself.  [None]: the loop has
    not ended after [fuel] rounds. *)
Fixpoint mul_loop (fuel w other i : nat) (h : wheap) : option wheap :=
  match nth_error (w_words h) other with
  | None => Some h
  | Some o => match nth_error (wo_els o) i with
              | None => Some h
              | Some e => match fuel with O => None | S f => mul_loop f w other (S i) (mul_ids w [e] h) end
              end
  end.
(** word.py 94-97 with a string: one extended letter after the other. *)
Fixpoint mul_raws (w : nat) (raws : list pystr) (h : wheap) : res unit * wheap :=
  match raws with
  | [] => (Ok tt, h)
  | raw :: r => match eo_build (w_reg h) (tl raw) with
                | Err e => (Err e, h)
                | Ok o => mul_raws w r (mul_ids w [length (w_els h)] (with_els (w_els h ++ [o]) h))
                end
  end.
Definition raws_of (s : pystr) : list pystr := removelast (split_on "]" s).

Inductive wop :=
| WLetter (name : pystr) (f : fn)                  (* the decorator, letters.py 132-206 *)
| WNewEl (s : pystr)                               (* ExtendedLetter(s) *)
| WAppend (e : nat) (name : pystr) (dim : int)
| WCopyEl (e : nat)
| WNewWord (s : option pystr)                      (* Word() / Word(s), word.py 64-69 *)
| WMulEl (w e : nat) | WMulWord (w other : nat) | WMulStr (w : nat) (s : pystr)
| WAlpha (w : nat) (a : list T)
| WCopyWord (w : nat)
| WIterEl (e : nat) | WNextEl (e : nat)            (* iter(e), next(e) *)
| WIterWord (w : nat) | WNextWord (w : nat).

Definition set_el_iter (k : nat) (o : elobj) : elobj := {| eo_fns := eo_fns o; eo_dims := eo_dims o; eo_repr := eo_repr o; eo_iter := k |}.
Definition set_w_iter (k : nat) (o : wobj) : wobj := {| wo_els := wo_els o; wo_iter := k; wo_alpha := wo_alpha o |}.
Definition on_el (e : nat) (f : elobj -> res unit * elobj) (h : wheap) : option (res unit * wheap) :=
  match nth_error (w_els h) e with
  | None => Some (Err AttributeError, h)
  | Some o => let (x, o') := f o in Some (x, with_els (upd e o' (w_els h)) h)
  end.
Definition on_word (w : nat) (f : wobj -> res unit * wobj) (h : wheap) : option (res unit * wheap) :=
  match nth_error (w_words h) w with
  | None => Some (Err AttributeError, h)
  | Some o => let (x, o') := f o in Some (x, with_words (upd w o' (w_words h)) h)
  end.
(** letters.py 67-72 [__next__] *)
Definition el_next (o : elobj) : res (bletter T) * elobj :=
  if eo_iter o <? length (eo_fns o)
  then (match nth_error (eo_bound o) (eo_iter o) with Some b => Ok b | None => Err IndexError end, set_el_iter (S (eo_iter o)) o)
  else (Err StopIteration, o).
(** word.py 113-117 [__next__] *)
Definition word_next (o : wobj) : res nat * wobj :=
  if wo_iter o <? length (wo_els o)
  then (match nth_error (wo_els o) (wo_iter o) with Some e => Ok e | None => Err IndexError end, set_w_iter (S (wo_iter o)) o)
  else (Err StopIteration, o).
Definition forget {A} (r : res A) : res unit := match r with Ok _ => Ok tt | Err e => Err e end.

(** One call; [None]: it has not returned after [fuel] rounds of a loop. *)
Definition wexec (fuel : nat) (op : wop) (h : wheap) : option (res unit * wheap) :=
  match op with
  | WLetter name f =>                                                       (* letters.py 102-105 [_log] *)
      Some (match reg_get (w_reg h) name with
            | Some _ => (Err RuntimeError, h)
            | None => (Ok tt, {| w_reg := w_reg h ++ [(name, f)]; w_els := w_els h; w_words := w_words h |})
            end)
  | WNewEl s => Some (match eo_build (w_reg h) s with
                      | Err e => (Err e, h)
                      | Ok o => (Ok tt, with_els (w_els h ++ [o]) h) end)
  | WAppend e name dim => on_el e (fun o => match eo_append (w_reg h) o name dim with Ok o' => (Ok tt, o') | Err x => (Err x, o) end) h
  | WCopyEl e => Some (match nth_error (w_els h) e with
                       | None => (Err AttributeError, h)
                       | Some o => (Ok tt, with_els (w_els h ++ [eo_copy o]) h) end)
  | WNewWord s =>
      let w := length (w_words h) in
      let h1 := with_words (w_words h ++ [{| wo_els := []; wo_iter := 0; wo_alpha := None |}]) h in
      Some (match s with None => (Ok tt, h1)
                       | Some s => match mul_raws w (raws_of s) h1 with
                                   | (Ok _, h2) => (Ok tt, h2)
                                   | (Err e, h2) => (Err e, with_words (w_words h) h2)   (* no object *)
                                   end
            end)
  | WMulEl w e => Some (match nth_error (w_words h) w, nth_error (w_els h) e with
                        | Some _, Some _ => (Ok tt, mul_ids w [e] h)
                        | _, _ => (Err TypeError, h) end)
  | WMulWord w other => match nth_error (w_words h) w, nth_error (w_words h) other with
                        | Some _, Some _ => option_map (fun h' => (Ok tt, h')) (mul_loop fuel w other 0 h)
                        | _, _ => Some (Err TypeError, h) end
  | WMulStr w s => Some (match nth_error (w_words h) w with
                         | Some _ => mul_raws w (raws_of s) h
                         | None => (Err AttributeError, h) end)
  | WAlpha w a => on_word w (fun o => if length a =? length (wo_els o)
                                      then (Ok tt, {| wo_els := wo_els o; wo_iter := wo_iter o; wo_alpha := Some a |})
                                      else (Err ValueError, o)) h
  | WCopyWord w =>                                                          (* word.py 101-104 *)
      Some (match nth_error (w_words h) w with
            | None => (Err AttributeError, h)
            | Some o =>
                let n := length (w_els h) in
                (Ok tt, {| w_reg := w_reg h;
                           w_els := w_els h ++ map (fun e => eo_copy (nth e (w_els h) el_fresh)) (wo_els o);
                           w_words := w_words h ++ [{| wo_els := seq n (length (wo_els o)); wo_iter := 0; wo_alpha := None |}] |})
            end)
  | WIterEl e => on_el e (fun o => (Ok tt, set_el_iter 0 o)) h
  | WNextEl e => on_el e (fun o => let (x, o') := el_next o in (forget x, o')) h
  | WIterWord w => on_word w (fun o => (Ok tt, set_w_iter 0 o)) h
  | WNextWord w => on_word w (fun o => let (x, o') := word_next o in (forget x, o')) h
  end.

(** What a word prints (word.py 124-125) and the letters its iterated sums are
    made of (what [WGeneral] of M_Semiring takes). *)
Definition word_els (h : wheap) (w : nat) : list elobj :=
  match nth_error (w_words h) w with None => [] | Some o => map (fun e => nth e (w_els h) el_fresh) (wo_els o) end.
Definition word_str (h : wheap) (w : nat) : pystr := flat_map eo_str (word_els h w).
Definition word_val (h : wheap) (w : nat) : list (list (bletter T)) := map eo_bound (word_els h w).
End WordObj.
Arguments elobj T : clear implicits.
Arguments wobj T : clear implicits.
Arguments wheap T : clear implicits.
Arguments wop T : clear implicits.
Arguments fn T : clear implicits.
