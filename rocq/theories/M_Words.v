(** Model of fruits/iss/words/{word,letters,creation}.py. *)
From Coq Require Import Ascii String List Arith ZArith Bool.
From Verif Require Import Num Arr M_Str M_Semiring.
Import ListNotations.
Local Open Scope char_scope.
Local Open Scope nat_scope.

(** ** SimpleWord *)

(** word.py:206 [re.fullmatch(r"(\[(-?\d|\(-?\d+\))+\])+", other)] as the
    deterministic automaton of that regular expression ([\d] restricted to
    ASCII digits). *)
Inductive rxst :=
| RxStart   (* nothing read *)
| RxOpen    (* after "[" *)
| RxLetter  (* after a complete letter *)
| RxMinus   (* after "-" outside parentheses *)
| RxPar     (* after "(" *)
| RxParM    (* after "(-" *)
| RxParD    (* inside the digits of "(...)" *)
| RxClosed. (* after "]" *)
Definition rx_step (st : rxst) (c : ascii) : option rxst :=
  match st with
  | RxStart | RxClosed => if Ascii.eqb c "[" then Some RxOpen else None
  | RxOpen => if is_digit c then Some RxLetter else if Ascii.eqb c "-" then Some RxMinus
              else if Ascii.eqb c "(" then Some RxPar else None
  | RxLetter => if is_digit c then Some RxLetter else if Ascii.eqb c "-" then Some RxMinus
                else if Ascii.eqb c "(" then Some RxPar
                else if Ascii.eqb c "]" then Some RxClosed else None
  | RxMinus => if is_digit c then Some RxLetter else None
  | RxPar => if is_digit c then Some RxParD else if Ascii.eqb c "-" then Some RxParM else None
  | RxParM => if is_digit c then Some RxParD else None
  | RxParD => if is_digit c then Some RxParD else if Ascii.eqb c ")" then Some RxLetter else None
  end.
Fixpoint rx_run (st : rxst) (s : pystr) : bool :=
  match s with
  | [] => match st with RxClosed => true | _ => false end
  | c :: r => match rx_step st c with Some st' => rx_run st' r | None => false end
  end.
Definition fullmatch (s : pystr) : bool := rx_run RxStart s.

(** word.py:213-231: the [while j < len(el_raw)] loop over one extended
    letter.  [inpar = Some temp] is the inner loop collecting [temp] up to
    ")"; running off the end inside it is the IndexError of [el_raw[j]]. *)
Fixpoint lex (inpar : option pystr) (s : pystr) : res (list int) :=
  match inpar, s with
  | None, [] => Ok []
  | Some _, [] => Err IndexError
  | Some temp, c :: r =>
      if Ascii.eqb c ")" then
        let temp := match temp with [] => ["1"] | _ => temp end in
        let! z := py_int temp in
        let! zs := lex None r in Ok (z :: zs)
      else lex (Some (temp ++ [c])) r
  | None, c :: r =>
      if Ascii.eqb c "(" then lex (Some []) r
      else if Ascii.eqb c "-" then
        match r with
        | [] => Ok [(-1)%Z]
        | d :: r' => let! z := py_int [c; d] in let! zs := lex None r' in Ok (z :: zs)
        end
      else let! z := py_int [c] in let! zs := lex None r in Ok (z :: zs)
  end.

(** word.py:212 [[x[1:] for x in other.split("]")][:-1]]. *)
Definition raw_letters (s : pystr) : list pystr := removelast (map (@tl ascii) (split_on "]" s)).

Fixpoint mapM {A B} (f : A -> res B) (l : list A) : res (list B) :=
  match l with
  | [] => Ok []
  | x :: r => let! y := f x in let! ys := mapM f r in Ok (y :: ys)
  end.

(** word.py:236 [max(abs(letter) for ...)]. *)
Definition max_abs (els : list (list int)) : nat :=
  fold_right Nat.max 0 (map Z.abs_nat (List.concat els)).

(** word.py:241-244 [el[abs(letter)-1] = el[abs(letter)-1] + v]; for letter 0
    the index is -1, i.e. the last entry (IndexError on the empty list). *)
Definition bump (el : list int) (letter : int) (v : int) : res (list int) :=
  match el with
  | [] => Err IndexError
  | _ => let i := match Z.abs_nat letter with O => length el - 1 | S j => j end in
         Ok (upd i (nth i el 0%Z + v)%Z el)
  end.
(** word.py:239-245: one new extended letter.  [set(el_int)] is iterated in
    the order of [nodup]; the additions commute. *)
Definition count_table (maxdim : nat) (el_int : list int) : res (list int) :=
  fold_left (fun acc letter =>
      let! el := acc in
      let c := Z.of_nat (count_occ Z.eq_dec el_int letter) in
      bump el letter (if (0 <? letter)%Z then c else (- c)%Z))
    (nodup Z.eq_dec el_int) (Ok (repeat 0%Z maxdim)).

Section SW.
Context {T : Type} `{Num T}.

(** State of a SimpleWord: [_name], [_max_dim], [_extended_letters], [_alpha]. *)
Record sword := { sw_name : pystr; sw_maxdim : nat; sw_exts : list (list int);
                  sw_alpha : option (list T) }.
Definition sw_empty := {| sw_name := []; sw_maxdim := 0; sw_exts := []; sw_alpha := None |}.

(** word.py:196-245 [SimpleWord.multiply] with a string argument. *)
Definition multiply (w : sword) (other : pystr) : res sword :=
  if negb (fullmatch other) then Err ValueError
  else
    let! els_int := mapM (lex None) (raw_letters other) in
    let m := max_abs els_int in
    let md := Nat.max m (sw_maxdim w) in
    let old := map (fun el => el ++ repeat 0%Z (md - sw_maxdim w)) (sw_exts w) in
    let! new := mapM (count_table md) els_int in
    Ok {| sw_name := sw_name w ++ other; sw_maxdim := md; sw_exts := old ++ new;
          sw_alpha := sw_alpha w |}.

(** word.py:189-194 [SimpleWord(string)]. *)
Definition simple_word (s : pystr) : res sword := multiply sw_empty s.

(** word.py:71-76, 78-82 [alpha] getter and setter. *)
Definition get_alpha (w : sword) : list T :=
  match sw_alpha w with Some a => a | None => ones (length (sw_exts w)) end.
Definition set_alpha (w : sword) (a : list T) : res sword :=
  if length a =? length (sw_exts w)
  then Ok {| sw_name := sw_name w; sw_maxdim := sw_maxdim w; sw_exts := sw_exts w;
             sw_alpha := Some a |}
  else Err ValueError.

(** word.py:247-250 [SimpleWord.copy]. *)
Definition sw_copy (w : sword) : res sword :=
  let! c := simple_word (sw_name w) in
  Ok {| sw_name := sw_name c; sw_maxdim := sw_maxdim c; sw_exts := sw_exts w;
        sw_alpha := sw_alpha c |}.

(** word.py:262-265 [SimpleWord.__eq__]. *)
Definition sw_eq (a b : sword) : bool :=
  if list_eq_dec (list_eq_dec Z.eq_dec) (sw_exts a) (sw_exts b) then true else false.

(** ** General words *)

(** letters.py:28-72: an ExtendedLetter is its list of (letter name,
    dimension); the dimension is 0-based. *)
Definition eletter := list (pystr * int).
(** letters.py:96-99 [_AVAILABLE]: name -> dimension -> X -> array.  User
    letters (decorator [letter], 132-206) are further entries. *)
Definition registry := pystr -> option (int -> bletter T).
(** Python indexing [X[i, :]] with a possibly negative index. *)
Definition py_row (X : mts T) (i : int) : list T :=
  if (0 <=? i)%Z then nth (Z.to_nat i) X [] else nth (length X - Z.to_nat (- i)) X [].
Definition letter_DIM (i : int) : bletter T := fun X => py_row X i.
Definition letter_ABS (i : int) : bletter T := fun X => map nabs (py_row X i).
Definition builtin : registry := fun name =>
  if eqs name (str "DIM") then Some letter_DIM
  else if eqs name (str "ABS") then Some letter_ABS else None.

(** letters.py:41-53 [append] looks the name up ([_get], 108-112). *)
Definition el_append (reg : registry) (el : eletter) (name : pystr) (dim : int) : res eletter :=
  match reg name with Some _ => Ok (el ++ [(name, dim)]) | None => Err RuntimeError end.

(** letters.py:63-72 [__next__]: bound letters of an extended letter.  Every
    name was looked up when appended; the default is not reached. *)
Definition bind_el (reg : registry) (el : eletter) : list (bletter T) :=
  map (fun nd => match reg (fst nd) with Some f => f (snd nd) | None => fun _ => [] end) el.
Definition bind_word (reg : registry) (w : list eletter) : list (list (bletter T)) :=
  map (bind_el reg) w.

(** letters.py:50-53, 80-81 and word.py:124-125: printing. *)
Definition str_el (el : eletter) : pystr :=
  ("["%char :: flat_map (fun nd => fst nd ++ "("%char :: str_Z (snd nd + 1) ++ [")"%char]) el) ++ ["]"%char].
Definition str_word (w : list eletter) : pystr := flat_map str_el w.

(** letters.py:35-39 [_append_from_string] on the text between the brackets. *)
Definition el_of_string (reg : registry) (s : pystr) : res eletter :=
  fold_left (fun acc piece =>
      let! el := acc in
      match split_on "(" piece with
      | [name; d] => let! z := py_int_text d in el_append reg el name (z - 1)
      | _ => Err ValueError
      end)
    (removelast (split_on ")" s)) (Ok []).
(** word.py:94-97 [Word.multiply] with a string. *)
Definition word_of_string (reg : registry) (s : pystr) : res (list eletter) :=
  mapM (fun raw => el_of_string reg (tl raw)) (removelast (split_on "]" s)).

(** creation.py:53-83 [replace_letters].  The iterator is a list of names (an
    infinite one is any list at least as long as the number of letters). *)
Fixpoint repl_dim (reg : registry) (gen : list pystr) (el : eletter) (dim : nat) (cnt : nat)
  : res (list pystr * eletter) :=
  match cnt with
  | O => Ok (gen, el)
  | S c =>
      let name := match gen with [] => str "DIM" | nm :: _ => nm end in
      let! el := el_append reg el name (Z.of_nat dim) in
      repl_dim reg (tl gen) el dim c
  end.
Fixpoint repl_el (reg : registry) (gen : list pystr) (el : eletter) (dim : nat) (counts : list int)
  : res (list pystr * eletter) :=
  match counts with
  | [] => Ok (gen, el)
  | c :: r => let! (gen, el) := repl_dim reg gen el dim (Z.to_nat c) in
              repl_el reg gen el (S dim) r
  end.
Fixpoint replace_letters (reg : registry) (w : list (list int)) (gen : list pystr)
  : res (list eletter) :=
  match w with
  | [] => Ok []
  | counts :: r =>
      let! (gen, el) := repl_el reg gen [] 0 counts in
      let! els := replace_letters reg r gen in
      Ok (el :: els)
  end.
End SW.
Arguments sword T : clear implicits.
Arguments registry T : clear implicits.

(** ** Creation of words *)

(** creation.py:8-12 [_partitions_of]; recursion depth bounded by [n]. *)
Fixpoint partitions_aux (fuel n start : nat) : list (list nat) :=
  match fuel with
  | O => []
  | S f => [n] :: flat_map (fun i => map (cons i) (partitions_aux f (n - i) i))
                           (seq start (n / 2 + 1 - start))
  end.
Definition partitions_of (n : nat) : list (list nat) := partitions_aux (S n) n 1.

(** [itertools.combinations_with_replacement(l, w)], lexicographic order. *)
Fixpoint cwr {A} (w : nat) (l : list A) : list (list A) :=
  match w with
  | O => [[]]
  | S w' => (fix go (l : list A) := match l with
                                    | [] => []
                                    | x :: r => map (cons x) (cwr w' l) ++ go r
                                    end) l
  end.
(** creation.py:15-23 [_extended_letters_by_weight]; letters as numbers ... *)
Definition ext_letters (w d : nat) : list (list nat) := cwr w (seq 1 d).
(** ... and their strings (creation.py:17-20). *)
Definition str_letter (x : nat) : pystr :=
  if 1 <? length (str_nat x) then "("%char :: str_nat x ++ [")"%char] else str_nat x.
Definition str_ext (el : list nat) : pystr := ("["%char :: flat_map str_letter el) ++ ["]"%char].

(** [itertools.permutations(l)]: all orders of the positions, with repetitions
    if entries are equal. *)
Fixpoint select {A} (l : list A) : list (A * list A) :=
  match l with
  | [] => []
  | x :: r => (x, r) :: map (fun yr => (fst yr, x :: snd yr)) (select r)
  end.
Fixpoint perms_aux {A} (fuel : nat) (l : list A) : list (list A) :=
  match fuel with
  | O => [[]]
  | S f => flat_map (fun xr => map (cons (fst xr)) (perms_aux f (snd xr))) (select l)
  end.
Definition perms {A} (l : list A) : list (list A) := perms_aux (length l) l.
(** [set(...)] of them: the distinct ones.  The iteration order of a Python
    set is unspecified: [so] is any rearrangement of it. *)
Definition perm_set (so : list (list nat) -> list (list nat)) (l : list nat) : list (list nat) :=
  so (nodup (list_eq_dec Nat.eq_dec) (perms l)).
(** [itertools.product( *lists)]. *)
Fixpoint product {A} (ls : list (list A)) : list (list A) :=
  match ls with
  | [] => [[]]
  | l :: r => flat_map (fun x => map (cons x) (product r)) l
  end.

(** creation.py:26-50 [of_weight], the raw words as letter lists
    (strings are produced by [str_ext] and parsed by [SimpleWord]). *)
Definition of_weight_raw (so : list (list nat) -> list (list nat)) (w d : nat) : list (list (list nat)) :=
  flat_map (fun part => flat_map (fun mp => product (map (fun wt => ext_letters wt d) mp))
                                 (perm_set so part))
           (partitions_of w).
Definition of_weight {T} `{Num T} (so : list (list nat) -> list (list nat)) (w d : nat) : res (list (sword T)) :=
  match w with
  | O => Err IndexError   (* _partitions_of(0) yields (0,): extended_letters[-1] of [] *)
  | _ => mapM (fun raw => simple_word (flat_map str_ext raw)) (of_weight_raw so w d)
  end.

(** creation.py:86-103 [alternate_sign]. *)
Fixpoint rep_str (n : nat) (s : pystr) : pystr := match n with O => [] | S m => s ++ rep_str m s end.
Fixpoint alt_el (dim : nat) (el : list int) : pystr :=
  match el with
  | [] => []
  | l :: r => rep_str (Z.to_nat l) (minus_char :: str_nat (dim + 1)) ++ alt_el (S dim) r
  end.
Definition bracket (s : pystr) : pystr := ("["%char :: s) ++ ["]"%char].
Fixpoint alt_word (even : bool) (w : list (list int)) : pystr * pystr :=
  match w with
  | [] => ([], [])
  | el :: r =>
      let s := alt_el 0 el in
      let neg := bracket s in
      let pos := bracket (remove_char minus_char s) in
      let (a, b) := alt_word (negb even) r in
      if even then (neg ++ a, pos ++ b) else (pos ++ a, neg ++ b)
  end.
Fixpoint alternate_sign {T} `{Num T} (ws : list (sword T)) : res (list (sword T)) :=
  match ws with
  | [] => Ok []
  | w :: r =>
      let (a, b) := alt_word true (sw_exts w) in
      let! wa := simple_word a in
      let! wb := simple_word b in
      let! rest := alternate_sign r in
      Ok (wa :: wb :: rest)
  end.
