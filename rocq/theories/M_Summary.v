(** Model of the methods [summary] of fruits/fruit.py (texts).

    What the text shows of a seed - str() of a preparateur or an ISS, class names,
    numbers - is given by a [slice_view]; the rest is the layout. *)
From Coq Require Import Ascii String List Arith Bool.
From Verif Require Import M_Str.
Import ListNotations.

(** What fruit.py 579-587 reads of an ISS, and 562-596 of a slice. *)
Record iss_view := { iv_str : pystr; iv_n : nat; iv_words : nat; iv_semiring : pystr; iv_weighting : option pystr }.
Record slice_view := { v_preps : list pystr; v_iss : list iss_view; v_sieves : list (pystr * nat) }.

(** The Python literals "\n" and n*c (fruit.py 190, 567). *)
Definition nl : ascii := ascii_of_nat 10.
Definition rep (n : nat) (c : ascii) : pystr := repeat c n.
(** f"{s: <n}" (fruit.py 568) *)
Definition ljust (n : nat) (s : pystr) : pystr := s ++ rep (n - length s) " ".
(** f"{s: ^n}" (fruit.py 195, 566): of an odd number of blanks the larger half is on the right *)
Definition center (n : nat) (s : pystr) : pystr :=
  let k := n - length s in rep (k / 2) " " ++ s ++ rep (k - k / 2) " ".

(** fruit.py 410-420 [nfeatures] and [niteratedsums] of the slice *)
Definition view_nfeatures (v : slice_view) : nat :=
  list_sum (map snd (v_sieves v)) * fold_right Nat.mul 1 (map iv_n (v_iss v)).

(** fruit.py 579-587, the lines of one ISS *)
Definition iss_text (i : iss_view) : pystr :=
  nl :: ljust 38 (str "    + " ++ iv_str i ++ str " -> " ++ str_nat (iv_n i)) ++
  nl :: ljust 38 (str "       | words: " ++ str_nat (iv_words i)) ++
  nl :: ljust 38 (str "       | semiring: " ++ iv_semiring i) ++
  nl :: ljust 38 (str "       | weighting: " ++ match iv_weighting i with None => str "None" | Some w => w end).
(** fruit.py 562-596 [FruitSlice.summary] *)
Definition slice_summary (v : slice_view) : pystr :=
  center 38 (str "FruitSlice -> " ++ str_nat (view_nfeatures v)) ++
  nl :: rep 38 "-" ++ [nl] ++
  ljust 38 (str "Preparateurs (" ++ str_nat (length (v_preps v)) ++ str "):") ++
  [nl] ++
  join [nl] (map (fun x => ljust 38 (str "    + " ++ x)) (v_preps v)) ++
  (if length (v_preps v) =? 0 then rep 38 " " else []) ++
  [nl] ++
  ljust 38 (str "ISS Calculators (" ++ str_nat (length (v_iss v)) ++ str "):") ++
  (if length (v_iss v) =? 0 then rep 38 " " else []) ++
  flat_map iss_text (v_iss v) ++
  (if length (v_iss v) =? 0 then [nl] else []) ++
  nl :: ljust 38 (str "Sieves (" ++ str_nat (length (v_sieves v)) ++ str "):") ++
  (if length (v_sieves v) =? 0 then nl :: rep 38 " " else []) ++
  flat_map (fun s => nl :: ljust 38 (str "    + " ++ fst s ++ str " -> " ++ str_nat (snd s))) (v_sieves v).

(** str.replace for one character (fruit.py 210) *)
Definition replace_char (c : ascii) (r s : pystr) : pystr := flat_map (fun a => if Ascii.eqb a c then r else [a]) s.
(** fruit.py 201-207, two slices next to each other *)
Definition pair_text (a b : slice_view) : pystr :=
  let left := split_on nl (slice_summary a) in
  let right := split_on nl (slice_summary b) in
  let left' := left ++ repeat (rep 38 " ") (length right - length left) in
  let right' := right ++ repeat (rep 38 " ") (length left' - length right) in
  "|"%char :: rep 38 "-" ++ str "||" ++ rep 38 "-" ++ "|"%char :: [nl] ++
  join [nl] (map (fun p => "|"%char :: fst p ++ str "||" ++ snd p ++ str "|") (combine left' right')) ++
  nl :: "|"%char :: rep 38 "-" ++ str "||" ++ rep 38 "-" ++ "|"%char :: [nl].
(** fruit.py 197-211: the loop takes the slices in pairs, the last one of an odd
    number stands alone *)
Fixpoint slices_text (vs : list slice_view) : pystr :=
  match vs with
  | a :: b :: r => pair_text a b ++ slices_text r
  | [a] => "|"%char :: rep 38 "-" ++ "|"%char :: nl :: "|"%char ::
           replace_char nl ("|"%char :: nl :: ["|"%char]) (slice_summary a) ++
           "|"%char :: nl :: "|"%char :: rep 38 "-" ++ "|"%char :: [nl]
  | [] => []
  end.
(** fruit.py 186-213 [Fruit.summary]; [name] is repr() of the name, None if the
    name is empty. *)
Definition fruit_summary (name : option pystr) (vs : list slice_view) : pystr :=
  rep 80 "=" ++ [nl] ++
  "<"%char :: center 78 (str "Fruit" ++ match name with None => [] | Some r => " "%char :: r end ++
                         str " -> Features: " ++ str_nat (list_sum (map view_nfeatures vs))) ++ ">"%char :: [nl] ++
  rep 80 "=" ++ [nl] ++
  slices_text vs ++
  rep 80 "=".
