(** The lists that [get_preparateurs], [get_iss] and [get_sieves] return
    (fruits/fruit.py 331-333, 347-349, 364-366) are the lists of the slice
    itself, not copies: the caller can change them at any time.  The methods
    [add_*] append to the list in place (328, 344, 361), [clear_*] binds a new
    list (337, 353, 370), so that a list obtained before belongs to the caller
    alone from then on.
    A list in the hands of the caller is a number into [st_lists]. *)
From Coq Require Import List Arith Bool.
From Verif Require Import Num Arr M_Str M_Np M_Prep M_Fruit S_Fruit.
Import ListNotations.

Inductive attribute := Preparateurs | Calculators | FeatureSieves.
(** The lists of a slice (fruit.py 308-322); [field]: read, [with_field]: changed
    in place, which touches nothing else, in particular not [_fitted]. *)
Definition field (a : attribute) (s : slice) : list nat :=
  match a with Preparateurs => sl_p s | Calculators => sl_i s | FeatureSieves => sl_s s end.
Definition with_field (a : attribute) (l : list nat) (s : slice) : slice :=
  {| sl_p := match a with Preparateurs => l | _ => sl_p s end;
     sl_i := match a with Calculators => l | _ => sl_i s end;
     sl_s := match a with FeatureSieves => l | _ => sl_s s end;
     sl_ext := sl_ext s; sl_fitted := sl_fitted s; sl_sample := sl_sample s |}.
(** Which list object the caller holds. *)
Inductive held := OfSlice (sl : nat) (a : attribute) | Own (l : list nat).

Section Live.
Context {T : Type} `{Num T}.
Variable K : kit T.
Record state := { st_heap : heap K; st_lists : list held }.
Definition slice_field (h : heap K) (sl : nat) (a : attribute) : list nat :=
  match nth_error (h_sl K h) sl with Some s => field a s | None => [] end.
(** The contents of a held list. *)
Definition contents_of (h : heap K) (x : held) : list nat := match x with OfSlice sl a => slice_field h sl a | Own l => l end.
Definition read (st : state) (n : nat) : option (list nat) := option_map (contents_of (st_heap st)) (nth_error (st_lists st) n).
(** [l.append(x)], [l.pop()], [l[:] = ...]: any change of a list that belongs to
    slice [sl]. *)
Definition change_field (sl : nat) (a : attribute) (f : list nat -> list nat) (h : heap K) : heap K :=
  match nth_error (h_sl K h) sl with
  | Some s => {| h_p := h_p K h; h_i := h_i K h; h_s := h_s K h; h_sl := upd sl (with_field a (f (field a s)) s) (h_sl K h);
                 h_fr := h_fr K h; h_g := h_g K h; h_log := h_log K h |}
  | None => h
  end.
(** fruit.py 335-338, 351-355, 368-372, 397-408: which calls bind new lists. *)
Definition clears (o : op K) (sl : nat) (a : attribute) : bool :=
  match o, a with
  | OClearPreps _ sl', Preparateurs => sl =? sl'
  | OClearIss _ sl', Calculators => sl =? sl'
  | OClearSieves _ sl', FeatureSieves => sl =? sl'
  | OClear _ sl', _ => sl =? sl'
  | _, _ => false
  end.
Definition detach (h : heap K) (o : op K) (x : held) : held :=
  match x with OfSlice sl a => if clears o sl a then Own (slice_field h sl a) else x | Own l => x end.
(** What a program can do: call the API, get a list, change a list it holds. *)
Inductive action := Api (o : op K) | Get (sl : nat) (a : attribute) | Change (n : nat) (f : list nat -> list nat).
Definition act (st : state) (x : action) : state :=
  match x with
  | Api o => {| st_heap := snd (exec K o (st_heap st)); st_lists := map (detach (st_heap st) o) (st_lists st) |}
  | Get sl a => match nth_error (h_sl K (st_heap st)) sl with
                | Some _ => {| st_heap := st_heap st; st_lists := st_lists st ++ [OfSlice sl a] |}
                | None => st
                end
  | Change n f => match nth_error (st_lists st) n with
                  | Some (OfSlice sl a) => {| st_heap := change_field sl a f (st_heap st); st_lists := st_lists st |}
                  | Some (Own l) => {| st_heap := st_heap st; st_lists := upd n (Own (f l)) (st_lists st) |}
                  | None => st
                  end
  end.
Definition acts (st : state) (xs : list action) : state := fold_left act xs st.
End Live.
