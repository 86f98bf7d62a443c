(** Model of fruits/cache.py 43-135: SharedSeedCache.

    [float(c)] is the parameter [parse]: an arbitrary function from strings to
    numbers that may raise; nothing else about Python's float syntax is used. *)
From Coq Require Import Ascii String List Arith ZArith Bool.
From Verif Require Import Num Arr M_Str M_Np M_Prep.
Import ListNotations.

Section Cache.
Context {T : Type} `{Num T}.
Variable parse : pystr -> res T.

(** An array argument of one, two or three dimensions. *)
Inductive ndarr := Arr1 (x : series T) | Arr2 (X : mts T) | Arr3 (X : dataset T).
(** cache.py 68-73 and 114-117: [X[np.newaxis, np.newaxis, :]] and
    [X[:, np.newaxis, :]]. *)
Definition to3 (a : ndarr) : dataset T :=
  match a with Arr1 x => [[x]] | Arr2 X => map (fun x => [x]) X | Arr3 X => X end.

(** cache.py 43-48. *)
Inductive ctype := COQUANTILE | CISS.
(** What the dictionaries hold: an int64 vector or a float64 matrix. *)
Inductive cval := VCoq (c : list nat) | VSum (m : list (series T)).
(** The two inner dictionaries (63-66) and [_input] (67-77). *)
Record cache := { c_input : option (dataset T); c_coq : list (pystr * cval); c_iss : list (pystr * cval) }.
Definition cache_new (X : option ndarr) : cache :=
  {| c_input := option_map to3 X; c_coq := []; c_iss := [] |}.

Fixpoint dict_get {V} (k : pystr) (d : list (pystr * V)) : option V :=
  match d with [] => None | (k', v) :: r => if eqs k k' then Some v else dict_get k r end.
Definition dict_of (c : cache) (t : ctype) := match t with COQUANTILE => c_coq c | CISS => c_iss c end.
(** [self._cache[cache_id][key] = v] (a new key; newest first). *)
Definition dict_put (c : cache) (t : ctype) (k : pystr) (v : cval) : cache :=
  match t with
  | COQUANTILE => {| c_input := c_input c; c_coq := (k, v) :: c_coq c; c_iss := c_iss c |}
  | CISS => {| c_input := c_input c; c_coq := c_coq c; c_iss := (k, v) :: c_iss c |}
  end.

Definition colon : ascii := ":"%char.
(** The branches 97-112 (with [self._input]) and 118-132 (with [X]), which
    compute the same thing: [Ok None] is the case in which no branch assigns
    anything. *)
Definition compute (t : ctype) (key : pystr) (X : dataset T) : res (option cval) :=
  match t with
  | COQUANTILE =>
      match split_on colon key with
      | [c; norm] =>
          if eqs norm (str "L1") then let! q := parse c in Ok (Some (VCoq (coquantile q (L1_sum X))))
          else if eqs norm (str "L2") then let! q := parse c in Ok (Some (VCoq (coquantile q (L2_sum X))))
          else Ok None
      | _ => Err ValueError
      end
  | CISS => if eqs key (str "L1") then Ok (Some (VSum (L1_sum X)))
            else if eqs key (str "L2") then Ok (Some (VSum (L2_sum X))) else Ok None
  end.
(** cache.py 95-135 [get]; returns the result and the cache afterwards. *)
Definition cache_get (c : cache) (t : ctype) (key : pystr) (X : option ndarr) : res cval * cache :=
  match dict_get key (dict_of c t) with
  | Some v => (Ok v, c)
  | None =>
      match (match c_input c with Some inp => Some inp | None => option_map to3 X end) with
      | None => (Err RuntimeError, c)
      | Some inp => match compute t key inp with
                  | Err e => (Err e, c)
                  | Ok None => (Err KeyError, c)            (* line 135: missing key *)
                  | Ok (Some v) => (Ok v, dict_put c t key v)
                  end
      end
  end.

(** What a fresh computation on [X] gives. *)
Definition cache_fresh (X : dataset T) (t : ctype) (key : pystr) : res cval :=
  match compute t key X with Err e => Err e | Ok None => Err KeyError | Ok (Some v) => Ok v end.
End Cache.
Arguments cache T : clear implicits.
Arguments cval T : clear implicits.
Arguments ndarr T : clear implicits.
