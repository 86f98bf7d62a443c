(** [==] between preparateurs (fruits/preparation/*.py, the [__eq__] methods)
    and the arguments of their constructors as Python values. *)
From Coq Require Import Ascii String List Arith ZArith Bool.
From Verif Require Import Num Arr M_Str M_Np M_Prep M_Cache M_PrepObj.
Import ListNotations.

Section Eq.
Context {T : Type} `{Num T}.

(** An int or a float; Python compares them by value.  (Booleans passed where
    numbers are expected, and NaN, are not modelled.) *)
Inductive pynum := NI (z : int) | NF (x : T).
Definition num_val (n : pynum) : T := match n with NI z => nofZ z | NF x => x end.
Definition num_eq (a b : pynum) : bool := neqb (num_val a) (num_val b).
(** A number or a callable; callables are compared by identity ([id]). *)
Inductive pyarg := ANum (n : pynum) | AFun (id : nat).
Definition arg_eq (a b : pyarg) : bool :=
  match a, b with ANum x, ANum y => num_eq x y | AFun i, AFun j => i =? j | _, _ => false end.
Definition opt_eq {A} (e : A -> A -> bool) (a b : option A) : bool :=
  match a, b with None, None => true | Some x, Some y => e x y | _, _ => false end.

(** A preparateur: its class and constructor arguments. *)
Inductive pobj :=
| OINC (shift : pyarg) (depth : int) (zp : bool)                           (* transform.py 44-54 *)
| OSTD (separately var : bool) (eps : T)                                   (* 113-123 *)
| ONRM (scale_dim : bool)                                                  (* 177-178 *)
| OMAV (width : pynum)                                                     (* 241-248 *)
| OLAG                                                                     (* 277 *)
| OFFN (d_out : nat) (d_hidden : option nat) (center relu_out : bool)      (* 332-342 *)
| ORIN (width : pyarg) (adaptive : bool) (out_dim : int) (force : bool) (kernel : option (list (list T)))  (* 470-482 *)
| ORDW (dirichlet : bool)                                                  (* 584-588 *)
| OJLD (dim : pynum) (distribute bias : bool)                              (* 672-685 *)
| OSPE (freq : T) (op : pystr) (fn : option nat) (step : option pystr) (max_length : option nat)  (* 775-787 *)
| ORPE (freq : T) (max_length : option nat)                                (* 877-883 *)
| OCTS (s : pynum) (pseudo : bool)                                         (* 926-932 *)
| OQTC (q : T) (lower : bool) (bound : option T)                           (* 977-985 *)
| OFUN (f : nat)                                                           (* 1031-1032 *)
| ODIL (clusters : option T)                                               (* filter.py 28-31 *)
| OWIN (start stop : T)                                                    (* filter.py 85-87 *)
| ODOT (n : pynum) (first : option pynum)                                  (* filter.py 141-163 *)
| OPDD (density proportion : T)                                            (* filter.py 224-237 *)
| ODIM (p : pobj) (dim : list int)                                         (* wrapper.py 25-31 *)
| ONEW (p : option pobj).                                                  (* wrapper.py 65-66 *)

(** [bool(k1 == k2)] for two kernels (transform.py 560): comparing with None or
    with an array of the same shape is done elementwise and the truth value of
    an array of more than one entry is a ValueError.  For arrays of different
    shapes numpy broadcasts, returns False or raises, depending on the shapes
    and on the version: [others]. *)
Variable others : list (list T) -> list (list T) -> res bool.
Definition arr_size (k : list (list T)) : nat := length k * tlen k.
Definition truth (size : nat) (v : bool) : res bool :=
  if size =? 0 then Ok false else if size =? 1 then Ok v else Err ValueError.
Definition kernel_eq (a b : option (list (list T))) : res bool :=
  match a, b with
  | None, None => Ok true
  | Some k, None | None, Some k => truth (arr_size k) false
  | Some k, Some k' =>
      if (length k =? length k') && (tlen k =? tlen k')
      then truth (arr_size k) (neqb (nth 0 (nth 0 k []) nzero) (nth 0 (nth 0 k' []) nzero))
      else others k k'
  end.

(** [a == b]; the method of the left operand decides. *)
Definition peq (a b : pobj) : res bool :=
  match a with
  | OINC s d z =>                                       (* transform.py 80-86 *)
      match b with OINC s' d' z' => Ok (arg_eq s s' && (d =? d')%Z && eqb z z') | _ => Ok false end
  | OSTD s v _ =>                                       (* 149-155 *)
      match b with OSTD s' v' _ => Ok (eqb s s' && eqb v v') | _ => Ok false end
  | ONRM s =>                                           (* 203-206 *)
      match b with ONRM s' => Ok (eqb s s') | _ => Ok false end
  | OMAV w =>                                           (* 268-271 *)
      match b with OMAV w' => Ok (num_eq w w') | _ => Ok false end
  | OLAG =>                                             (* 303-306 *)
      match b with OLAG => Ok true | _ => Ok false end
  | ORIN w a o f k =>                                   (* 555-562: "and" stops at the first difference *)
      match b with
      | ORIN w' a' o' f' k' =>
          if arg_eq w w' && eqb a a' && (o =? o')%Z && eqb f f' then kernel_eq k k' else Ok false
      | _ => Ok false end
  | ORDW d =>                                           (* 607-610 *)
      match b with ORDW d' => Ok (eqb d d') | _ => Ok false end
  | OJLD d ds bi =>                                     (* 736-743 *)
      match b with OJLD d' ds' bi' => Ok (num_eq d d' && eqb ds ds' && eqb bi bi') | _ => Ok false end
  | OSPE fr op fn st ml =>                              (* 823-831 *)
      match b with
      | OSPE fr' op' fn' st' ml' =>
          Ok (neqb fr fr' && eqs op op' && opt_eq Nat.eqb fn fn' && opt_eq eqs st st' && opt_eq Nat.eqb ml ml')
      | _ => Ok false end
  | ORPE fr ml =>                                       (* 899-904 *)
      match b with ORPE fr' ml' => Ok (neqb fr fr' && opt_eq Nat.eqb ml ml') | _ => Ok false end
  | OCTS s p =>                                         (* 950-955 *)
      match b with OCTS s' p' => Ok (num_eq s s' && eqb p p') | _ => Ok false end
  | OQTC q l bd =>                                      (* 1006-1012 *)
      match b with OQTC q' l' bd' => Ok (neqb q q' && eqb l l' && opt_eq neqb bd bd') | _ => Ok false end
  | OFUN _ => Ok false                                  (* 1044-1045 *)
  | OFFN _ _ _ _ | ODIL _ | ODIM _ _ | ONEW _ => Ok false  (* abstract.py 19-20 *)
  | OWIN s e =>                                         (* filter.py 113-117 *)
      match b with OWIN s' e' => Ok (neqb s s' && neqb e e') | _ => Err TypeError end
  | ODOT n f =>                                         (* filter.py 199-203 *)
      match b with ODOT n' f' => Ok (num_eq n n' && opt_eq num_eq f f') | _ => Err TypeError end
  | OPDD d p =>                                         (* filter.py 263-267 *)
      match b with OPDD d' p' => Ok (neqb d d' && neqb p p') | _ => Err TypeError end
  end.

(** [copy()] on the constructor arguments. *)
Variable eps0 : T.
Fixpoint obj_copy (a : pobj) : pobj :=
  match a with
  | OSTD s v _ => OSTD s v eps0                         (* transform.py 146-147 *)
  | ODIM p d => ODIM (obj_copy p) d                     (* wrapper.py 46-47 *)
  | ONEW (Some p) => ONEW (Some (obj_copy p))           (* wrapper.py 97-100 *)
  | _ => a
  end.

(** What the constructors accept. *)
Definition unit_float (n : pynum) : bool := match n with NI _ => true | NF x => nltb nzero x && nltb x nunit end.
Fixpoint constructible (a : pobj) : bool :=
  match a with
  | OINC _ d _ => (1 <=? d)%Z                           (* transform.py 51-52 *)
  | OMAV w => unit_float w                              (* 245-246 *)
  | OJLD d _ _ => unit_float d                          (* 678-681 *)
  | ODOT n f => unit_float n && match f with Some x => unit_float x | None => true end   (* filter.py 146-160 *)
  | OPDD d p => nltb nzero d && nleb d nunit && nltb nzero p && nltb p nunit             (* filter.py 229-232 *)
  | ODIM p _ => constructible p
  | ONEW (Some p) => constructible p
  | _ => true
  end.

(** ** The object behaves as ... *)
(** Meaning of callables and of arithmetic on floats. *)
Record meaning := {
  m_int : nat -> nat -> int;                            (* width/shift callables *)
  m_wave : nat -> T -> T;                               (* SPE functions *)
  m_fun : nat -> dataset T -> res (dataset T);          (* FUN functions *)
  m_ceil : T -> nat -> int;                             (* np.ceil(x * l) *)
  m_trunc_mul : T -> nat -> int;                        (* int(x * l) *)
  m_trunc : T -> int;                                   (* int(x) *)
  m_jld : T -> nat -> nat;                              (* transform.py 689-690 *)
  m_ratio : T -> nat * nat;                             (* a fraction *)
  m_show : T -> pystr                                   (* str(x) *)
}.
Variable M : meaning.
Definition dot_of (n : pynum) : dot_arg := match n with NI z => DInt z | NF x => DFloat (m_trunc_mul M x) end.
(** The freshly constructed preparateur of M_PrepObj. *)
Fixpoint prep_of (a : pobj) : prep T :=
  let leaf f := PLeaf f None in
  match a with
  | OINC s d z => leaf (LINC {| inc_shift := match s with ANum (NI k) => ShInt k | ANum (NF x) => ShFun (m_ceil M x) | AFun i => ShFun (m_int M i) end;
                          inc_depth := Z.to_nat d; inc_zp := z |})
  | OSTD s v e => leaf (LSTD {| std_separately := s; std_var := v; std_eps := e |} None)
  | ONRM s => leaf (LNRM s)
  | OMAV w => leaf (LMAV (match w with NI z => WInt z | NF x => WFloat (m_trunc_mul M x) end) None)
  | OLAG => leaf LLAG
  | OFFN o h c r => leaf (LFFN o h {| ffn_center := c; ffn_relu_out := r |} None)
  | ORIN w a o f k => leaf (LRIN (match w with ANum (NI z) => RWInt z | ANum (NF x) => RWInt (m_trunc M x) | AFun i => RWFun (m_int M i) end) a o f k None)
  | ORDW d => leaf (LRDW d None)
  | OJLD d ds b => leaf (LJLD (match d with NI z => fun _ => Z.to_nat z | NF x => m_jld M x end) ds b None)
  | OSPE fr op fn st ml => leaf (LSPE fr op (option_map (m_wave M) fn) st ml)
  | ORPE fr ml => leaf (LRPE fr ml)
  | OCTS s p => leaf (LCTS (match s with
                            | NI z => CInt z
                            | NF x => if nltb nzero x && nltb x nunit then CFrac (m_trunc_mul M x) else CInt (m_trunc M x)
                            end) p)
  | OQTC q l b => leaf (LQTC (fst (m_ratio M q)) (snd (m_ratio M q)) l b None)
  | OFUN f => leaf (LFUN (m_fun M f))
  | ODIL c => leaf (LDIL (option_map (m_trunc_mul M) c) None)
  | OWIN s e => leaf (LWIN (m_show M s) (m_show M e))
  | ODOT n f => leaf (LDOT (dot_of n) (option_map dot_of f) None)
  | OPDD d p => leaf (LPDD (fst (m_ratio M d)) (snd (m_ratio M d)) (fst (m_ratio M p)) (snd (m_ratio M p)) None)
  | ODIM p d => PDim (prep_of p) d None
  | ONEW None => PNew0 None
  | ONEW (Some p) => PNew (prep_of p) None
  end.
End Eq.
Arguments pynum T : clear implicits. Arguments pyarg T : clear implicits. Arguments pobj T : clear implicits. Arguments meaning T : clear implicits.
