(** Specification vocabulary for C79: what a fit of a slice trains on. *)
From Coq Require Import List Arith Bool.
From Verif Require Import Num Arr M_Str M_Np M_Fruit S_Fruit.
Import ListNotations.

Section Train.
Context {T : Type} `{Num T}.
Variable K : kit T.

(** The series drawn from [n] ones: with fit_sample_size 1, one random series;
    otherwise max(int(fit_sample_size * n), 1) series without repetition, of
    which there must be enough.  [g], [g']: state of numpy.random. *)
Inductive drawn (n : nat) (g : rng K) : sample -> list nat -> rng K -> Prop :=
| drawn_one i g' : 0 < n -> k_randint K g n = (i, g') -> drawn n g SOne [i] g'
| drawn_some f idx g' : Nat.max (f n) 1 <= n -> k_choice K g n (Nat.max (f n) 1) = (idx, g') -> drawn n g (SFrac f) idx g'.

(** Preparateurs [ps] trained one after the other: each is fitted on the data
    that the ones before it, already fitted, have made of [X]; [Y] is what the
    last one makes of it.  [ps']: the preparateurs afterwards. *)
Inductive trained_preps (c : dataset T) : rng K -> list (prepT K) -> dataset T -> list (prepT K) -> dataset T -> rng K -> Prop :=
| tp_nil g X : trained_preps c g [] X [] X g
| tp_cons g p p1 p2 g1 ps X Z ps' Y g2 :
    p_fit K g X (p_attach K c p) = (Ok tt, p1, g1) -> p_transform K X p1 = (Ok Z, p2) ->
    trained_preps c g1 ps Z ps' Y g2 -> trained_preps c g (p :: ps) X (p2 :: ps') Y g2.

(** ISS trained on [Y], all on the same data; an ISS that does not require
    fitting only gets the cache. *)
Inductive trained_iss (c Y : dataset T) : rng K -> list (issT K) -> list (issT K) -> rng K -> Prop :=
| ti_nil g : trained_iss c Y g [] [] g
| ti_fit g i i' g1 is is' g2 :
    i_requires K (i_attach K c i) = true -> i_fit K g Y (i_attach K c i) = (Ok tt, i', g1) ->
    trained_iss c Y g1 is is' g2 -> trained_iss c Y g (i :: is) (i' :: is') g2
| ti_skip g i is is' g2 :
    i_requires K (i_attach K c i) = false ->
    trained_iss c Y g is is' g2 -> trained_iss c Y g (i :: is) (i_attach K c i :: is') g2.

(** Copies of the sieves [svs], all fitted on the iterated sum [Z]. *)
Inductive trained_copies (c : dataset T) (Z : mts T) : rng K -> list (sieveT K) -> list (sieveT K) -> rng K -> Prop :=
| tc_nil g : trained_copies c Z g [] [] g
| tc_cons g v cp v' g1 svs vs g2 :
    s_copy K v = Ok cp -> s_fit K g Z (s_attach K c cp) = (Ok tt, v', g1) ->
    trained_copies c Z g1 svs vs g2 -> trained_copies c Z g (v :: svs) (v' :: vs) g2.
(** For every iterated sum its own copies. *)
Inductive trained_sieves (c : dataset T) (svs : list (sieveT K)) : rng K -> list (mts T) -> list (list (sieveT K)) -> rng K -> Prop :=
| ts_nil g : trained_sieves c svs g [] [] g
| ts_cons g Z vs g1 Zs rows g2 :
    trained_copies c Z g svs vs g1 -> trained_sieves c svs g1 Zs rows g2 -> trained_sieves c svs g (Z :: Zs) (vs :: rows) g2.

(** All iterated sums of nested ISS, in the order of the nested loops. *)
Fixpoint all_itsums (is : list (issT K)) (X : dataset T) (Zs : list (mts T)) : Prop :=
  match is with
  | [] => Zs = [map (fun x => nth 0 x []) X]
  | i :: is' => exists L parts, sums_of K i X L /\
      Forall2 (fun S P => all_itsums is' (map (fun row => [row]) S) P) L parts /\ Zs = concat parts
  end.
End Train.
