(** The model run, over exact rationals, on the literal tables of the test suite
    of the repository (/repo/tests).  These are tests of the MODEL, not proofs of
    properties: they check that the functions the theorems are about compute
    what the authors of the code expect of the code.  Only tables whose entries are exact
    rationals and that use no random draw appear here.  Decimal literals of the tests
    are written as fractions; products such as [int(0.4 * 5)] are given by
    their value. *)
From Coq Require Import Ascii String List Arith ZArith QArith Bool.
From Verif Require Import Num Arr M_Str M_Semiring M_Words M_ISS M_Np M_Prep M_Cache M_Sieve M_PrepObj M_Cos M_Fruit M_Seeds S_Fruit S_Trace T_Run.
Import ListNotations.

Fixpoint eqv {A} (e : A -> A -> bool) (a b : list A) : bool :=
  match a, b with [], [] => true | x :: r, y :: s => e x y && eqv e r s | _, _ => false end.
Definition eq2 : list (list Q) -> list (list Q) -> bool := eqv (eqv Qeq_bool).
Definition eq3 : list (list (list Q)) -> list (list (list Q)) -> bool := eqv eq2.
Definition is3 (r : res (list (list (list Q)))) (v : list (list (list Q))) : bool := match r with Ok x => eq3 x v | Err _ => false end.
Definition is2 (r : res (list (list Q))) (v : list (list Q)) : bool := match r with Ok x => eq2 x v | Err _ => false end.

(** the dataset X_1 of every test file *)
Definition X_1 : dataset Q := [[[-4; 4 # 5; 0; 5; -3]; [2; 1; 0; 0; -7]]; [[5; 8; 2; 6; 0]; [-5; -1; -4; -1 # 2; -8]]]%Q.
Definition parse (s : pystr) : res Q :=
  if eqs s (str "0.0") then Ok 0%Q else if eqs s (str "0.1") then Ok (1 # 10)%Q else if eqs s (str "0.2") then Ok (1 # 5)%Q
  else if eqs s (str "0.5") then Ok (1 # 2)%Q else if eqs s (str "0.7") then Ok (7 # 10)%Q else if eqs s (str "0.8") then Ok (4 # 5)%Q
  else if eqs s (str "0.9") then Ok (9 # 10)%Q else if eqs s (str "1.0") then Ok 1%Q else Err ValueError.
Definition no_rand : rand Q := {| r_nat := fun _ => 0%nat; r_idx := fun _ => []; r_mat := fun _ _ _ => [] |}.
(** [p.fit_transform(X)] of a fresh preparateur without a fruit. *)
Definition prep_ft (f : leaf Q) (X : dataset Q) : res (dataset Q) :=
  match pr_fit (1 # 100000)%Q no_rand (PLeaf f None) X with
  | (Ok _, p) => fst (pr_transform parse (fun x _ => x) p X)
  | (Err e, _) => Err e
  end.

(** ** tests/preparation/test_filter.py *)
Definition XWIN : dataset Q := [[[1; 2; 4; 5; 6]; [11; 22; 33; 44; 55]]; [[10; 20; 30; 40; 50]; [111; 222; 333; 444; 555]]]%Q.
Example test_window_1 : is3 (prep_ft (LWIN (str "0.0") (str "0.7")) XWIN)
  [[[1; 2; 0; 0; 0]; [11; 22; 0; 0; 0]]; [[10; 20; 30; 0; 0]; [111; 222; 333; 0; 0]]]%Q = true.
Proof. vm_compute. reflexivity. Qed.
Example test_window_2 : is3 (prep_ft (LWIN (str "0.7") (str "1.0")) XWIN)
  [[[0; 2; 4; 5; 6]; [0; 22; 33; 44; 55]]; [[0; 0; 30; 40; 50]; [0; 0; 333; 444; 555]]]%Q = true.
Proof. vm_compute. reflexivity. Qed.
(* int(0.4 * 5) = 2, int(0.9 * 5) = 4, int(0.1 * 100) = 10 *)
Example test_dot_1 : is3 (prep_ft (LDOT (DFloat (fun l => Z.of_nat (l * 4 / 10))) None None) X_1)
  [[[0; 4 # 5; 0; 5; 0]; [0; 1; 0; 0; 0]]; [[0; 8; 0; 6; 0]; [0; -1; 0; -1 # 2; 0]]]%Q = true.
Proof. vm_compute. reflexivity. Qed.
Example test_dot_2 : is3 (prep_ft (LDOT (DFloat (fun l => Z.of_nat (l * 9 / 10))) None None) X_1)
  [[[0; 0; 0; 5; 0]; [0; 0; 0; 0; 0]]; [[0; 0; 0; 6; 0]; [0; 0; 0; -1 # 2; 0]]]%Q = true.
Proof. vm_compute. reflexivity. Qed.
Example test_dot_3 : is3 (prep_ft (LDOT (DFloat (fun l => Z.of_nat (l / 10))) None None) [[map (fun k => inject_Z (Z.of_nat k)) (seq 0 100)]])
  [[map (fun k => if (k mod 10 =? 9)%nat then inject_Z (Z.of_nat k) else 0%Q) (seq 0 100)]] = true.
Proof. vm_compute. reflexivity. Qed.

(** ** tests/preparation/test_transform.py *)
Example test_increments_1 : is3 (prep_ft (LINC {| inc_shift := ShInt 1; inc_depth := 1; inc_zp := true |}) X_1)
  [[[0; 24 # 5; -4 # 5; 5; -8]; [0; -1; -1; 0; -7]]; [[0; 3; -6; 4; -6]; [0; 4; -3; 7 # 2; -15 # 2]]]%Q = true.
Proof. vm_compute. reflexivity. Qed.
Example test_increments_2 : is3 (prep_ft (LINC {| inc_shift := ShInt 1; inc_depth := 1; inc_zp := false |}) X_1)
  [[[-4; 24 # 5; -4 # 5; 5; -8]; [2; -1; -1; 0; -7]]; [[5; 3; -6; 4; -6]; [-5; 4; -3; 7 # 2; -15 # 2]]]%Q = true.
Proof. vm_compute. reflexivity. Qed.
Example test_nrm_1 : is3 (prep_ft (LNRM false) X_1)
  [[[0; 48 # 90; 4 # 9; 1; 1 # 9]; [1; 8 # 9; 7 # 9; 7 # 9; 0]]; [[5 # 8; 1; 2 # 8; 6 # 8; 0]; [30 # 75; 70 # 75; 40 # 75; 1; 0]]]%Q = true.
Proof. vm_compute. reflexivity. Qed.
Example test_nrm_2 : is3 (prep_ft (LNRM true) X_1)
  [[[3 # 12; 78 # 120; 7 # 12; 1; 4 # 12]; [9 # 12; 8 # 12; 7 # 12; 7 # 12; 0]];
   [[13 # 16; 1; 10 # 16; 14 # 16; 8 # 16]; [3 # 16; 7 # 16; 4 # 16; 75 # 160; 0]]]%Q = true.
Proof. vm_compute. reflexivity. Qed.
Example test_mav_1 : is3 (prep_ft (LMAV (WInt 2) None) X_1)
  [[[0; -16 # 10; 4 # 10; 25 # 10; 1]; [0; 15 # 10; 5 # 10; 0; -35 # 10]]; [[0; 65 # 10; 5; 4; 3]; [0; -3; -25 # 10; -225 # 100; -425 # 100]]]%Q = true.
Proof. vm_compute. reflexivity. Qed.
(* int(0.6 * 5) = 3 *)
Example test_mav_2 : is3 (prep_ft (LMAV (WFloat (fun l => Z.of_nat (l * 6 / 10))) None) X_1)
  (map (map (map (fun v => Qdiv v 3)))
    [[[0; 0; -32 # 10; 58 # 10; 2]; [0; 0; 3; 1; -7]]; [[0; 0; 15; 16; 8]; [0; 0; -10; -55 # 10; -125 # 10]]])%Q = true.
Proof. vm_compute. reflexivity. Qed.
Example test_lag : is3 (prep_ft LLAG X_1)
  [[[-4; 4 # 5; 4 # 5; 0; 0; 5; 5; -3; -3]; [-4; -4; 4 # 5; 4 # 5; 0; 0; 5; 5; -3];
    [2; 1; 1; 0; 0; 0; 0; -7; -7]; [2; 2; 1; 1; 0; 0; 0; 0; -7]];
   [[5; 8; 8; 2; 2; 6; 6; 0; 0]; [5; 5; 8; 8; 2; 2; 6; 6; 0];
    [-5; -1; -1; -4; -4; -1 # 2; -1 # 2; -8; -8]; [-5; -5; -1; -1; -4; -4; -1 # 2; -1 # 2; -8]]]%Q = true.
Proof. vm_compute. reflexivity. Qed.
Example test_rin_1 : is3 (rin_transform true (Some {| rin_kernel := [[4; 1]; [4; 1]]%Q; rin_ndim := [1; 1]%nat; rin_dims := [0; 1]%nat |}) X_1)
  [[[-4; 48 # 10; 152 # 10; 18 # 10; -8]; [2; -1; -9; -4; -7]]; [[5; 3; -26; -28; -14]; [-5; 4; 17; 75 # 10; 85 # 10]]]%Q = true.
Proof. vm_compute. reflexivity. Qed.
Example test_rin_2 : is3 (rin_transform false (Some {| rin_kernel := [[4; 1]; [2; 3]]%Q; rin_ndim := [2]%nat; rin_dims := [0; 1]%nat |}) X_1)
  [[[0; 0; 82 # 10; -2 # 10; -15]]; [[0; 0; -17; -145 # 10; -125 # 10]]]%Q = true.
Proof. vm_compute. reflexivity. Qed.

(** ** tests/signature/test_simple.py, test_semiring.py, test_general.py, test_cache.py *)
Definition six : list (iword Q) := flat_map qword ["[1]"; "[2]"; "[11]"; "[12]"; "[1][1]"; "[1][2]"]%string.
Definition iss_of (ws : list (iword Q)) (s : semiring) : iss_cfg Q := {| is_words := ws; is_mode := SINGLE; is_sr := s; is_wt := None; is_wt_name := [] |}.
Definition six_reals : list (list (list Q)) :=
  [[[-4; -32 # 10; -32 # 10; 18 # 10; -12 # 10]; [5; 13; 15; 21; 21]];
   [[2; 3; 3; 3; -4]; [-5; -6; -10; -105 # 10; -185 # 10]];
   [[16; 1664 # 100; 1664 # 100; 4164 # 100; 5064 # 100]; [25; 89; 93; 129; 129]];
   [[-8; -72 # 10; -72 # 10; -72 # 10; 138 # 10]; [-25; -33; -41; -44; -44]];
   [[0; -32 # 10; -32 # 10; -192 # 10; -246 # 10]; [0; 40; 66; 156; 156]];
   [[0; -4; -4; -4; -166 # 10]; [0; -5; -57; -645 # 10; -2325 # 10]]]%Q.
Definition six_arctic : list (list (list Q)) :=
  [[[-4; 8 # 10; 8 # 10; 5; 5]; [5; 8; 8; 8; 8]]; [[2; 2; 2; 2; 2]; [-5; -1; -1; -1 # 2; -1 # 2]];
   [[-8; 16 # 10; 16 # 10; 10; 10]; [10; 16; 16; 16; 16]]; [[-2; 18 # 10; 18 # 10; 5; 5]; [0; 7; 7; 7; 7]];
   [[-8; 16 # 10; 16 # 10; 10; 10]; [10; 16; 16; 16; 16]]; [[-2; 18 # 10; 18 # 10; 5; 5]; [0; 7; 7; 75 # 10; 75 # 10]]]%Q.
(** the batches of size one, and the single array *)
Example test_simpleword_iss : is3 (iss_transform (iss_of six Reals) X_1) six_reals = true
  /\ match batch_transform 9 (iss_of six Reals) X_1 1 with Ok (bs, true) => eqv eq3 bs (map (fun a => [a]) six_reals) | _ => false end = true.
Proof. vm_compute. split; reflexivity. Qed.
Example test_simpleword_arctic : is3 (iss_transform (iss_of six (Arctic false)) X_1) six_arctic = true
  /\ match batch_transform 9 (iss_of six (Arctic false)) X_1 1 with Ok (bs, true) => eqv eq3 bs (map (fun a => [a]) six_arctic) | _ => false end = true.
Proof. vm_compute. split; reflexivity. Qed.
Definition gword (reg : registry Q) (s : string) : list (iword Q) :=
  match word_of_string reg (list_ascii_of_string s) with Ok w => [general_iword reg w] | Err _ => [] end.
Example test_word_arctic : is3 (iss_transform (iss_of (gword builtin "[DIM(1)DIM(2)][DIM(1)ABS(1)]") (Arctic false)) X_1)
  [[[-2; 34 # 10; 34 # 10; 15; 15]; [10; 23; 23; 23; 23]]]%Q = true.
Proof. vm_compute. reflexivity. Qed.
Definition with_relu : registry Q := fun name => if eqs name (str "ReLU") then Some (fun i X => map relu (py_row X i)) else builtin name.
Example test_general_words : is3 (iss_transform (iss_of (gword with_relu "[ReLU(1)][ReLU(2)]" ++ qword "[111]") Reals) X_1)
  [[[0; 0; 0; 0; 0]; [0; 0; 0; 0; 0]]; [[-64; -63488 # 1000; -63488 # 1000; 61512 # 1000; 34512 # 1000]; [125; 637; 645; 861; 861]]]%Q = true.
Proof. vm_compute. reflexivity. Qed.
Definition nine : list pystr := map (fun s => list_ascii_of_string s)
  ["[1][11][3][11]"; "[11][13][11][1][3]"; "[1][13][1]"; "[11][13][111][13][11]"; "[3][11][111]"; "[1][11][2]"; "[11][2]";
   "[11][13][111][13][2]"; "[3][11][1112][21]"]%string.
Example test_cache_plan : create_plan nine = [4; 5; 2; 3; 3; 1; 1; 1; 2]%nat.
Proof. vm_compute. reflexivity. Qed.
Definition exts_of (r : res (sword Q)) : list (list int) := match r with Ok w => sw_exts w | Err _ => [] end.
Example test_negative_words_1 : exts_of (simple_word (str "[-12][-2-21]")) = [[-1; 1]; [1; -2]]%Z.
Proof. vm_compute. reflexivity. Qed.
Example test_negative_words_2 :
  exts_of (match simple_word (T := Q) (str "[-12][-2-21]") with Ok w => multiply w (str "[(-11)(-11)(11)][25]") | Err e => Err e end)
  = [[-1; 1; 0; 0; 0; 0; 0; 0; 0; 0; 0]; [1; -2; 0; 0; 0; 0; 0; 0; 0; 0; 0]; [0; 0; 0; 0; 0; 0; 0; 0; 0; 0; -1]; [0; 1; 0; 0; 1; 0; 0; 0; 0; 0; 0]]%Z.
Proof. vm_compute. reflexivity. Qed.
Example test_word_generation :
  map (fun n => match of_weight (T := Q) (fun x => x) n 1 with Ok ws => length ws | Err _ => 0 end)%nat (seq 1 6) = [1; 2; 4; 8; 16; 32]%nat
  /\ match of_weight (T := Q) (fun x => x) 4 2 with Ok ws => length ws | Err _ => 0 end%nat = 82%nat.
Proof. vm_compute. split; reflexivity. Qed.
(** the words of test_extended_mode_simple_3: the prefixes the plan of [nine] computes *)
Definition prefixes3 : list pystr := map (fun s => list_ascii_of_string s)
  ["[1]"; "[1][11]"; "[1][11][3]"; "[1][11][3][11]"; "[11]"; "[11][13]"; "[11][13][11]"; "[11][13][11][1]"; "[11][13][11][1][3]";
   "[1][13]"; "[1][13][1]"; "[11][13][111]"; "[11][13][111][13]"; "[11][13][111][13][11]"; "[3]"; "[3][11]"; "[3][11][111]";
   "[1][11][2]"; "[11][2]"; "[11][13][111][13][2]"; "[3][11][1112]"; "[3][11][1112][21]"]%string.
Example test_extended_mode_simple_3 :
  map (fun k => word_string_loop nine (create_plan nine) (Z.of_nat k)) (seq 0 22) = map Ok prefixes3.
Proof. vm_compute. reflexivity. Qed.
Definition words_of (l : list pystr) : list (iword Q) := flat_map (fun s => match simple_word s with Ok w => [simple_iword w] | Err _ => [] end) l.
Definition X_3 : dataset Q := [[[1; -2; 3; 1 # 2; 2]; [0; 1; -1; 2; 3]; [2; 2; -3; 1; 1 # 3]]; [[-1; 2; 2; 5; 1]; [1; 1; 4; -2; 0]; [0; 3; 1; 1; -2]]]%Q.
Example test_extended_mode_simple_3_values :
  match iss_transform (iss_of (words_of prefixes3) Reals) X_3 with
  | Ok v => is3 (iss_transform {| is_words := words_of nine; is_mode := EXTENDED; is_sr := Reals; is_wt := None; is_wt_name := [] |} X_3) v
  | Err _ => false end = true.
Proof. vm_compute. reflexivity. Qed.
(** the negative words of test_simple.py on X_1 *)
Example test_negative_words_3 :
  match iss_transform (iss_of (qword "[1][2]") Reals) (map (map (map (fun v => / (v + 10)))) X_1)%Q with
  | Ok v => is3 (iss_transform (iss_of (qword "[-1][-2]") Reals) (map (map (map (fun v => v + 10))) X_1)%Q) v | Err _ => false end = true
  /\ match iss_transform (iss_of (qword "[1][2]") (Arctic false)) (map (map (map Qopp)) X_1) with
     | Ok v => is3 (iss_transform (iss_of (qword "[-1][-2]") (Arctic false)) X_1) v | Err _ => false end = true.
Proof. vm_compute. split; reflexivity. Qed.

(** ** tests/sieving/test_explicit.py *)
(** [s.fit_transform(X)] of a fresh sieve; [sel] are all series (sample_size 1). *)
Definition sieve_ft (s : sieve Q) (X : mts Q) : res (mts Q) :=
  match sv_fit q_quantile (fun _ => seq 0 (length X)) s X with
  | (Ok _, s') => fst (sv_transform parse s' X) | (Err e, _) => Err e end.
Definition seg (k : seg_kind) (cuts : list cut_arg) : sieve Q := SSeg (seg_new k cuts None (str "L2")) None None.
Definition X0 : mts Q := hd [] X_1.
Definition X1 : mts Q := nth 1 X_1 [].
Definition F (s : string) : cut_arg := CutF (list_ascii_of_string s).
Definition full : list cut_arg := [CutI (-1)].
Definition mixed : list cut_arg := [CutI (-1); F "0.2"; F "0.7"; F "0.5"].
Definition all_true (l : list bool) : Prop := forallb (fun b => b) l = true.
Example test_max : all_true
  [is2 (sieve_ft (seg KMAX full) X0) [[5]; [2]]; is2 (sieve_ft (seg KMAX [CutI 3]) X0) [[8 # 10]; [2]];
   is2 (sieve_ft (seg KMAX [F "0.5"]) X0) [[5]; [2]]; is2 (sieve_ft (seg KMAX [CutI (-1); CutI 3; CutI 1]) X0) [[-4; 8 # 10; 5]; [2; 1; 0]];
   is2 (sieve_ft (seg KMAX mixed) X0) [[-4; 5; 0; -3]; [2; 0; 0; -7]]]%Q.
Proof. vm_compute. reflexivity. Qed.
Example test_min : all_true
  [is2 (sieve_ft (seg KMIN full) X1) [[0]; [-8]]; is2 (sieve_ft (seg KMIN [CutI 3]) X0) [[-4]; [0]];
   is2 (sieve_ft (seg KMIN [F "0.5"]) X1) [[2]; [-5]]; is2 (sieve_ft (seg KMIN [CutI (-1); CutI 3; CutI 1]) X1) [[5; 2; 0]; [-5; -4; -8]];
   is2 (sieve_ft (seg KMIN mixed) X1) [[5; 2; 6; 0]; [-5; -4; 0; -8]]]%Q.
Proof. vm_compute. reflexivity. Qed.
Example test_end : all_true
  [is2 (sieve_ft (seg KEND full) X0) [[-3]; [-7]]; is2 (sieve_ft (seg KEND [F "0.2"]) X0) [[-4]; [0]];
   is2 (sieve_ft (seg KEND [CutI 1; F "0.2"; F "0.8"; CutI 4; CutI (-1)]) X0) [[-4; -4; 5; 5; -3]; [2; 0; 0; 0; -7]]]%Q.
Proof. vm_compute. reflexivity. Qed.
Example test_npi : all_true
  [is2 (sieve_ft (seg (KNPI 1) full) X0) [[2]; [0]]; is2 (sieve_ft (seg (KNPI 1) [CutI 3]) X0) [[1]; [0]];
   is2 (sieve_ft (seg (KNPI 1) [F "0.5"]) X1) [[1]; [2]]; is2 (sieve_ft (seg (KNPI 1) [CutI (-1); CutI 3; CutI 1]) X1) [[0; 1; 1]; [0; 1; 1]];
   is2 (sieve_ft (seg (KNPI 1) mixed) X1) [[1; 0; 1; 0]; [1; 1; 0; 0]]]%Q.
Proof. vm_compute. reflexivity. Qed.
Example test_mpi : all_true
  [is2 (sieve_ft (seg (KMPI 1) full) X0) [[49 # 10]; [0]]; is2 (sieve_ft (seg (KMPI 1) full) X1) [[35 # 10]; [375 # 100]]]%Q.
Proof. vm_compute. reflexivity. Qed.
Example test_xpi : all_true [is2 (sieve_ft (seg (KXPI 1) full) X0) [[2]; [0]]; is2 (sieve_ft (seg (KXPI 1) full) X1) [[2]; [2]]]%Q.
Proof. vm_compute. reflexivity. Qed.
Example test_lpi : all_true [is2 (sieve_ft (seg (KLPI 1) full) X0) [[1]; [0]]; is2 (sieve_ft (seg (KLPI 1) full) X1) [[1]; [1]]]%Q.
Proof. vm_compute. reflexivity. Qed.
(** the copies of these tests give the same values *)
Definition copy_ft (s : sieve Q) (X : mts Q) : res (mts Q) := match sv_copy (fun l => l) s with Ok s' => sieve_ft s' X | Err e => Err e end.
Example test_copies : all_true
  [is2 (copy_ft (seg KMAX mixed) X0) [[-4; 5; 0; -3]; [2; 0; 0; -7]]; is2 (copy_ft (seg KMIN mixed) X1) [[5; 2; 6; 0]; [-5; -4; 0; -8]];
   is2 (copy_ft (seg (KNPI 1) mixed) X1) [[1; 0; 1; 0]; [1; 1; 0; 0]]]%Q.
Proof. vm_compute. reflexivity. Qed.

(** ** tests/sieving/test_implicit.py *)
Definition ppv (r : res (ppv_cfg Q)) (X : mts Q) : res (mts Q) := match r with Ok c => sieve_ft (SPpv c None None) X | Err e => Err e end.
Definition many (qs : list Q) (constant segments : bool) (order : list Q) : res (ppv_cfg Q) :=
  ppv_new false qs (map (fun _ => constant) qs) segments order.
Example test_ppv : all_true
  [is2 (ppv (ppv_new_scalar false 0 true false) X0) [[3 # 5]; [4 # 5]];
   is2 (ppv (ppv_new_scalar false (1 # 2) false false) X1) [[1]; [0]];
   is2 (ppv (ppv_new_scalar true 0 true false) X0) [[1 # 3]; [0]];
   is2 (ppv (many [1 # 2; 1 # 10; 7 # 10] false false []) X1) [[1; 1; 3 # 5]; [0; 4 # 5; 0]];
   is2 (ppv (many [1 # 2; 1 # 10; 7 # 10] false true [7 # 10; 1 # 2; 1 # 10]) X1) [[0; 2 # 5]; [4 # 5; 0]];
   is2 (ppv (many [-5; 0; 2] true false []) X1) [[1; 1; 4 # 5]; [4 # 5; 0; 0]];
   is2 (ppv (many [0; -5; 2] true true [2; 0; -5]) X1) [[0; 1 # 5]; [4 # 5; 0]]]%Q.
Proof. vm_compute. reflexivity. Qed.
Example test_ppv_raises :
  ppv_new (T := Q) false [1 # 2; 1 # 10; -1]%Q [false; true; false] false [] = Err ValueError
  /\ ppv_new (T := Q) true [1 # 2; 2]%Q [false; false] false [] = Err ValueError.
Proof. vm_compute. split; reflexivity. Qed.

(** ** tests/core/test_branches.py, test_fruit.py and tests/signature/test_consecutive.py *)
Definition iss_o (ws : list string) (m : issmode) : issT qlib :=
  IPlain {| io_words := flat_map qword ws; io_mode := m; io_sr := Reals; io_wt := None |} None.
Definition s_max : sieveT qlib := sieve_of _ (other_than_end KMAX full [QNeg; QOne] (str "L2") Logic.I).
Definition s_min : sieveT qlib := sieve_of _ (other_than_end KMIN full [QNeg; QOne] (str "L2") Logic.I).
Definition slices_program : list (op qlib) :=
  [ONewIss qlib (iss_o ["[1]"; "[2]"; "[11]"]%string SINGLE); ONewIss qlib (iss_o ["[12]"; "[1][1]"; "[1][2]"]%string SINGLE);
   ONewSieve qlib s_max; ONewSieve qlib s_min; ONewFruit qlib (str "F");
   FAdd qlib 0 [ArgI qlib 0; ArgS qlib 0]; FCut qlib 0 None; FAdd qlib 0 [ArgI qlib 1; ArgS qlib 1]].
Example test_slices :
  fst (fruit_nfeatures qlib 0 (run qlib (heap0 qlib 0%nat) slices_program)) = Ok 6%nat
  /\ is2 (fst (fruit_fit_transform qlib 0 X_1 0 (run qlib (heap0 qlib 0%nat) slices_program)))
       [[18 # 10; 3; 5064 # 100; -8; -246 # 10; -166 # 10]; [21; -5; 129; -44; 0; -2325 # 10]]%Q = true.
Proof. vm_compute. split; reflexivity. Qed.
Lemma plain_ppv (c : ppv_cfg Q) : pv_segments c = false -> regular (fun l : list Q => l) (SPpv c None None).
Proof. intros E. split; [congruence|exact Logic.I]. Qed.
Definition s_ppv (q : Q) (constant : bool) : sieveT qlib := sieve_of _ (plain_ppv {| pv_components := false; pv_qc := [(q, constant)]; pv_segments := false |} eq_refl).
Lemma seg_ppv : regular (fun l : list Q => l) (SPpv {| pv_components := false; pv_qc := [(1 # 5, false); (5, true)]%Q; pv_segments := true |} None None).
Proof. split; [reflexivity|exact Logic.I]. Qed.
Definition s_ppv2 : sieveT qlib := sieve_of _ seg_ppv.
Definition mode_program (m : issmode) : list (op qlib) :=
  [ONewPrep qlib p_inc; ONewIss qlib (iss_o ["[11][1][221]"; "[11][1][2][1]"; "[12]"; "[22]"]%string SINGLE);
   ONewIss qlib (iss_o ["[111][2]"; "[1][22]"; "[112][2]"; "[1]"; "[2]"]%string SINGLE);
   ONewIss qlib (iss_o ["[11][1][221]"; "[11][1][2][1]"; "[12]"; "[22]"]%string EXTENDED);
   ONewSieve qlib (s_ppv (1 # 2) false); ONewSieve qlib s_max; ONewSieve qlib s_min; ONewFruit qlib (str "F");
   FAdd qlib 0 [ArgP qlib 0]; FAdd qlib 0 [ArgI qlib 0]; FAdd qlib 0 [ArgS qlib 0]; FAdd qlib 0 [ArgS qlib 1]; FAdd qlib 0 [ArgS qlib 2];
   FCut qlib 0 None; FAdd qlib 0 [ArgI qlib 1]; FAdd qlib 0 [ArgS qlib 0]; FAdd qlib 0 [ArgS qlib 1]; FAdd qlib 0 [ArgS qlib 2]]
  ++ match m with SINGLE => [] | EXTENDED => [OClearIss qlib 0; OAdd qlib 0 [ArgI qlib 2]] end.
Definition shape {A} (r : res (list (list A))) : option (list nat) := match r with Ok x => Some (map (@length A) x) | Err _ => None end.
Example test_mode_in_slices :
  fst (fruit_nfeatures qlib 0 (run qlib (heap0 qlib 0%nat) (mode_program SINGLE))) = Ok 27%nat
  /\ fst (fruit_nfeatures qlib 0 (run qlib (heap0 qlib 0%nat) (mode_program EXTENDED))) = Ok 36%nat
  /\ shape (fst (fruit_fit_transform qlib 0 X_1 0 (run qlib (heap0 qlib 0%nat) (mode_program EXTENDED)))) = Some [36; 36]%nat.
Proof. vm_compute. repeat split; reflexivity. Qed.
Definition count_program : list (op qlib) :=
  [ONewPrep qlib (PLeaf (LINC {| inc_shift := ShInt 1; inc_depth := 1; inc_zp := false |}) None);
   ONewIss qlib (IPlain {| io_words := match of_weight (fun x => x) 4 2 with Ok ws => map simple_iword ws | Err _ => [] end; io_mode := SINGLE; io_sr := Reals; io_wt := None |} None);
   ONewSieve qlib (s_ppv 0 true); ONewSieve qlib (s_ppv (1 # 5) false); ONewSieve qlib s_ppv2;
   ONewSieve qlib (sieve_of _ (other_than_end KMAX [F "0.1"; F "0.5"; F "0.9"] [QNeg; QOne] (str "L2") Logic.I));
   ONewSieve qlib (sieve_of _ (other_than_end KMIN [F "0.1"; F "0.5"; F "0.9"] [QNeg; QOne] (str "L2") Logic.I));
   ONewFruit qlib (str "F"); FAdd qlib 0 [ArgP qlib 0; ArgI qlib 0; ArgS qlib 0; ArgS qlib 1; ArgS qlib 2; ArgS qlib 3; ArgS qlib 4]].
Example test_n_features :
  fst (fruit_nfeatures qlib 0 (run qlib (heap0 qlib 0%nat) count_program)) = Ok 738%nat
  /\ fst (fruit_nfeatures qlib 1 (run qlib (heap0 qlib 0%nat) (count_program ++ [FDeepcopy qlib 0]))) = Ok 738%nat.
Proof. vm_compute. split; reflexivity. Qed.
Definition consecutive_program : list (op qlib) :=
  [ONewIss qlib (iss_o ["[12][1]"; "[1][32]"; "[11][121][3]"]%string EXTENDED);
   ONewIss qlib (iss_o ["[11]"; "[111]"; "[111][1][11]"; "[1][1][11]"]%string EXTENDED);
   ONewSieve qlib s_max; ONewSieve qlib s_end; ONewFruit qlib (str "F"); FAdd qlib 0 [ArgI qlib 0; ArgI qlib 1; ArgS qlib 0; ArgS qlib 1]].
(** the features against the two transforms composed by hand, as the test does *)
Definition by_hand : list (list Q) :=
  let i1 := iss_of (flat_map qword ["[12][1]"; "[1][32]"; "[11][121][3]"]%string) Reals in
  let i2 := iss_of (flat_map qword ["[11]"; "[111]"; "[111][1][11]"; "[1][1][11]"]%string) Reals in
  let ext c := {| is_words := is_words c; is_mode := EXTENDED; is_sr := Reals; is_wt := None; is_wt_name := [] |} in
  match iss_transform (ext i1) X_3 with
  | Ok x1 => flat_map (fun itsum => match iss_transform (ext i2) (map (fun s => [s]) itsum) with Ok v => map (fun a => nth 0 a []) v | Err _ => [] end) x1
  | Err _ => [] end.
Example test_simple_consecutive :
  fst (fruit_nfeatures qlib 0 (run qlib (heap0 qlib 0%nat) consecutive_program)) = Ok 98%nat
  /\ match fst (fruit_fit_transform qlib 0 X_3 0 (run qlib (heap0 qlib 0%nat) consecutive_program)) with
     | Ok v => eqv Qeq_bool (hd [] v) (flat_map (fun s => [match vmax s with Ok m => m | Err _ => 0%Q end; last s 0%Q]) by_hand) | Err _ => false end = true.
Proof. vm_compute. split; reflexivity. Qed.
