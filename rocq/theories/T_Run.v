(** The model run on rationals, with the seeds of the library: concrete
    histories that meet the hypotheses of the fruit theorems. *)
From Coq Require Import Ascii String List Arith ZArith QArith Bool.
From Verif Require Import Num Arr M_Str M_Semiring M_Words M_ISS M_Np M_Prep M_Cache M_Sieve M_PrepObj M_Cos M_Fruit M_Seeds S_Fruit S_Trace.
Import ListNotations.
#[global] Existing Instance QNum.

(** [choice] takes the last series, [randint] the last index; every other draw is the
    number of the call. *)
Definition q_oracles : oracles Q := {|
  o_int := fun _ n => n - 1;
  o_choice := fun _ n size => rev (skipn (n - size) (seq 0 n));
  o_rand := fun g => {| r_nat := fun _ => g; r_idx := fun _ => [0]; r_mat := fun _ r c => repeat (repeat (inject_Z (Z.of_nat g)) c) r |};
  o_net := fun _ _ _ => {| ffn_w1 := []; ffn_b := []; ffn_w2 := [] |};
  o_idx := fun _ _ _ _ => []
|}%nat.
(** float() of the strings used below. *)
Definition q_parse (s : pystr) : res Q :=
  if eqs s (str "0.5") then Ok (1 # 2)%Q else if eqs s (str "1.0") then Ok 1%Q else if eqs s (str "0") then Ok 0%Q else Err ValueError.
Definition q_quantile (p : Q) (v : list Q) : Q := np_quantile (Z.to_nat (Qnum p)) (Pos.to_nat (Qden p)) v.
Definition qlib : kit Q :=
  library q_oracles q_parse (fun x _ => x) q_quantile (1 # 100000)%Q (fun l => l)
    (fun p => match p with PLeaf f _ => leaf_name f ++ str "()" | _ => str "?" end) (fun _ => str "c") (fun _ => str "q") (fun _ => str "x") (fun _ => str "PPV").
Definition sieve_of (s : sieve Q) (r : regular (fun l => l) s) : sieveT qlib := exist _ s r.
Definition qword (s : string) : list (iword Q) := match simple_word s with Ok w => [simple_iword w] | Err _ => [] end.

(** INC; ISS of [1] and [1][2] in mode EXTENDED; END at the last step, and a
    sieve that has to be fitted: NPI with the median as a bound. *)
Definition s_end : sieveT qlib := sieve_of (SSeg (seg_new KEND [CutI (-1)] None (str "L2")) None None) (conj (fun _ => eq_refl) I).
Lemma other_than_end (k : seg_kind) c q n : (match k with KEND => False | _ => True end) ->
  regular (fun l : list Q => l) (SSeg {| sg_kind := k; sg_cut := c; sg_q := q; sg_norm := n |} None None).
Proof. intros Hk. split; [|exact I]. cbn [sg_kind]. intros ->. destruct Hk. Qed.
Definition s_npi : sieveT qlib := sieve_of _ (other_than_end (KNPI 0) [CutI (-1)] [QNeg; QProb 1 2; QOne] (str "L2") I).
Definition i_two : issT qlib := IPlain {| io_words := qword "[1]" ++ qword "[1][2]"; io_mode := EXTENDED; io_sr := Reals; io_wt := None |} None.
Definition i_one : issT qlib := IPlain {| io_words := qword "[11]"; io_mode := SINGLE; io_sr := Reals; io_wt := None |} None.
Definition p_inc : prepT qlib := PLeaf (LINC {| inc_shift := ShInt 1; inc_depth := 1; inc_zp := true |}) None.
Definition p_win : prepT qlib := PLeaf (LWIN (str "0") (str "0.5")) None.
Definition X2 : dataset Q := [[[1; 2; 4]; [0; 1; 1]]; [[2; 2; 5]; [1; 0; 3]]]%Q.
Definition program1 : list (op qlib) :=
  [ONewPrep qlib p_inc; ONewIss qlib i_two; ONewIss qlib i_one; ONewSieve qlib s_end; ONewSieve qlib s_npi; ONewFruit qlib (str "F");
   FAdd qlib 0 [ArgP qlib 0; ArgI qlib 0; ArgS qlib 0; ArgS qlib 1];
   FCut qlib 0 None; FAdd qlib 0 [ArgI qlib 0; ArgI qlib 1; ArgS qlib 1];
   FFit qlib 0 X2 None].
Definition state1 : heap qlib := run qlib (heap0 qlib 0%nat) program1.

Definition p_qtc : prepT qlib := PLeaf (LQTC 1 2 false None None) None.
Definition X3 : dataset Q := [[[7; 8; 9]; [5; 5; 5]]]%Q.
Definition program2 : list (op qlib) :=
  [ONewPrep qlib p_qtc; ONewIss qlib i_one; ONewSieve qlib s_end; ONewSlice qlib; OAdd qlib 0 [ArgP qlib 0; ArgI qlib 0; ArgS qlib 0];
   OSampleSize qlib 0 (SFrac (fun n => n)); OFit qlib 0 X2 None].
Definition state2 : heap qlib := run qlib (heap0 qlib 0%nat) program2.

(** Two series whose windows differ; WIN, ISS, a sieve that is fitted. *)
Definition XW : dataset Q := [[[0; 0; 0; 3]]; [[1; 0; 0; 0]]]%Q.
Definition program3 : list (op qlib) :=
  [ONewPrep qlib p_win; ONewIss qlib i_one; ONewSieve qlib s_npi; ONewSlice qlib; OAdd qlib 0 [ArgP qlib 0; ArgI qlib 0; ArgS qlib 0]].
Definition state3 : heap qlib := run qlib (heap0 qlib 0%nat) program3.
