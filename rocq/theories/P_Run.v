(** Runs of the model with library seeds on rationals (T_Run): cases that meet
    the hypotheses of the fruit theorems, and witnesses for behaviour that a
    reader of the documentation may not expect. *)
From Coq Require Import Ascii String List Arith ZArith QArith Bool.
From Verif Require Import Num Arr M_Str M_Semiring M_Words M_ISS M_Np M_Prep M_Cache M_Sieve M_PrepObj M_Cos M_Fruit M_Seeds
  S_Fruit S_Trace L_Fruit10 L_Seeds2 L_Seeds3 P_Seeds P_Fruit P_Fruit5 T_Run.
Import ListNotations.
Open Scope nat_scope.

(** The hypotheses of C25, C26, C33 and C60 are met by [program1]: two slices, nested ISS, a fitted sieve. *)
Example C25_hypotheses : Forall (brings qlib (keeps_rows : prepT qlib -> Prop) (covers_rows : issT qlib -> Prop) (fun _ => True)) program1.
Proof.
  repeat constructor; cbn [brings keeps_rows covers_rows p_inc i_two i_one io_wt]; intros a Ha;
    repeat (destruct Ha as [<-|Ha]; [exact I|]); destruct Ha.
Qed.
Example C25_transform : fst (fruit_transform qlib 0 X2 0 None state1) =
  Ok [[3; 1; 2; 0; 3; 0; 2; 1; 1; 2]; [3; 2; 1; 0; 3; 0; 2; 1; 2; 1]]%Q /\
  fst (fruit_nfeatures qlib 0 state1) = Ok 10.
Proof. split; vm_compute; reflexivity. Qed.
Example C26_labels :
  map (fun k => fst (fruit_label qlib 0 (Z.of_nat k) LvFeatures true state1)) [0; 4; 6; 9; 10] =
  [Ok (str "INC | [1] | END!c![q, q]"); Ok (str "INC | [1][2] | NPI[inc=0]!c![q, q]");
   Ok (str "[1] -> [11] | NPI[inc=0]!c![q, q]"); Ok (str "[1][2] -> [11] | NPI[inc=0]!c![q, q]"); Err IndexError].
Proof. vm_compute. reflexivity. Qed.
(** C33: two series are transformed; for the sieve written to columns k to
    k + nf, [on_sieve] is called with rows k to k + nf of the (partly filled)
    result instead of these columns. *)
Theorem C33_on_sieve_columns_refuted :
  received qlib (snd (slice_transform qlib 0 X2 1 None state1)) 0 =
  [EPrep [[[0; 1; 2]; [0; 1; 0]]; [[0; 0; 3]; [0; -1; 3]]]%Q;
   EPrepEnd [[[0; 1; 2]; [0; 1; 0]]; [[0; 0; 3]; [0; -1; 3]]]%Q;
   EItsum [[0; 1; 3]; [0; 0; 3]]%Q; ESieve [[3; 0; 0; 0; 0; 0]]%Q; ESieve [[3; 2; 1; 0; 0; 0]]%Q;
   EItsum [[0; 0; 0]; [0; 0; 0]]%Q; ESieve []; ESieve [];
   ESieveEnd [[3; 1; 2; 0; 3; 0]; [3; 2; 1; 0; 3; 0]]%Q].
Proof. vm_compute. reflexivity. Qed.
(** C27: unfitted, fitted, changed. *)
Example C27_nonvacuous :
  let t p := fst (fruit_transform qlib 0 X2 0 None (run qlib (heap0 qlib 0%nat) p)) in
  t (removelast program1) = Err RuntimeError /\ (exists A, t program1 = Ok A) /\
  t (program1 ++ [FSwitch qlib 0 1; FAdd qlib 0 [ArgS qlib 0]]) = Err RuntimeError /\
  (* the fruit is not told of a change made through its slice, but the slice itself refuses *)
  t (program1 ++ [OClearPreps qlib 0]) = Err RuntimeError /\
  fst (fruit_fit qlib 0 X2 None (run qlib (heap0 qlib 0%nat) (program1 ++ [OClearIss qlib 0]))) = Err RuntimeError.
Proof. cbn zeta. split; [|split; [eexists|split; [|split]]]; vm_compute; reflexivity. Qed.
(** C28: new sieves per iterated sum; refitting replaces them. *)
Example C28_nonvacuous :
  map sl_ext (h_sl qlib state1) = [[[2; 3]; [4; 5]]; [[6]; [7]]] /\
  map sl_ext (h_sl qlib (run qlib state1 [OFit qlib 0 X2 None])) = [[[8; 9]; [10; 11]]; [[6]; [7]]].
Proof. split; vm_compute; reflexivity. Qed.
(** C29: a copy shares its preparateurs with the original: fitting the copy
    changes the features of the original.  A deep copy is independent. *)
Theorem C29_copy_is_shared_refuted :
  let h c := run qlib state2 [c; OFit qlib 1 X3 None] in
  let t h := fst (slice_transform qlib 0 X2 0 None h) in
  t state2 = Ok [[11 # 2]; [27 # 4]]%Q /\ t (h (OCopy qlib 0)) = Ok [[21]; [33]]%Q /\ t (h (ODeepcopy qlib 0)) = t state2.
Proof. cbn zeta. repeat split; vm_compute; reflexivity. Qed.
(** C29: copy() loses fit_sample_size, deepcopy() keeps it. *)
Theorem C29_copy_sample_size_refuted :
  map (fun s => match sl_sample s with SOne => true | SFrac _ => false end) (h_sl qlib (run qlib state2 [OCopy qlib 0; ODeepcopy qlib 0])) = [false; true; false].
Proof. vm_compute. reflexivity. Qed.
(** C60: transforming twice gives the same features, also after transforming
    other data. *)
Example C60_nonvacuous :
  reading qlib state1 (run qlib state1 [FTransform qlib 0 (rev X2) 1 None; FTransform qlib 0 X2 0 None]) /\
  fst (fruit_transform qlib 0 (rev X2) 0 None state1) <> fst (fruit_transform qlib 0 X2 0 None state1).
Proof.
  split.
  - change (reading qlib state1 (snd (exec qlib (FTransform qlib 0 X2 0 None) (snd (exec qlib (FTransform qlib 0 (rev X2) 1 None) state1))))).
    constructor; [constructor; [constructor|]|]; vm_compute; eexists; reflexivity.
  - vm_compute. discriminate.
Qed.
(** C34: the second of two series is selected; it is windowed like the first
    one, and not as with the cache of the sample itself. *)
Theorem C34_other_sample_refuted :
  let t c := fst (slice_transform qlib 0 XW 0 None (snd (slice_fit qlib 0 XW c state3))) in
  (fst (select_sample qlib SOne (length XW) state3) = Ok [1]) /\
  (t None = Ok [[4; 0]; [0; 4]]%Q) /\ (t (Some (firstn 1 XW)) = t None) /\ t (Some [nth 1 XW []]) = Ok [[4; 0]; [4; 0]]%Q.
Proof. cbn zeta. repeat split; vm_compute; reflexivity. Qed.
(** ... and this case meets the hypotheses of the theorems of P_Fruit8. *)
Example C34_nonvacuous : Forall (brings qlib (local_prep : prepT qlib -> Prop) (covers_rows : issT qlib -> Prop) (fun _ => True)) program3 /\
  option_map (fun s => sl_sample s) (nth_error (h_sl qlib state3) 0) = Some SOne /\ full XW.
Proof.
  split; [|split; [reflexivity|]].
  - repeat constructor; cbn [brings keeps_rows covers_rows p_win i_one io_wt]; intros a Ha;
      repeat (destruct Ha as [<-|Ha]; [exact I|]); destruct Ha.
  - intros x Hx. repeat (destruct Hx as [<-|Hx]; [discriminate|]). destruct Hx.
Qed.
Print Assumptions C34_other_sample_refuted.
Print Assumptions C33_on_sieve_columns_refuted.
Print Assumptions C29_copy_is_shared_refuted.
Print Assumptions C29_copy_sample_size_refuted.
