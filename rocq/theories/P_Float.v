(** Properties C72-C74: what rounding does to iterated sums. *)
From Coq Require Import Ascii String List Arith ZArith Bool Lia Reals Lra.
From Flocq Require Import Core Relative.
From Verif Require Import Num Arr L_Arr S_ISS S_Float M_Str M_Semiring M_Words M_ISS M_Float L_Reals L_Single L_RComp L_Float3 L_Float4.
Import ListNotations.
Local Open Scope R_scope.

(** C72: Reals. *)
Theorem C72_reals_rounding_error : forall u o, standard u o ->
  forall (c : iss_cfg R) (words : list (sword R)) X n,
  is_words c = map simple_iword words -> is_mode c = SINGLE -> is_sr c = Reals -> is_wt c = None ->
  words <> [] -> wf_dataset X n ->
  Forall (fun w => sw_exts w <> [] /\
      Forall (fun x => letters_in (length x) (sw_exts w) /\ nonzero_where_neg x n (sw_exts w)) X) words ->
  exists rows, @iss_transform R (FlNum o) c X = Ok rows /\ length rows = length words /\
    forall r i t w x, nth_error words r = Some w -> nth_error X i = Some x -> (t < n)%nat ->
      length (nth i (nth r rows []) []) = n /\
      Rabs (nth t (nth i (nth r rows []) []) 0 - iss x (sw_exts w) t)
      <= err u (word_weight (sw_exts w) + length (sw_exts w) * (t + 4)) * iss_abs x (sw_exts w) t.
Proof.
  intros u o St c words X n Ew Hm Hs Hwt Hne HX HW. eexists. split.
  { apply (any_single (FlNum o) c words X Reals); auto. }
  split; [apply map_length|]. intros r i t w x Hw Hx Ht.
  rewrite (nth_error_nth_ _ _ _ _ (map_nth_error _ _ _ Hw)), (nth_error_nth_ _ _ _ _ (map_nth_error _ _ _ Hx)).
  apply nth_error_In in Hw, Hx. rewrite Forall_forall in HW. destruct (HW w Hw) as [H1 H2].
  unfold wf_dataset in HX. rewrite Forall_forall in HX, H2. specialize (HX x Hx). specialize (H2 x Hx).
  rewrite (row_reals (FlNum o) x n) by (auto; apply H2). split; [apply tab_length|]. rewrite tab_nth by exact Ht.
  now apply (reals_error u o St x n).
Qed.
Print Assumptions C72_reals_rounding_error.
(** ... which is a bound of the relative error if all data are non-negative. *)
Theorem C72_relative_error : forall X w t, Forall (Forall (fun v => 0 <= v)) X -> iss_abs X w t = iss X w t.
Proof. intros X w t H. rewrite <- iss_absS. now rewrite absS_id. Qed.
Print Assumptions C72_relative_error.
Theorem C72_error_linear : forall u N, 0 <= u -> INR N * u < 1 -> err u N <= INR N * u / (1 - INR N * u).
Proof. exact err_linear. Qed.
Print Assumptions C72_error_linear.

(** C73: Arctic and Bayesian: the error does not depend on the length of the series. *)
Theorem C73_arctic_rounding_error : forall u o, standard u o ->
  forall (c : iss_cfg R) (words : list (sword R)) X n,
  is_words c = map simple_iword words -> is_mode c = SINGLE -> is_sr c = Arctic false -> is_wt c = None ->
  words <> [] -> wf_dataset X n ->
  Forall (fun w => sw_exts w <> [] /\ Forall (fun x => tables_in (length x) (sw_exts w)) X) words ->
  exists rows, @iss_transform R (FlNum o) c X = Ok rows /\ length rows = length words /\
    forall r i t w x m a, nth_error words r = Some w -> nth_error X i = Some x -> (t < n)%nat ->
      is_max (nondec_upto (length (sw_exts w)) t) (word_val_plus x (sw_exts w)) m ->
      is_max (nondec_upto (length (sw_exts w)) t) (word_abs x (sw_exts w)) a ->
      Rabs (nth t (nth i (nth r rows []) []) 0 - m) <= err u (1 + arctic_rounds (sw_exts w)) * a.
Proof.
  intros u o St c words X n Ew Hm Hs Hwt Hne HX HW. eexists. split.
  { apply (any_single (FlNum o) c words X (Arctic false)); auto. }
  split; [apply map_length|]. intros r i t w x m a Hw Hx Ht Hmax Hamax.
  rewrite (nth_error_nth_ _ _ _ _ (map_nth_error _ _ _ Hw)), (nth_error_nth_ _ _ _ _ (map_nth_error _ _ _ Hx)).
  apply nth_error_In in Hw, Hx. rewrite Forall_forall in HW. destruct (HW w Hw) as [H1 H2].
  unfold wf_dataset in HX. rewrite Forall_forall in HX, H2. specialize (HX x Hx). specialize (H2 x Hx).
  rewrite (row_arctic (FlNum o) x n) by auto. rewrite tab_nth by exact Ht.
  now apply (arctic_error u o St x n).
Qed.
Print Assumptions C73_arctic_rounding_error.
Theorem C73_bayesian_rounding_error : forall u o, standard u o ->
  forall (c : iss_cfg R) (words : list (sword R)) X n,
  is_words c = map simple_iword words -> is_mode c = SINGLE -> is_sr c = Bayesian -> is_wt c = None ->
  words <> [] -> wf_dataset X n -> Forall (Forall (Forall (fun v => 0 <= v))) X ->
  Forall (fun w => sw_exts w <> [] /\
      Forall (fun x => letters_in (length x) (sw_exts w) /\ nonzero_where_neg x n (sw_exts w)) X) words ->
  exists rows, @iss_transform R (FlNum o) c X = Ok rows /\ length rows = length words /\
    forall r i t w x m, nth_error words r = Some w -> nth_error X i = Some x -> (t < n)%nat ->
      is_max (nondec_upto (length (sw_exts w)) t) (word_val x (sw_exts w)) m ->
      Rabs (nth t (nth i (nth r rows []) []) 0 - m)
      <= err u (word_weight (sw_exts w) + 4 * length (sw_exts w)) * m.
Proof.
  intros u o St c words X n Ew Hm Hs Hwt Hne HX Hnn HW. eexists. split.
  { apply (any_single (FlNum o) c words X Bayesian); auto. }
  split; [apply map_length|]. intros r i t w x m Hw Hx Ht Hmax.
  rewrite (nth_error_nth_ _ _ _ _ (map_nth_error _ _ _ Hw)), (nth_error_nth_ _ _ _ _ (map_nth_error _ _ _ Hx)).
  apply nth_error_In in Hw, Hx. rewrite Forall_forall in HW. destruct (HW w Hw) as [H1 H2].
  unfold wf_dataset in HX. rewrite Forall_forall in HX, H2, Hnn. specialize (HX x Hx). specialize (H2 x Hx). specialize (Hnn x Hx).
  rewrite (row_bayesian (FlNum o) x n) by (auto; apply H2). rewrite tab_nth by exact Ht.
  now apply (bayesian_error u o St x n).
Qed.
Print Assumptions C73_bayesian_rounding_error.

(** C74: integers below [B] are not rounded. *)
Definition keeps_ints (B : R) (rnd : R -> R) : Prop := 1 <= B /\ forall x, is_int x -> Rabs x <= B -> rnd x = x.
Lemma keeps_exact B rnd : keeps_ints B rnd -> exact_ints B (rounded rnd).
Proof.
  intros [HB Hr]. unfold exact_ints, rounded. cbn.
  assert (S' : forall x y, is_int x -> is_int y -> is_int (x - y)).
  { intros x y [a ->] [b ->]. exists (a - b)%Z. now rewrite minus_IZR. }
  split; [|split; [|split; [|split; [|lra]]]].
  - intros x y Hx Hy L. apply Hr; [now apply is_int_mul|exact L].
  - intros x y Hx Hy L. apply Hr; [now apply is_int_add|exact L].
  - intros x y Hx Hy L. apply Hr; [now apply S'|exact L].
  - rewrite exp_0. apply Hr; [apply int1|]. rewrite Rabs_R1. exact HB.
Qed.
Theorem C74_reals_integers_exact : forall B rnd, keeps_ints B rnd ->
  forall (c : iss_cfg R) (words : list (sword R)) X n,
  is_words c = map simple_iword words -> is_mode c = SINGLE -> is_sr c = Reals -> is_wt c = None ->
  words <> [] -> wf_dataset X n -> Forall (Forall (Forall is_int)) X ->
  Forall (fun w => sw_exts w <> [] /\ Forall (Forall (fun e => 0 <= e)%Z) (sw_exts w) /\
      Forall (fun x => letters_in (length x) (sw_exts w)) X) words ->
  exists rows, @iss_transform R (FlNum (rounded rnd)) c X = Ok rows /\ length rows = length words /\
    forall r i t w x, nth_error words r = Some w -> nth_error X i = Some x -> (t < n)%nat ->
      iss (max1 x) (sw_exts w) t <= B ->
      nth t (nth i (nth r rows []) []) 0 = iss x (sw_exts w) t.
Proof.
  intros B rnd Kr c words X n Ew Hm Hs Hwt Hne HX Hi HW. apply keeps_exact in Kr. eexists. split.
  { apply (any_single (FlNum (rounded rnd)) c words X Reals); auto. }
  split; [apply map_length|]. intros r i t w x Hw Hx Ht HB.
  rewrite (nth_error_nth_ _ _ _ _ (map_nth_error _ _ _ Hw)), (nth_error_nth_ _ _ _ _ (map_nth_error _ _ _ Hx)).
  apply nth_error_In in Hw, Hx. rewrite Forall_forall in HW. destruct (HW w Hw) as (H1 & H2 & H3).
  unfold wf_dataset in HX. rewrite Forall_forall in HX, H3, Hi. specialize (HX x Hx). specialize (H3 x Hx). specialize (Hi x Hx).
  rewrite (row_reals _ x n) by auto. rewrite tab_nth by exact Ht. now apply (reals_exact B _ Kr x n).
Qed.
Print Assumptions C74_reals_integers_exact.
Theorem C74_arctic_integers_exact : forall B rnd, keeps_ints B rnd ->
  forall (c : iss_cfg R) (words : list (sword R)) X n,
  is_words c = map simple_iword words -> is_mode c = SINGLE -> is_sr c = Arctic false -> is_wt c = None ->
  words <> [] -> wf_dataset X n -> Forall (Forall (Forall is_int)) X ->
  Forall (fun w => sw_exts w <> [] /\ Forall (fun x => tables_in (length x) (sw_exts w)) X) words ->
  exists rows, @iss_transform R (FlNum (rounded rnd)) c X = Ok rows /\ length rows = length words /\
    forall r i t w x m a, nth_error words r = Some w -> nth_error X i = Some x -> (t < n)%nat ->
      is_max (nondec_upto (length (sw_exts w)) t) (word_val_plus x (sw_exts w)) m ->
      is_max (nondec_upto (length (sw_exts w)) t) (word_abs x (sw_exts w)) a -> a <= B ->
      nth t (nth i (nth r rows []) []) 0 = m.
Proof.
  intros B rnd Kr c words X n Ew Hm Hs Hwt Hne HX Hi HW. apply keeps_exact in Kr. eexists. split.
  { apply (any_single (FlNum (rounded rnd)) c words X (Arctic false)); auto. }
  split; [apply map_length|]. intros r i t w x m a Hw Hx Ht Hmax Hamax HB.
  rewrite (nth_error_nth_ _ _ _ _ (map_nth_error _ _ _ Hw)), (nth_error_nth_ _ _ _ _ (map_nth_error _ _ _ Hx)).
  apply nth_error_In in Hw, Hx. rewrite Forall_forall in HW. destruct (HW w Hw) as (H1 & H2).
  unfold wf_dataset in HX. rewrite Forall_forall in HX, H2, Hi. specialize (HX x Hx). specialize (H2 x Hx). specialize (Hi x Hx).
  rewrite (row_arctic _ x n) by auto. rewrite tab_nth by exact Ht. now apply (arctic_exact B _ Kr x n _ _ m a).
Qed.
Print Assumptions C74_arctic_integers_exact.
Theorem C74_bayesian_integers_exact : forall B rnd, keeps_ints B rnd ->
  forall (c : iss_cfg R) (words : list (sword R)) X n,
  is_words c = map simple_iword words -> is_mode c = SINGLE -> is_sr c = Bayesian -> is_wt c = None ->
  words <> [] -> wf_dataset X n -> Forall (Forall (Forall is_int)) X -> Forall (Forall (Forall (fun v => 0 <= v))) X ->
  Forall (fun w => sw_exts w <> [] /\ Forall (Forall (fun e => 0 <= e)%Z) (sw_exts w) /\
      Forall (fun x => letters_in (length x) (sw_exts w)) X) words ->
  exists rows, @iss_transform R (FlNum (rounded rnd)) c X = Ok rows /\ length rows = length words /\
    forall r i t w x m a, nth_error words r = Some w -> nth_error X i = Some x -> (t < n)%nat ->
      is_max (nondec_upto (length (sw_exts w)) t) (word_val x (sw_exts w)) m ->
      is_max (nondec_upto (length (sw_exts w)) t) (word_val (max1 x) (sw_exts w)) a -> a <= B ->
      nth t (nth i (nth r rows []) []) 0 = m.
Proof.
  intros B rnd Kr c words X n Ew Hm Hs Hwt Hne HX Hi Hnn HW. apply keeps_exact in Kr. eexists. split.
  { apply (any_single (FlNum (rounded rnd)) c words X Bayesian); auto. }
  split; [apply map_length|]. intros r i t w x m a Hw Hx Ht Hmax Hamax HB.
  rewrite (nth_error_nth_ _ _ _ _ (map_nth_error _ _ _ Hw)), (nth_error_nth_ _ _ _ _ (map_nth_error _ _ _ Hx)).
  apply nth_error_In in Hw, Hx. rewrite Forall_forall in HW. destruct (HW w Hw) as (H1 & H2 & H3).
  unfold wf_dataset in HX. rewrite Forall_forall in HX, H3, Hi, Hnn. specialize (HX x Hx). specialize (H3 x Hx). specialize (Hi x Hx). specialize (Hnn x Hx).
  rewrite (row_bayesian _ x n) by auto. rewrite tab_nth by exact Ht. now apply (bayesian_exact B _ Kr x n _ _ m a).
Qed.
Print Assumptions C74_bayesian_integers_exact.

(** * Double precision *)
(** Rounding to nearest, ties to even, with 53 bits and an unbounded exponent:
    float64 as long as nothing overflows or underflows. *)
Definition rnd53 : R -> R := round radix2 (FLX_exp 53) ZnearestE.
Theorem C72_binary64 : standard (/ 2 ^ 53) (rounded rnd53).
Proof.
  assert (E : / 2 * bpow radix2 (- 53 + 1) = / 2 ^ 53).
  { change (- 53 + 1)%Z with (Z.opp 52). rewrite bpow_opp, bpow_powerRZ. cbn [powerRZ].
    change (IZR radix2) with 2. change (Pos.to_nat 52) with 52%nat. replace 53%nat with (S 52) by reflexivity. cbn [pow].
    rewrite <- Rinv_mult. reflexivity. }
  assert (G : forall x, Rabs (rnd53 x - x) <= / 2 ^ 53 * Rabs x).
  { intros x. rewrite <- E. apply relative_error_N_FLX. reflexivity. }
  unfold standard, rounded. cbn [f_add f_sub f_mul f_div f_exp].
  split; [apply Rlt_le, Rinv_0_lt_compat, pow_lt; lra|]. repeat split; intros; try apply G.
  pose proof (G (exp x)) as Hx. rewrite (Rabs_pos_eq (exp x)) in Hx; [exact Hx|left; apply exp_pos].
Qed.
Print Assumptions C72_binary64.
(** Rounding to nearest in float64 with underflow (emin = -1074). *)
Definition rnd64 : R -> R := round radix2 (FLT_exp (-1074) 53) ZnearestE.
Theorem C74_binary64 : keeps_ints (2 ^ 53) rnd64.
Proof.
  split; [apply pow_R1_Rle; lra|]. intros x [k ->] L. apply round_generic; [apply valid_rnd_N|].
  rewrite <- abs_IZR in L. replace (2 ^ 53) with (IZR (2 ^ 53)) in L by (rewrite pow_IZR; reflexivity). apply le_IZR in L.
  destruct (Z.eq_dec (Z.abs k) (2 ^ 53)) as [Q|Q].
  - apply generic_format_FLT. exists (Float radix2 (Z.sgn k) 53).
    + assert (Ek : k = (Z.sgn k * 2 ^ 53)%Z) by lia. rewrite Ek at 1. unfold F2R. cbn [Fnum Fexp]. rewrite mult_IZR. reflexivity.
    + cbn [Fnum]. change (radix2 ^ 53)%Z with (2 ^ 53)%Z. lia.
    + cbn. lia.
  - apply generic_format_FLT. exists (Float radix2 k 0).
    + unfold F2R. cbn [Fnum Fexp bpow]. ring.
    + cbn [Fnum]. change (radix2 ^ 53)%Z with (2 ^ 53)%Z. lia.
    + cbn. lia.
Qed.
Print Assumptions C74_binary64.

(** * The hypotheses can be met *)
Definition fw : sword R := {| sw_name := str "[11][2]"; sw_maxdim := 2; sw_exts := [[2%Z]; [0%Z; 1%Z]]; sw_alpha := None |}.
Definition fX : list (list (list R)) := [[[3; -2; 5]; [7; 0; -1]]].
Definition fc : iss_cfg R := {| is_words := map simple_iword [fw]; is_mode := SINGLE; is_sr := Reals; is_wt := None; is_wt_name := [] |}.
Example C72_nonvacuous : wf_dataset fX 3 /\ Forall (Forall (Forall is_int)) fX /\
  Forall (fun w : sword R => sw_exts w <> [] /\ Forall (Forall (fun e => 0 <= e)%Z) (sw_exts w) /\
      Forall (fun x => letters_in (length x) (sw_exts w) /\ nonzero_where_neg x 3 (sw_exts w)) fX) [fw].
Proof.
  split; [|split].
  - constructor; [|constructor]. split; [discriminate|]. repeat constructor.
  - repeat constructor; apply is_int_IZR.
  - constructor; [|constructor]. cbn [sw_exts fw]. split; [discriminate|]. split; [repeat constructor; lia|].
    constructor; [|constructor]. split.
    + apply Forall_forall. intros e He j Hj _. destruct He as [<-|[<-|[]]]; cbn in *; lia.
    + apply Forall_forall. intros e He j i Hj Hn. exfalso. destruct He as [<-|[<-|[]]]; destruct j as [|[|j]]; cbn in *; lia.
Qed.
(** In double precision the word [11][2] of a series of length 3 is computed with
    a relative error below 1e-14 (times the sum of the absolute values). *)
Example C72_value : word_weight (sw_exts fw) = 3%nat /\ err (/ 2 ^ 53) (word_weight (sw_exts fw) + length (sw_exts fw) * (2 + 4)) < / 10 ^ 14.
Proof.
  split; [reflexivity|]. change (word_weight (sw_exts fw) + length (sw_exts fw) * (2 + 4))%nat with 15%nat.
  eapply Rle_lt_trans; [apply C72_error_linear|].
  - apply Rlt_le, Rinv_0_lt_compat, pow_lt. lra.
  - replace (INR 15) with 15 by (rewrite INR_IZR_INZ; reflexivity). lra.
  - replace (INR 15) with 15 by (rewrite INR_IZR_INZ; reflexivity). unfold Rdiv.
    apply (Rmult_lt_reg_r (1 - 15 * / 2 ^ 53)); [lra|]. rewrite Rmult_assoc, Rinv_l by lra. lra.
Qed.
(** [11][2] at time 2: 9 * 0 + 9 * (-1) + 4 * (-1) = -13; no number on the way exceeds 9 * 1 + 9 * 1 + 4 * 1 = 22. *)
Example C74_value : iss [[3; -2; 5]; [7; 0; -1]] (sw_exts fw) 2 = -13 /\ iss (max1 [[3; -2; 5]; [7; 0; -1]]) (sw_exts fw) 2 <= 2 ^ 53.
Proof.
  split; [rcbv; lra|]. assert (A : forall v : R, Rmax 1 (Rabs v) = if Rle_dec 1 (Rabs v) then Rabs v else 1) by reflexivity.
  unfold max1. cbn [map].
  assert (E1 : Rmax 1 (Rabs 3) = 3) by (rewrite (Rabs_pos_eq 3) by lra; rewrite Rmax_right; lra).
  assert (E2 : Rmax 1 (Rabs (-2)) = 2) by (rewrite Rabs_left by lra; rewrite Rmax_right; lra).
  assert (E3 : Rmax 1 (Rabs 5) = 5) by (rewrite (Rabs_pos_eq 5) by lra; rewrite Rmax_right; lra).
  assert (E4 : Rmax 1 (Rabs 7) = 7) by (rewrite (Rabs_pos_eq 7) by lra; rewrite Rmax_right; lra).
  assert (E5 : Rmax 1 (Rabs 0) = 1) by (rewrite Rabs_R0; rewrite Rmax_left; lra).
  assert (E6 : Rmax 1 (Rabs (-1)) = 1) by (rewrite Rabs_left by lra; rewrite Rmax_left; lra).
  rewrite E1, E2, E3, E4, E5, E6. rcbv. lra.
Qed.
(** Without the bound the sum is not exact: an arithmetic that keeps only the
    integers up to 2 computes 2 + 1 wrongly. *)
Definition rnd2 (x : R) : R := if Rle_dec (Rabs x) 2 then x else 0.
Example C74_bound_needed : keeps_ints 2 rnd2 /\
  let c := {| is_words := map simple_iword [{| sw_name := str "[1]"; sw_maxdim := 1; sw_exts := [[1%Z]]; sw_alpha := None |}];
              is_mode := SINGLE; is_sr := Reals; is_wt := None; is_wt_name := [] |} in
  @iss_transform R (FlNum (rounded rnd2)) c [[[2; 1]]] = Ok [[[2; 0]]] /\ iss [[2; 1]] [[1%Z]] 1 = 3.
Proof.
  assert (K : forall x, Rabs x <= 2 -> rnd2 x = x) by (intros x L; unfold rnd2; destruct (Rle_dec (Rabs x) 2); [reflexivity|contradiction]).
  split; [|split].
  - split; [lra|]. intros x _ L. now apply K.
  - rewrite (any_single (FlNum (rounded rnd2)) _ [{| sw_name := str "[1]"; sw_maxdim := 1; sw_exts := [[1%Z]]; sw_alpha := None |}] _ Reals); try reflexivity; [|discriminate].
    cbn [map sw_exts]. rewrite (row_reals (FlNum (rounded rnd2)) [[2; 1]] 2).
    + assert (R0' : rnd2 (0 * 0) = 0) by (rewrite Rmult_0_l; apply K; rewrite Rabs_R0; lra).
      assert (R0n : rnd2 (- 0 * 0) = 0) by (rewrite Ropp_0, Rmult_0_l; apply K; rewrite Rabs_R0; lra).
      assert (R1' : rnd2 (exp 0) = 1) by (rewrite exp_0; apply K; rewrite Rabs_R1; lra).
      assert (R2 : rnd2 2 = 2) by (apply K; rewrite Rabs_pos_eq; lra).
      assert (R11 : rnd2 1 = 1) by (apply K; rewrite Rabs_pos_eq; lra).
      assert (R3 : rnd2 3 = 0) by (unfold rnd2; destruct (Rle_dec (Rabs 3) 2) as [L|L]; [rewrite Rabs_pos_eq in L; lra|reflexivity]).
      assert (R00 : rnd2 0 = 0) by (apply K; rewrite Rabs_R0; lra).
      cbn. unfold L_Float.e0, L_Float.e0n. cbn. rewrite R0', R0n, R1'. change (Pos.to_nat 1) with 1%nat. cbn.
      repeat first [rewrite Rmult_1_l | rewrite Rmult_1_r | rewrite Rmult_0_l | rewrite R2 | rewrite R11 | rewrite R00].
      replace (2 + 1) with 3 by lra. rewrite R3. repeat first [rewrite Rmult_0_l | rewrite R00]. reflexivity.
    + split; [discriminate|]. repeat constructor.
    + apply Forall_forall. intros e He j Hj _. destruct He as [<-|[]]; cbn in *; lia.
    + discriminate.
  - rcbv. lra.
Qed.
