(** Rounding error analysis, part 4: from the kernels to ISS.transform. *)
From Coq Require Import Ascii String List Arith ZArith Bool Lia Reals Lra.
From Verif Require Import Num Arr L_Arr S_ISS S_Float M_Str M_Semiring M_Words M_ISS M_Float L_Tuples L_Reals L_Max L_Slow L_ISS L_Gen L_API L_Rows L_Single L_Float L_Float2 L_Float3.
Import ListNotations.
Local Open Scope R_scope.

(** ISS.transform in SINGLE mode without weighting, for any number structure on R. *)
Lemma any_single (K : Num R) (c : iss_cfg R) (words : list (sword R)) X s :
  is_words c = map (@simple_iword R K) words -> is_mode c = SINGLE -> is_sr c = s -> is_argmax s = false -> is_wt c = None -> words <> [] ->
  @iss_transform R K c X = Ok (map (fun w => map (fun x => nth 0 (@sample_sums R K s (WSimple (sw_exts w) (@get_alpha R K w)) 1 None x []) []) X) words).
Proof.
  intros Ew Hm Hs Ha Hwt Hne. rewrite (single_transform' c X); rewrite ?Hs, ?Hwt; auto using lookups_none_length; [|eapply words_ne; eauto].
  f_equal. rewrite Ew, map_map. apply map_ext. intros w. cbn [simple_iword iw_val totals].
  transitivity (map2 (fun x (_ : list R) => nth 0 (@sample_sums R K s (WSimple (sw_exts w) (@get_alpha R K w)) 1 None x []) []) X (lookups None X)).
  - apply map2_ext_in. intros x g _ _. reflexivity.
  - apply map2_const_r. apply lookups_none_length.
Qed.
Lemma letters_rows X n w : wf_series X n -> letters_in (length X) w -> @rows_ok R X n w.
Proof.
  intros [_ HX] Hl. unfold rows_ok, letters_in in *. eapply Forall_impl; [|exact Hl]. intros el He j Hj Hn.
  specialize (He j Hj Hn). rewrite Forall_forall in HX. apply HX. now apply nth_In.
Qed.
Lemma tables_rows X n w : wf_series X n -> tables_in (length X) w -> @all_rows R X n w.
Proof.
  intros [_ HX] Hl. unfold all_rows, tables_in in *. eapply Forall_impl; [|exact Hl]. intros el He j Hj.
  rewrite Forall_forall in HX. apply HX. apply nth_In. exact (Nat.lt_le_trans _ _ _ Hj He).
Qed.
Lemma tlen_any X n : wf_series X n -> @tlen R X = n.
Proof. apply tlen_wf. Qed.
Lemma row_reals (K : Num R) X n w a g : wf_series X n -> letters_in (length X) w -> w <> [] ->
  nth 0 (@sample_sums R K Reals (WSimple w a) 1 None X g) [] = tab n (@finR R K X w (fun _ => @nunit R K)).
Proof.
  intros HX Hl Hne. cbn [sample_sums fast_single]. unfold total_reals_single. rewrite (tlen_any X n HX), ones_tab.
  apply total_reals_fin; [now apply letters_rows|exact Hne|reflexivity|reflexivity].
Qed.
Lemma row_arctic (K : Num R) X n w a g : wf_series X n -> tables_in (length X) w -> w <> [] ->
  nth 0 (@sample_sums R K (Arctic false) (WSimple w a) 1 None X g) [] = tab n (@finA R K X w (fun _ => @nzero R K)).
Proof.
  intros HX Hl Hne. cbn [sample_sums fast_single]. unfold total_arctic_single. rewrite (tlen_any X n HX).
  rewrite <- (total_arctic_fin (H := K) X n (length w) w 0 (length w) _ (repeat (@zeros R K n) 1)); [|now apply tables_rows|exact Hne|reflexivity|reflexivity].
  rewrite <- zeros_tab. reflexivity.
Qed.
Lemma row_bayesian (K : Num R) X n w a g : wf_series X n -> letters_in (length X) w -> w <> [] ->
  nth 0 (@sample_sums R K Bayesian (WSimple w a) 1 None X g) [] = tab n (@finB R K X w (fun _ => @nunit R K)).
Proof.
  intros HX Hl Hne. cbn [sample_sums fast_single]. unfold total_bayesian_single. rewrite (tlen_any X n HX), ones_tab.
  apply total_bayesian_fin; [now apply letters_rows|exact Hne|reflexivity|reflexivity].
Qed.
(** Exact values. *)
Lemma finR_iss X n w t : wf_series X n -> word_ok X n w -> w <> [] -> (t < n)%nat -> @finR R RNum X w (fun _ => 1) t = iss X w t.
Proof.
  intros HX Hk Hne Ht. pose proof (row_reals RNum X n w [] [] HX (proj1 Hk) Hne) as E.
  rewrite (sample_row_none Reals X n) in E; auto. cbn [row_of] in E. rewrite row_total_spec in E by (auto; apply repeat_length).
  pose proof (tab_inj _ _ _ E t Ht) as E'. rewrite iss_weighted_zero in E'. symmetry. exact E'.
Qed.
Lemma finA_max X n w t : wf_series X n -> tables_in (length X) w -> w <> [] -> (t < n)%nat ->
  is_max (nondec_upto (length w) t) (word_val_plus X w) (@finA R RNum X w (fun _ => 0) t).
Proof.
  intros HX Hk Hne Ht. pose proof (row_arctic RNum X n w [] [] HX Hk Hne) as E.
  rewrite (sample_row_none (Arctic false) X n) in E; auto.
  pose proof (arctic_row_max X n (zeros (length w)) (zeros n) true w t HX Hne Hk (repeat_length _ _) Ht) as M. rewrite E, tab_nth in M by exact Ht.
  eapply is_max_ext; [|reflexivity|exact M]. intros tau _. cbn beta. rewrite weight_exp_zeros, total_exp_zeros. ring.
Qed.
Lemma finB_max X n w t : wf_series X n -> word_ok X n w -> Forall (Forall (fun v => 0 <= v)) X -> w <> [] -> (t < n)%nat ->
  is_max (nondec_upto (length w) t) (word_val X w) (@finB R RNum X w (fun _ => 1) t).
Proof.
  intros HX Hk Hnn Hne Ht. pose proof (row_bayesian RNum X n w [] [] HX (proj1 Hk) Hne) as E.
  rewrite (sample_row_none Bayesian X n) in E; auto.
  pose proof (bayesian_row_max X n (zeros (length w)) (zeros n) true w t HX Hne Hnn (repeat_length _ _) Ht) as M. rewrite E, tab_nth in M by exact Ht.
  eapply is_max_ext; [|reflexivity|exact M]. intros tau _. cbn beta. rewrite weight_exp_zeros, total_exp_zeros, exp_0. ring.
Qed.
(** Absolute values. *)
Lemma map_wf (f : R -> R) X n : wf_series X n -> wf_series (map (map f) X) n.
Proof.
  intros [H1 H2]. split; [destruct X; [congruence|discriminate]|]. apply Forall_map. eapply Forall_impl; [|exact H2]. intros y Hy. now rewrite map_length.
Qed.
Lemma at_abs X d i : at_ (absS X) d i = Rabs (at_ X d i).
Proof. exact (rowF_abs X d i). Qed.
Lemma Rabs_Rprod l : Rabs (Rprod l) = Rprod (map Rabs l).
Proof. induction l as [|x l IH]; cbn; [apply Rabs_R1|]. rewrite Rabs_mult. f_equal. exact IH. Qed.
Lemma Rabs_powerRZ x e : Rabs (powerRZ x e) = powerRZ (Rabs x) e.
Proof.
  destruct e as [|p|p]; cbn [powerRZ]; [apply Rabs_R1|now rewrite RPow_abs|]. rewrite Rabs_inv, RPow_abs. reflexivity.
Qed.
Lemma word_val_absS X w tau : word_val (absS X) w tau = Rabs (word_val X w tau).
Proof.
  unfold word_val. rewrite Rabs_Rprod, map_map. f_equal. apply map_ext. intros j. unfold ext_val. rewrite Rabs_Rprod, map_map. f_equal.
  apply map_ext. intros d. now rewrite at_abs, Rabs_powerRZ.
Qed.
Lemma word_ok_abs X n w : word_ok X n w -> word_ok (absS X) n w.
Proof.
  intros [H1 H2]. unfold absS. split; [rewrite map_length; exact H1|]. eapply Forall_impl; [|exact H2]. intros e He j i Hj Hn Hi.
  specialize (He j i Hj Hn Hi). change (at_ (absS X) j i <> 0). rewrite at_abs. now apply Rabs_no_R0.
Qed.
Lemma iss_absS X w t : iss (absS X) w t = iss_abs X w t.
Proof. unfold iss, iss_abs. f_equal. apply map_ext. intros tau. apply word_val_absS. Qed.
Lemma nth_absW w j : nth j (absW w) [] = map Z.abs (nth j w []).
Proof. unfold absW. change (@nil Z) with (map Z.abs []) at 1. apply map_nth. Qed.
Lemma word_val_plus_abs X w tau : word_val_plus (absS X) (absW w) tau = word_abs X w tau.
Proof.
  unfold word_val_plus, word_abs. unfold absW at 2. rewrite map_length. f_equal. apply map_ext. intros j. unfold ext_val_plus.
  rewrite nth_absW, map_length. f_equal. apply map_ext. intros d. rewrite at_abs. f_equal.
  change 0%Z with (Z.abs 0) at 1. rewrite map_nth. apply abs_IZR.
Qed.
Lemma tables_abs X w : tables_in (length X) w -> tables_in (length (absS X)) (absW w).
Proof. intros H. unfold absS, absW. rewrite map_length. apply Forall_map. eapply Forall_impl; [|exact H]. intros e He. now rewrite map_length. Qed.
Lemma nz_of X n w : nonzero_where_neg X n w -> Forall (fun el => forall t, (t < n)%nat -> nz_at X el t) w.
Proof. intros H. eapply Forall_impl; [|exact H]. intros e He t Ht j Hj Hn. exact (He j t Hj Hn Ht). Qed.
Lemma absS_id X : Forall (Forall (fun v => 0 <= v)) X -> absS X = X.
Proof.
  intros H. unfold absS. rewrite <- (map_id X) at 2. apply map_ext_in. intros y Hy. rewrite <- (map_id y) at 2. apply map_ext_in. intros v Hv.
  rewrite Forall_forall in H. specialize (H y Hy). rewrite Forall_forall in H. apply Rabs_pos_eq. now apply H.
Qed.

(** * Error bounds *)
Section Bounds.
Variable u : R.
Variable o : flops.
Hypothesis St : standard u o.
Lemma near_one N : near u N 1 1 1.
Proof. rewrite <- Rabs_R1 at 3. eapply near_exact. exact St. Qed.
Lemma reals_error X n w t : wf_series X n -> word_ok X n w -> w <> [] -> (t < n)%nat ->
  Rabs (@finR R (FlNum o) X w (fun _ => 1) t - iss X w t) <= err u (word_weight w + length w * (t + 4)) * iss_abs X w t.
Proof.
  intros HX Hk Hne Ht.
  pose proof (fin_near u o St X n w (nz_of _ _ _ (proj2 Hk)) Hne 0 0 (fun _ => 1) (fun _ => 1) (fun _ => 1)
    ltac:(intros; apply near_one) t Ht) as [_ E].
  rewrite (finR_iss X n) in E by auto. rewrite (finR_iss (absS X) n) in E; auto; [|now apply map_wf|now apply word_ok_abs].
  rewrite iss_absS in E.
  replace (0 + word_weight w + 4 * length w + (0 + length w) * t)%nat with (word_weight w + length w * (t + 4))%nat in E by lia. exact E.
Qed.
Lemma arctic_error X n w t m a : wf_series X n -> tables_in (length X) w -> w <> [] -> (t < n)%nat ->
  is_max (nondec_upto (length w) t) (word_val_plus X w) m -> is_max (nondec_upto (length w) t) (word_abs X w) a ->
  Rabs (@finA R (FlNum o) X w (fun _ => 0) t - m) <= err u (1 + arctic_rounds w) * a.
Proof.
  intros HX Hk Hne Ht Hm Ha.
  assert (N0 : near u 1 0 0 0) by (rewrite <- Rabs_R0 at 3; eapply near_exact; exact St).
  destruct (finA_near u o St X n w 1 (fun _ => 0) (fun _ => 0) (fun _ => 0) ltac:(lia) ltac:(intros; exact N0) t Ht) as [_ E].
  rewrite (is_max_unique _ _ _ _ (finA_max X n w t HX Hk Hne Ht) Hm) in E.
  pose proof (finA_max (absS X) n (absW w) t (map_wf Rabs X n HX) (tables_abs X w Hk) ltac:(destruct w; [congruence|discriminate]) Ht) as M.
  assert (El : length (absW w) = length w) by apply map_length. rewrite El in M.
  rewrite (is_max_unique _ _ _ _ (is_max_ext _ _ _ _ _ (fun tau _ => word_val_plus_abs X w tau) eq_refl M) Ha) in E. exact E.
Qed.
Lemma bayesian_error X n w t m : wf_series X n -> word_ok X n w -> Forall (Forall (fun v => 0 <= v)) X -> w <> [] -> (t < n)%nat ->
  is_max (nondec_upto (length w) t) (word_val X w) m ->
  Rabs (@finB R (FlNum o) X w (fun _ => 1) t - m) <= err u (word_weight w + 4 * length w) * m.
Proof.
  intros HX Hk Hnn Hne Ht Hm.
  destruct (finB_near u o St X n w (nz_of _ _ _ (proj2 Hk)) 0 (fun _ => 1) (fun _ => 1) (fun _ => 1) ltac:(intros; apply near_one) t Ht) as [_ E].
  rewrite (absS_id X Hnn) in E. rewrite (is_max_unique _ _ _ _ (finB_max X n w t HX Hk Hnn Hne Ht) Hm) in E. exact E.
Qed.
End Bounds.

(** (1 + u)^N - 1 <= N u / (1 - N u) *)
Lemma err_linear u N : 0 <= u -> INR N * u < 1 -> err u N <= INR N * u / (1 - INR N * u).
Proof.
  intros Hu HN. unfold err. set (p := INR N * u) in *.
  assert (G : (1 + u) ^ N * (1 - p) <= 1).
  { subst p. induction N as [|N IH]; [cbn; lra|].
    rewrite S_INR in *. assert (Hp : 0 <= INR N) by apply pos_INR. specialize (IH ltac:(nra)). cbn [pow].
    assert (P1 : 1 <= (1 + u) ^ N) by (apply pow_R1_Rle; lra).
    assert (A : (1 + u) * (1 - (INR N + 1) * u) <= 1 - INR N * u) by nra. nra. }
  apply (Rmult_le_reg_r (1 - p)); [lra|]. unfold Rdiv. rewrite Rmult_assoc, Rinv_l by lra. lra.
Qed.

(** * Integer data *)
Section Exact.
Variable B : R.
Variable o : flops.
Hypothesis Ex : exact_ints B o.
Lemma int_at_of X n w : wf_series X n -> Forall (Forall is_int) X -> letters_in (length X) w ->
  Forall (fun el => forall t, (t < n)%nat -> int_at X el 0 t) w.
Proof.
  intros [_ HX] Hi Hl. eapply Forall_impl; [|exact Hl]. intros el He t Ht j Hj Hn. specialize (He j Hj Hn).
  change (0 + j)%nat with j. split; [apply int_row; exact Hi|]. split; [exact He|]. rewrite Forall_forall in HX. rewrite HX; [exact Ht|now apply nth_In].
Qed.
Lemma nonneg_ok X n w : letters_in (length X) w -> Forall (Forall (fun e => 0 <= e)%Z) w -> word_ok X n w.
Proof.
  intros Hl Hw. split; [exact Hl|]. unfold nonzero_where_neg. eapply Forall_impl; [|exact Hw]. intros e He j i Hj Hn _.
  rewrite Forall_forall in He. specialize (He _ (nth_In _ 0%Z Hj)). lia.
Qed.
Lemma good_one : good 1 1 1.
Proof. split; [reflexivity|]. split; [apply int1|]. rewrite Rabs_R1. lra. Qed.
Lemma reals_exact X n w t : wf_series X n -> letters_in (length X) w -> w <> [] -> (t < n)%nat ->
  Forall (Forall is_int) X -> Forall (Forall (fun e => 0 <= e)%Z) w -> iss (max1 X) w t <= B ->
  @finR R (FlNum o) X w (fun _ => 1) t = iss X w t.
Proof.
  intros HX Hl Hne Ht Hi Hw HB. pose proof (nonneg_ok X n w Hl Hw) as Hk. rewrite <- (finR_iss X n) by auto.
  assert (Hm : word_ok (max1 X) n w) by (apply nonneg_ok; [unfold max1; rewrite map_length; exact Hl|exact Hw]).
  rewrite <- (finR_iss (max1 X) n) in HB; auto; [|now apply map_wf].
  refine (finR_exact B o Ex X w Hw Hne t _ (fun _ => 1) (fun _ => 1) (fun _ => 1) _ _ HB).
  - eapply Forall_impl; [|apply (int_at_of X n w HX Hi Hl)]. intros el He s Hs. apply He. lia.
  - intros _. lra.
  - intros s _. apply good_one.
Qed.
Lemma arctic_exact X n w t m a : wf_series X n -> tables_in (length X) w -> w <> [] -> (t < n)%nat ->
  Forall (Forall is_int) X -> is_max (nondec_upto (length w) t) (word_val_plus X w) m -> is_max (nondec_upto (length w) t) (word_abs X w) a ->
  a <= B -> @finA R (FlNum o) X w (fun _ => 0) t = m.
Proof.
  intros HX Hk Hne Ht Hi Hm Ha HB. rewrite <- (is_max_unique _ _ _ _ (finA_max X n w t HX Hk Hne Ht) Hm).
  refine (finA_exact B o Ex X w t Hi (fun _ => 0) (fun _ => 0) (fun _ => 0) _ _).
  - intros s _. split; [reflexivity|]. split; [apply int0|]. rewrite Rabs_R0. lra.
  - pose proof (finA_max (absS X) n (absW w) t (map_wf Rabs X n HX) (tables_abs X w Hk) ltac:(destruct w; [congruence|discriminate]) Ht) as M.
    assert (El : length (absW w) = length w) by apply map_length. rewrite El in M.
    rewrite (is_max_unique _ _ _ _ (is_max_ext _ _ _ _ _ (fun tau _ => word_val_plus_abs X w tau) eq_refl M) Ha). exact HB.
Qed.
Lemma max1_nonneg X : Forall (Forall (fun v => 0 <= v)) (max1 X).
Proof.
  unfold max1. apply Forall_map. apply Forall_forall. intros y _. apply Forall_map. apply Forall_forall. intros v _.
  pose proof (Rmax_l 1 (Rabs v)). lra.
Qed.
Lemma bayesian_exact X n w t m a : wf_series X n -> letters_in (length X) w -> w <> [] -> (t < n)%nat ->
  Forall (Forall is_int) X -> Forall (Forall (fun e => 0 <= e)%Z) w -> Forall (Forall (fun v => 0 <= v)) X ->
  is_max (nondec_upto (length w) t) (word_val X w) m -> is_max (nondec_upto (length w) t) (word_val (max1 X) w) a ->
  a <= B -> @finB R (FlNum o) X w (fun _ => 1) t = m.
Proof.
  intros HX Hl Hne Ht Hi Hw Hnn Hm Ha HB. pose proof (nonneg_ok X n w Hl Hw) as Hk.
  rewrite <- (is_max_unique _ _ _ _ (finB_max X n w t HX Hk Hnn Hne Ht) Hm).
  assert (Hmo : word_ok (max1 X) n w) by (apply nonneg_ok; [unfold max1; rewrite map_length; exact Hl|exact Hw]).
  rewrite <- (is_max_unique _ _ _ _ (finB_max (max1 X) n w t (map_wf _ X n HX) Hmo (max1_nonneg X) Hne Ht) Ha) in HB.
  refine (finB_exact B o Ex X w Hw t _ (fun _ => 1) (fun _ => 1) (fun _ => 1) _ _ HB).
  - eapply Forall_impl; [|apply (int_at_of X n w HX Hi Hl)]. intros el He s Hs. apply He. lia.
  - intros _. lra.
  - intros s _. apply good_one.
Qed.
End Exact.
