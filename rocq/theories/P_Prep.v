(** Properties C35-C47, C54, C56: preparateurs, coquantiles and weighting
    lookups.  [has_shape X n d l]: X is an (n, d, l) array; [entry X i j t] is
    X[i, j, t] (specification in S_Prep.v). *)
From Coq Require Import List Arith ZArith Lia Bool Reals Lra Permutation.
From Verif Require Import Num Arr M_Str M_Np M_Prep S_ISS S_Prep L_Arr L_Np L_Tuples L_Prep L_Prep2 L_Prep3 L_RComp.
Import ListNotations.
Open Scope R_scope.

Definition X3 : dataset R := [[[1; 3; 2]; [5; 5; 5]]].
Example X3_shape : has_shape X3 1 2 3.
Proof. repeat constructor. Qed.

(** * C35 *)
Theorem C35_inc_zero_padded : forall (c : inc_cfg) X n d l s,
  has_shape X n d l -> (1 <= n)%nat -> (1 <= d)%nat -> (1 <= s)%nat ->
  inc_shift c = ShInt (Z.of_nat s) \/ (exists f, inc_shift c = ShFun f /\ f l = Z.of_nat s) ->
  inc_zp c = true ->
  exists Y, inc_transform c X = Ok Y /\ has_shape Y n d l /\
  forall i j t, (i < n)%nat -> (j < d)%nat -> (t < l)%nat ->
    entry Y i j t = iterate (inc_depth c) (diff s) (entry X i j) t.
Proof.
  intros c X n d l s HX Hn Hd Hs Hk Hzp. apply inc_zero_padded; auto. unfold inc_k.
  destruct Hk as [->|[f [-> Hf]]]; auto.
Qed.
Print Assumptions C35_inc_zero_padded.
(** The plain INC(): one step of lag 1. *)
Theorem C35_inc_default : forall c X n d l,
  inc_new (ShInt 1) 1 true = Ok c -> has_shape X n d l -> (1 <= n)%nat -> (1 <= d)%nat ->
  exists Y, inc_transform c X = Ok Y /\ has_shape Y n d l /\
  forall i j t, (i < n)%nat -> (j < d)%nat -> (t < l)%nat ->
    entry Y i j t = if (t =? 0)%nat then 0 else entry X i j t - entry X i j (t - 1).
Proof.
  intros c X n d l Hc HX Hn Hd. injection Hc as <-.
  destruct (C35_inc_zero_padded {| inc_shift := ShInt 1; inc_depth := 1; inc_zp := true |} X n d l 1 HX Hn Hd)
    as [Y [E [HY HSp]]]; [lia|now left|reflexivity|].
  exists Y. split; [exact E|]. split; [exact HY|]. intros i j t Hi Hj Ht. rewrite HSp by assumption.
  cbn [inc_depth iterate]. unfold diff. destruct t; reflexivity.
Qed.
Print Assumptions C35_inc_default.
Theorem C35_inc_translation_invariant : forall (c : inc_cfg) X X' n d l s (k : nat -> nat -> R),
  has_shape X n d l -> has_shape X' n d l -> (1 <= n)%nat -> (1 <= d)%nat -> (1 <= s)%nat ->
  inc_shift c = ShInt (Z.of_nat s) -> inc_zp c = true -> (1 <= inc_depth c)%nat ->
  (forall i j t, (i < n)%nat -> (j < d)%nat -> (t < l)%nat -> entry X' i j t = entry X i j t + k i j) ->
  inc_transform c X' = inc_transform c X.
Proof.
  intros c X X' n d l s k HX HX' Hn Hd Hs Hk Hzp Hm E.
  destruct (C35_inc_zero_padded c X n d l s HX Hn Hd Hs (or_introl Hk) Hzp) as [Y [E1 [HY S1]]].
  destruct (C35_inc_zero_padded c X' n d l s HX' Hn Hd Hs (or_introl Hk) Hzp) as [Y' [E2 [HY' S2]]].
  rewrite E1, E2. f_equal. apply (dataset_ext Y' Y n d l HY' HY). intros i j t Hi Hj Ht.
  rewrite S1, S2 by assumption. rewrite <- (iterate_diff_const (inc_depth c) s (k i j) (entry X i j)) by exact Hm.
  apply iterate_diff_ext. intros u Hu. apply E; lia.
Qed.
Print Assumptions C35_inc_translation_invariant.
Theorem C35_inc_linear : forall (c : inc_cfg) X X' X'' n d l s a b,
  has_shape X n d l -> has_shape X' n d l -> has_shape X'' n d l -> (1 <= n)%nat -> (1 <= d)%nat -> (1 <= s)%nat ->
  inc_shift c = ShInt (Z.of_nat s) -> inc_zp c = true ->
  (forall i j t, (i < n)%nat -> (j < d)%nat -> (t < l)%nat ->
     entry X'' i j t = a * entry X i j t + b * entry X' i j t) ->
  exists Y Y' Y'', inc_transform c X = Ok Y /\ inc_transform c X' = Ok Y' /\ inc_transform c X'' = Ok Y'' /\
  forall i j t, (i < n)%nat -> (j < d)%nat -> (t < l)%nat ->
     entry Y'' i j t = a * entry Y i j t + b * entry Y' i j t.
Proof.
  intros c X X' X'' n d l s a b HX HX' HX'' Hn Hd Hs Hk Hzp E.
  destruct (C35_inc_zero_padded c X n d l s HX Hn Hd Hs (or_introl Hk) Hzp) as [Y [E1 [HY S1]]].
  destruct (C35_inc_zero_padded c X' n d l s HX' Hn Hd Hs (or_introl Hk) Hzp) as [Y' [E2 [HY' S2]]].
  destruct (C35_inc_zero_padded c X'' n d l s HX'' Hn Hd Hs (or_introl Hk) Hzp) as [Y'' [E3 [HY'' S3]]].
  exists Y, Y', Y''. repeat split; try assumption. intros i j t Hi Hj Ht.
  rewrite S1, S2, S3 by assumption. rewrite <- iterate_diff_linear.
  apply iterate_diff_ext. intros u Hu. apply E; lia.
Qed.
Print Assumptions C35_inc_linear.
Theorem C35_unpadded_is_invertible : forall (c : inc_cfg) X n d l s,
  has_shape X n d l -> (1 <= s)%nat -> inc_shift c = ShInt (Z.of_nat s) -> inc_zp c = false ->
  exists Y, inc_transform c X = Ok Y /\ has_shape Y n d l /\
  forall i j t, (i < n)%nat -> (j < d)%nat -> (t < l)%nat ->
    iterate (inc_depth c) (strided_sum s) (entry Y i j) t = entry X i j t.
Proof. exact inc_nopad_restores. Qed.
Print Assumptions C35_unpadded_is_invertible.
Theorem C35_errors : forall (c : inc_cfg) X n d l,
  has_shape X n d l -> (1 <= n)%nat -> (1 <= d)%nat -> (1 <= l)%nat -> (1 <= inc_depth c)%nat ->
  (inc_shift c = ShInt 0 -> inc_transform c X = Err ValueError) /\
  (forall f s, inc_shift c = ShFun f -> f l = Z.of_nat s -> (1 <= s)%nat -> inc_zp c = false ->
     inc_transform c X = Err TypeError) /\
  (forall sh depth zp, (depth < 1)%Z -> inc_new sh depth zp = Err ValueError).
Proof.
  intros c X n d l HX Hn Hd Hl Hm. split; [|split].
  - intros E. apply (inc_shift_zero c X n d l); auto. unfold inc_k. now rewrite E.
  - intros f s E1 E2 Hs Hzp. exact (inc_fun_nopad c X n d l f s HX Hn Hd Hm E1 E2 Hs Hzp).
  - intros sh depth zp H. unfold inc_new. replace (depth <? 1)%Z with true; [reflexivity|]. symmetry. now apply Z.ltb_lt.
Qed.
Print Assumptions C35_errors.
Example C35_ex : inc_transform {| inc_shift := ShInt 1; inc_depth := 2; inc_zp := true |} X3
  = Ok [[[0; 2; -3]; [0; 0; 0]]].
Proof. rcompute. Qed.
Example C35_ex2 : inc_transform {| inc_shift := ShInt 1; inc_depth := 2; inc_zp := false |} X3
  = Ok [[[1; 1; -3]; [5; -5; 0]]].
Proof. rcompute. Qed.

(** * C36 *)
Theorem C36_std_separately : forall (c : std_cfg) s X n d l,
  has_shape X n d l -> (1 <= l)%nat -> std_separately c = true -> 0 < std_eps c ->
  exists Y, std_transform c s X = Ok Y /\ has_shape Y n d l /\
  forall i j, (i < n)%nat -> (j < d)%nat ->
    let sigma := sqrt (var_of (entry X i j) l) in
    mean_of (entry Y i j) l = 0 /\
    (std_var c = true -> var_of (entry Y i j) l = Rsqr (sigma / (sigma + std_eps c)) /\ var_of (entry Y i j) l < 1) /\
    (std_var c = false -> var_of (entry Y i j) l = Rsqr (sigma / (1 + std_eps c))) /\
    ((forall t, (t < l)%nat -> entry X i j t = entry X i j 0) -> forall t, (t < l)%nat -> entry Y i j t = 0).
Proof.
  intros c s X n d l HX Hl Hs He. destruct (std_separate_spec c s X n d l HX Hs) as [Y [E [HY HSp]]].
  exists Y. split; [exact E|]. split; [exact HY|]. intros i j Hi Hj sigma.
  assert (M : mean_of (entry Y i j) l = 0).
  { rewrite <- (mean_centered (entry X i j) l (std_div c (entry X i j) l) Hl). apply mean_ext. intros t Ht. now apply HSp. }
  assert (V : var_of (entry Y i j) l = var_of (entry X i j) l * (/ std_div c (entry X i j) l * / std_div c (entry X i j) l)).
  { rewrite <- var_centered by exact Hl. apply var_ext. intros t Ht. now apply HSp. }
  assert (Q : var_of (entry X i j) l = sigma * sigma) by (symmetry; apply sqrt_sqrt, var_nonneg).
  assert (P : 0 <= sigma) by apply sqrt_pos.
  split; [exact M|]. split; [|split].
  - intros Hv. rewrite V. unfold std_div. rewrite Hv. fold sigma. rewrite Q.
    assert (W : sigma * sigma * (/ (sigma + std_eps c) * / (sigma + std_eps c)) = Rsqr (sigma / (sigma + std_eps c))).
    { unfold Rsqr, Rdiv. ring. }
    split; [exact W|]. rewrite W.
    assert (0 <= sigma / (sigma + std_eps c) < 1).
    { split.
      - apply Rmult_le_pos; [exact P|]. left. apply Rinv_0_lt_compat. lra.
      - apply (Rmult_lt_reg_r (sigma + std_eps c)); [lra|]. unfold Rdiv. rewrite Rmult_assoc, Rinv_l; lra. }
    unfold Rsqr. nra.
  - intros Hv. rewrite V. unfold std_div. rewrite Hv, Q. unfold Rsqr, Rdiv. ring.
  - intros Hc t Ht. rewrite HSp by assumption. rewrite (mean_ext _ (fun _ => entry X i j 0) l Hc).
    unfold mean_of. rewrite Rsum_upto_const. rewrite (Hc t Ht). unfold Rdiv.
    replace (entry X i j 0 - INR l * entry X i j 0 * / INR l) with 0; [ring|]. field. apply not_0_INR. lia.
Qed.
Print Assumptions C36_std_separately.
Theorem C36_std_translation_invariant : forall (c : std_cfg) s X X' n d l (k : nat -> nat -> R),
  has_shape X n d l -> has_shape X' n d l -> (1 <= l)%nat -> std_separately c = true ->
  (forall i j t, (i < n)%nat -> (j < d)%nat -> (t < l)%nat -> entry X' i j t = entry X i j t + k i j) ->
  std_transform c s X' = std_transform c s X.
Proof.
  intros c s X X' n d l k HX HX' Hl Hs E.
  destruct (std_separate_spec c s X n d l HX Hs) as [Y [E1 [HY S1]]].
  destruct (std_separate_spec c s X' n d l HX' Hs) as [Y' [E2 [HY' S2]]].
  rewrite E1, E2. f_equal. apply (dataset_ext Y' Y n d l HY' HY). intros i j t Hi Hj Ht.
  rewrite S1, S2 by assumption. rewrite E by assumption. unfold std_div.
  rewrite (mean_ext (entry X' i j) (fun t => entry X i j t + k i j) l) by (intros; now apply E).
  rewrite (var_ext (entry X' i j) (fun t => entry X i j t + k i j) l) by (intros; now apply E).
  rewrite mean_shift, var_shift by exact Hl. f_equal. ring.
Qed.
Print Assumptions C36_std_translation_invariant.
(** STD(separately=False): mean and standard deviation over all entries of
    the fitted data [F]. *)
Theorem C36_std_jointly : forall (c : std_cfg) X n d l F n' d' l' s0,
  has_shape X n d l -> has_shape F n' d' l' -> std_separately c = false ->
  let N := INR (n' * d' * l') in
  let sum := fun g => Rsum_upto (fun i => Rsum_upto (fun j => Rsum_upto (fun t => g (entry F i j t)) l') d') n' in
  let mu := sum (fun v => v) / N in
  let sd := sqrt (sum (fun v => (v - mu) * (v - mu)) / N) in
  exists Y, std_transform c (std_fit c F s0) X = Ok Y /\ has_shape Y n d l /\
  forall i j t, (i < n)%nat -> (j < d)%nat -> (t < l)%nat ->
    entry Y i j t = (entry X i j t - mu) / ((if std_var c then sd else 1) + std_eps c).
Proof.
  intros c X n d l F n' d' l' s0 HX HF Hs N sum mu sd.
  destruct (std_joint_spec c X n d l F s0 HX Hs) as [Y [E [HY HSp]]].
  exists Y. split; [exact E|]. split; [exact HY|]. intros i j t Hi Hj Ht. rewrite HSp by assumption.
  destruct (concat2_entries F n' d' l' HF) as [C1 C2].
  assert (Emu : vmean (concat (concat F)) = mu).
  { unfold vmean. rewrite vsum_Rsum, nofnat_INR, C1, C2. reflexivity. }
  assert (Esd : vstd (concat (concat F)) = sd).
  { unfold vstd. rewrite Emu. cbn [nsqrt nmul nsub RNum].
    set (g := fun x : R => (x - mu) * (x - mu)).
    assert (HG : has_shape (map (map (map g)) F) n' d' l').
    { eapply has_shape_mapmap; [exact HF|]. intros r Hr. now rewrite map_length. }
    destruct (concat2_entries _ n' d' l' HG) as [G1 G2].
    assert (EG : map g (concat (concat F)) = concat (concat (map (map (map g)) F))).
    { rewrite concat_map. f_equal. rewrite concat_map. reflexivity. }
    rewrite EG. unfold vmean. rewrite vsum_Rsum, nofnat_INR, G1, G2. cbn [ndiv RNum].
    unfold sd. f_equal. f_equal. unfold sum. apply Rsum_upto_ext. intros a Ha. apply Rsum_upto_ext. intros b Hb.
    apply Rsum_upto_ext. intros u Hu. unfold entry at 1.
    rewrite (row_mapmap F n' d' l' (map g) a b HF Ha Hb).
    rewrite (nth_indep _ 0 (g 0)) by (rewrite map_length; erewrite row_length; eauto).
    rewrite map_nth. reflexivity. }
  rewrite Emu, Esd. reflexivity.
Qed.
Print Assumptions C36_std_jointly.
Theorem C36_std_unfitted : forall (c : std_cfg (T := R)) X,
  std_separately c = false -> std_transform c None X = Err RuntimeError.
Proof. intros c X H. unfold std_transform. now rewrite H. Qed.
Print Assumptions C36_std_unfitted.

(** * C37 *)
Theorem C37_nrm : forall X n d l, has_shape X n d l -> (1 <= l)%nat ->
  exists Y, nrm_transform false X = Ok Y /\ has_shape Y n d l /\
  forall i j, (i < n)%nat -> (j < d)%nat ->
    (forall t, (t < l)%nat -> 0 <= entry Y i j t <= 1) /\
    (forall s t, (s < l)%nat -> (t < l)%nat -> entry X i j s <= entry X i j t -> entry Y i j s <= entry Y i j t) /\
    ((exists s t, (s < l)%nat /\ (t < l)%nat /\ entry X i j s <> entry X i j t) ->
        (exists t, (t < l)%nat /\ entry Y i j t = 0) /\ (exists t, (t < l)%nat /\ entry Y i j t = 1)) /\
    ((forall s t, (s < l)%nat -> (t < l)%nat -> entry X i j s = entry X i j t) ->
        forall t, (t < l)%nat -> entry Y i j t = 0).
Proof.
  intros X n d l HX Hl. destruct (nrm_spec X n d l HX Hl) as [Y [E [HY HSp]]].
  exists Y. split; [exact E|]. split; [exact HY|]. intros i j Hi Hj.
  destruct (HSp i j Hi Hj) as [m [M [[[tm [Htm Em]] Bm] [[[tM [HtM EM]] BM] V]]]].
  assert (HmM : m <= M) by (pose proof (Bm tM HtM); lra).
  split; [|split; [|split]].
  - intros t Ht. rewrite V by exact Ht. apply rescale_range; auto.
  - intros s t Hs Ht H. rewrite !V by assumption. now apply rescale_mono.
  - intros [s [t [Hs [Ht N]]]].
    assert (m <> M).
    { intros Heq. apply N. pose proof (Bm s Hs). pose proof (Bm t Ht). pose proof (BM s Hs). pose proof (BM t Ht). lra. }
    split.
    + exists tm. split; [exact Htm|]. rewrite V by exact Htm. rewrite Em. apply rescale_min.
    + exists tM. split; [exact HtM|]. rewrite V by exact HtM. rewrite EM. now apply rescale_max.
  - intros C t Ht. rewrite V by exact Ht. rewrite (C t tm Ht Htm), Em. apply rescale_min.
Qed.
Print Assumptions C37_nrm.
Theorem C37_nrm_affine_invariant : forall X X' n d l (a b : nat -> nat -> R),
  has_shape X n d l -> has_shape X' n d l -> (1 <= l)%nat -> (forall i j, 0 < a i j) ->
  (forall i j t, (i < n)%nat -> (j < d)%nat -> (t < l)%nat -> entry X' i j t = a i j * entry X i j t + b i j) ->
  nrm_transform false X' = nrm_transform false X.
Proof.
  intros X X' n d l a b HX HX' Hl Ha E.
  destruct (nrm_spec X n d l HX Hl) as [Y [E1 [HY S1]]].
  destruct (nrm_spec X' n d l HX' Hl) as [Y' [E2 [HY' S2]]].
  rewrite E1, E2. f_equal. apply (dataset_ext Y' Y n d l HY' HY). intros i j t Hi Hj Ht.
  destruct (S1 i j Hi Hj) as [m [M [Hm [HM V1]]]]. destruct (S2 i j Hi Hj) as [m' [M' [Hm' [HM' V2]]]].
  rewrite V1, V2 by assumption.
  assert (m' = a i j * m + b i j).
  { apply (min_on_unique (entry X' i j) l); [exact Hm'|]. destruct Hm as [[u [Hu Eu]] B]. split.
    - exists u. split; [exact Hu|]. rewrite E by assumption. now rewrite Eu.
    - intros v Hv. rewrite E by assumption. pose proof (B v Hv). pose proof (Ha i j). nra. }
  assert (M' = a i j * M + b i j).
  { apply (max_on_unique (entry X' i j) l); [exact HM'|]. destruct HM as [[u [Hu Eu]] B]. split.
    - exists u. split; [exact Hu|]. rewrite E by assumption. now rewrite Eu.
    - intros v Hv. rewrite E by assumption. pose proof (B v Hv). pose proof (Ha i j). nra. }
  subst m' M'. rewrite E by assumption. apply rescale_affine. apply Ha.
Qed.
Print Assumptions C37_nrm_affine_invariant.
Theorem C37_nrm_idempotent : forall X Y n d l, has_shape X n d l -> (1 <= l)%nat ->
  nrm_transform false X = Ok Y -> nrm_transform false Y = Ok Y.
Proof.
  intros X Y n d l HX Hl E. destruct (nrm_spec X n d l HX Hl) as [Y0 [E1 [HY S1]]].
  rewrite E1 in E. injection E as ->.
  destruct (nrm_spec Y n d l HY Hl) as [Z [E2 [HZ S2]]]. rewrite E2. f_equal.
  apply (dataset_ext Z Y n d l HZ HY). intros i j t Hi Hj Ht.
  destruct (S1 i j Hi Hj) as [m [M [[[tm [Htm Em]] Bm] [[[tM [HtM EM]] BM] V1]]]].
  destruct (S2 i j Hi Hj) as [m' [M' [Hm' [HM' V2]]]]. rewrite V2 by exact Ht.
  assert (HmM : m <= M) by (pose proof (Bm tM HtM); lra).
  assert (Em' : m' = 0).
  { apply (min_on_unique (entry Y i j) l); [exact Hm'|]. split.
    - exists tm. split; [exact Htm|]. rewrite V1 by exact Htm. rewrite Em. apply rescale_min.
    - intros v Hv. rewrite V1 by exact Hv. apply rescale_range; auto. }
  destruct (Req_EM_T m M) as [Heq|N].
  - assert (EM' : M' = 0).
    { apply (max_on_unique (entry Y i j) l); [exact HM'|]. split.
      - exists tm. split; [exact Htm|]. rewrite V1 by exact Htm. rewrite Em. apply rescale_min.
      - intros v Hv. rewrite V1 by exact Hv. unfold rescale. destruct (Req_EM_T m M); [lra|contradiction]. }
    rewrite Em', EM'. unfold rescale at 1. destruct (Req_EM_T 0 0) as [_|K]; [|now contradiction K].
    rewrite V1 by exact Ht. unfold rescale. destruct (Req_EM_T m M); [reflexivity|contradiction].
  - assert (EM' : M' = 1).
    { apply (max_on_unique (entry Y i j) l); [exact HM'|]. split.
      - exists tM. split; [exact HtM|]. rewrite V1 by exact HtM. rewrite EM. now apply rescale_max.
      - intros v Hv. rewrite V1 by exact Hv. apply rescale_range; auto. }
    rewrite Em', EM'. apply rescale_01.
Qed.
Print Assumptions C37_nrm_idempotent.
Theorem C37_nrm_joint : forall X n d l, has_shape X n d l -> (1 <= l)%nat -> (1 <= d)%nat ->
  exists Y, nrm_transform true X = Ok Y /\ has_shape Y n d l /\
  forall i, (i < n)%nat ->
    (forall j t, (j < d)%nat -> (t < l)%nat -> 0 <= entry Y i j t <= 1) /\
    ((exists j s k t, (j < d)%nat /\ (s < l)%nat /\ (k < d)%nat /\ (t < l)%nat /\ entry X i j s <> entry X i k t) ->
      (exists j t, (j < d)%nat /\ (t < l)%nat /\ entry Y i j t = 0) /\
      (exists j t, (j < d)%nat /\ (t < l)%nat /\ entry Y i j t = 1) /\
      (exists range, 0 < range /\ forall j s k t, (j < d)%nat -> (s < l)%nat -> (k < d)%nat -> (t < l)%nat ->
          entry Y i j s - entry Y i k t = (entry X i j s - entry X i k t) / range)).
Proof.
  intros X n d l HX Hl Hd. destruct (nrm_joint_spec X n d l HX Hl Hd) as [Y [E [HY HSp]]].
  exists Y. split; [exact E|]. split; [exact HY|]. intros i Hi.
  destruct (HSp i Hi) as [m [M [[[jm [tm [Hjm [Htm Em]]]] Bm] [[[jM [tM [HjM [HtM EM]]]] BM] V]]]].
  assert (HmM : m <= M) by (pose proof (Bm jM tM HjM HtM); lra).
  split; [intros j t Hj Ht; rewrite V by assumption; apply rescale_range; auto|].
  intros [j [s [k [t [Hj [Hs [Hk [Ht N]]]]]]]].
  assert (NE : m <> M).
  { intros Heq. apply N. pose proof (Bm j s Hj Hs). pose proof (Bm k t Hk Ht). pose proof (BM j s Hj Hs). pose proof (BM k t Hk Ht). lra. }
  split; [|split].
  - exists jm, tm. repeat split; try assumption. rewrite V by assumption. rewrite Em. apply rescale_min.
  - exists jM, tM. repeat split; try assumption. rewrite V by assumption. rewrite EM. now apply rescale_max.
  - exists (M - m). split; [lra|]. intros j' s' k' t' Hj' Hs' Hk' Ht'. rewrite !V by assumption.
    unfold rescale. destruct (Req_EM_T m M); [contradiction|]. field. lra.
Qed.
Print Assumptions C37_nrm_joint.
Example C37_ex : nrm_transform false X3 = Ok [[[0; 1; 1/2]; [0; 0; 0]]].
Proof. rcompute. Qed.

(** * C38 *)
Theorem C38_mav : forall w X n d l (F : dataset R) s0,
  has_shape X n d l -> (1 <= w)%nat ->
  exists Y, mav_transform (WInt (Z.of_nat w)) (mav_fit (WInt (Z.of_nat w)) F s0) X = Ok Y /\ has_shape Y n d l /\
  forall i j t, (i < n)%nat -> (j < d)%nat -> (t < l)%nat ->
    entry Y i j t = if (w <=? S t)%nat then Rsum_range (entry X i j) (S t - w) (S t) / INR w else 0.
Proof.
  intros w X n d l F s0 HX Hw. unfold mav_transform, mav_fit.
  replace (0 <? Z.of_nat w)%Z with true by (symmetry; apply Z.ltb_lt; lia).
  destruct (Z.of_nat w) eqn:Ew; try lia. rewrite <- Ew, Nat2Z.id.
  eexists. split; [reflexivity|].
  apply (rowwise X n d l l (mav_row w) (moving_avg w) HX). intros f. apply mav_row_tab.
Qed.
Print Assumptions C38_mav.
(** A float width in (0,1): [f] maps the length to int(width * length). *)
Theorem C38_mav_float : forall f X n d l (F : dataset R) nF dF lF s0,
  has_shape X n d l -> has_shape F nF dF lF -> (1 <= nF)%nat -> (1 <= dF)%nat ->
  let w := Z.to_nat (Z.max 1 (f lF)) in
  exists Y, mav_transform (WFloat f) (mav_fit (WFloat f) F s0) X = Ok Y /\ has_shape Y n d l /\
  forall i j t, (i < n)%nat -> (j < d)%nat -> (t < l)%nat -> entry Y i j t = moving_avg w (entry X i j) t.
Proof.
  intros f X n d l F nF dF lF s0 HX HF Hn Hd w. unfold mav_transform, mav_fit.
  rewrite (lenX_shape F nF dF lF HF Hn Hd).
  replace (if (f lF <=? 0)%Z then 1%Z else f lF) with (Z.max 1 (f lF)).
  2:{ destruct (Z.leb_spec (f lF) 0); lia. }
  eexists. split; [reflexivity|].
  apply (rowwise X n d l l (mav_row w) (moving_avg w) HX). intros g. apply mav_row_tab.
Qed.
Print Assumptions C38_mav_float.
Lemma Rsum_upto_bounds f n lo hi : (forall t, (t < n)%nat -> lo <= f t <= hi) ->
  INR n * lo <= Rsum_upto f n <= INR n * hi.
Proof.
  induction n as [|n IH]; intros B; [cbn; lra|]. cbn [Rsum_upto]. rewrite S_INR.
  pose proof (IH ltac:(intros; apply B; lia)). pose proof (B n ltac:(lia)). lra.
Qed.
Theorem C38_moving_average_bounds : forall w f t lo hi, (1 <= w)%nat -> (w <= S t)%nat ->
  (forall u, (S t - w <= u <= t)%nat -> lo <= f u <= hi) -> lo <= moving_avg w f t <= hi.
Proof.
  intros w f t lo hi Hw Ht B. unfold moving_avg. replace (w <=? S t)%nat with true by (symmetry; now apply Nat.leb_le).
  unfold Rsum_range. replace (S t - (S t - w))%nat with w by lia.
  assert (P : 0 < INR w) by (apply lt_0_INR; lia).
  destruct (Rsum_upto_bounds (fun i => f (S t - w + i)%nat) w lo hi) as [B1 B2]; [intros u Hu; apply B; lia|].
  split; apply (Rmult_le_reg_r (INR w)); try exact P; unfold Rdiv; rewrite ?Rmult_assoc, ?Rinv_l by lra; lra.
Qed.
Print Assumptions C38_moving_average_bounds.
Theorem C38_width_one_identity : forall X n d l (F : dataset R) s0, has_shape X n d l ->
  mav_transform (WInt 1) (mav_fit (WInt 1) F s0) X = Ok X.
Proof.
  intros X n d l F s0 HX. destruct (C38_mav 1 X n d l F s0 HX) as [Y [E [HY HSp]]]; [lia|].
  change (Z.of_nat 1) with 1%Z in E. rewrite E. f_equal. apply (dataset_ext Y X n d l HY HX).
  intros i j t Hi Hj Ht. rewrite HSp by assumption. cbn [Nat.leb Nat.sub]. unfold Rsum_range.
  rewrite Nat.sub_0_r. replace (S t - t)%nat with 1%nat by lia. cbn [Rsum_upto]. rewrite Nat.add_0_r. cbn. field.
Qed.
Print Assumptions C38_width_one_identity.
(** Whatever sequence of data sets MAV(-1) is fitted to, transform raises. *)
Theorem C38_width_minus_one_never_works : forall (fits : list (dataset R)) X,
  mav_transform (WInt (-1)) (fold_left (fun s F => mav_fit (WInt (-1)) F s) fits None) X = Err RuntimeError.
Proof.
  intros fits X. assert (E : fold_left (fun s F => mav_fit (WInt (-1)) F s) fits (None : mav_state) = None).
  { induction fits as [|F fits IH]; [reflexivity|]. cbn [fold_left]. exact IH. }
  rewrite E. reflexivity.
Qed.
Print Assumptions C38_width_minus_one_never_works.
Example C38_ex : mav_transform (WInt 2) (mav_fit (WInt 2) X3 None) X3 = Ok [[[0; 2; 5/2]; [0; 5; 5]]].
Proof. rcompute. Qed.

(** * C39 *)
Theorem C39_lag : forall X n d l, has_shape X n d l -> (1 <= n)%nat -> (1 <= d)%nat -> (1 <= l)%nat ->
  exists Y, lag_transform X = Ok Y /\ has_shape Y n (2 * d) (2 * l - 1) /\
  forall i j t, (i < n)%nat -> (j < d)%nat ->
    ((t < l)%nat -> entry Y i (2 * j) (2 * t) = entry X i j t /\ entry Y i (2 * j + 1) (2 * t) = entry X i j t) /\
    ((t + 1 < l)%nat -> entry Y i (2 * j) (2 * t + 1) = entry X i j (t + 1) /\
                        entry Y i (2 * j + 1) (2 * t + 1) = entry X i j t).
Proof.
  intros X n d l HX Hn Hd Hl. destruct (lag_spec X n d l HX Hn Hd Hl) as [Y [E [HY HSp]]].
  exists Y. split; [exact E|]. split; [exact HY|]. intros i j t Hi Hj.
  assert (D1 : forall k, ((2 * k) / 2 = k)%nat) by (intros; rewrite Nat.mul_comm; apply Nat.div_mul; lia).
  assert (D2 : forall k, ((2 * k + 1) / 2 = k)%nat) by (intros; rewrite Nat.mul_comm, Nat.div_add_l by lia; cbn; lia).
  split; intros Ht.
  - destruct (HSp i j (2 * t)%nat Hi Hj ltac:(lia)) as [S1 S2]. rewrite S1, S2. unfold lag_lead, lag_lag.
    now rewrite D1, D2.
  - destruct (HSp i j (2 * t + 1)%nat Hi Hj ltac:(lia)) as [S1 S2]. rewrite S1, S2. unfold lag_lead, lag_lag.
    rewrite D2. replace (2 * t + 1 + 1)%nat with (2 * (t + 1))%nat by lia. now rewrite D1.
Qed.
Print Assumptions C39_lag.
Example C39_ex : lag_transform [[[1; 3; 2]]] = Ok [[[1; 3; 3; 2; 2]; [1; 1; 3; 3; 2]]].
Proof. rcompute. Qed.

(** * C40: filters *)
(** DIL, for every outcome of the random choices: [ch] the drawn start
    positions (distinct, in range), [dr] the drawn lengths. *)
Theorem C40_dil : forall clusters ncl ch dr (F : dataset R) nF dF l X n d,
  has_shape F nF dF l -> (1 <= nF)%nat -> (1 <= dF)%nat -> has_shape X n d l ->
  let k := dil_nclusters clusters ncl l in
  (0 <= k <= Z.of_nat l)%Z -> NoDup ch -> Forall (fun a => (a < l)%nat) ch -> length ch = Z.to_nat k ->
  exists s Y strips, dil_fit clusters ncl ch dr F = Ok s /\ dil_transform (Some s) X = Ok Y /\ has_shape Y n d l /\
    length strips = Z.to_nat k /\ disjoint_strips 0 strips l /\
    forall i j t, (i < n)%nat -> (j < d)%nat -> (t < l)%nat ->
      entry Y i j t = if existsb (fun p => in_strip p t) strips then 0 else entry X i j t.
Proof.
  intros clusters ncl ch dr F nF dF l X n d HF HnF HdF HX k Hk Nch Fch Lch.
  destruct (dil_fit_spec clusters ncl ch dr F nF dF l HF HnF HdF Hk Nch Fch Lch) as [s [E [L D]]].
  destruct (dil_transform_spec s X n d l HX) as [Y [E2 [HY HSp]]].
  exists s, Y, (dil_strips s). repeat (split; [assumption|]). exact HSp.
Qed.
Print Assumptions C40_dil.
(** The default number of clusters is always admissible. *)
Theorem C40_dil_default_clusters : forall ncl l, (1 <= l)%nat -> (1 <= ncl)%nat -> (ncl < Nat.max 2 (l / 10))%nat ->
  (0 <= dil_nclusters None ncl l <= Z.of_nat l)%Z.
Proof.
  intros ncl l Hl H1 H2. unfold dil_nclusters. destruct (Nat.leb_spec (l / 10) 1); [lia|].
  pose proof (Nat.div_mod l 10). lia.
Qed.
Print Assumptions C40_dil_default_clusters.
Theorem C40_dil_errors : forall clusters ncl ch dr (F : dataset R) nF dF l,
  has_shape F nF dF l -> (1 <= nF)%nat -> (1 <= dF)%nat ->
  let k := dil_nclusters clusters ncl l in
  ((k < 0)%Z -> dil_fit clusters ncl ch dr F = Err ValueError) /\
  ((Z.of_nat l < k)%Z -> dil_fit clusters ncl ch dr F = Err IndexError) /\
  (forall X : dataset R, dil_transform None X = Err RuntimeError).
Proof.
  intros clusters ncl ch dr F nF dF l HF Hn Hd k. unfold dil_fit. rewrite (lenX_shape F nF dF l HF Hn Hd). fold k.
  split; [|split; [|reflexivity]].
  - intros H. replace (k <? 0)%Z with true by (symmetry; now apply Z.ltb_lt). reflexivity.
  - intros H. replace (k <? 0)%Z with false by (symmetry; apply Z.ltb_ge; lia).
    replace (Z.of_nat l <? k)%Z with true by (symmetry; now apply Z.ltb_lt). reflexivity.
Qed.
Print Assumptions C40_dil_errors.
(** DOT keeps exactly first, first+n, ... *)
Theorem C40_dot : forall n first (F : dataset R) nF dF l X k d,
  has_shape F nF dF l -> (1 <= nF)%nat -> (1 <= dF)%nat -> (1 <= l)%nat -> has_shape X k d l ->
  (match n with DInt z => (1 <= z)%Z | DFloat f => (f l <= Z.of_nat l)%Z end) ->
  (match first with Some (DInt z) => (0 <= z)%Z | _ => True end) ->
  exists a b Y, dot_fit n first F = (Z.of_nat a, Z.of_nat b) /\ (1 <= a)%nat /\ (b < l)%nat /\
    (forall z, n = DInt z -> a = Nat.min (Z.to_nat z) l) /\
    (forall z, first = Some (DInt z) -> b = Nat.min (Z.to_nat z) (l - 1)) /\
    (first = None -> b = (a - 1)%nat) /\
    dot_transform (Some (dot_fit n first F)) X = Ok Y /\ has_shape Y k d l /\
    forall i j t, (i < k)%nat -> (j < d)%nat -> (t < l)%nat ->
      ((exists q, t = (b + q * a)%nat) -> entry Y i j t = entry X i j t) /\
      (~ (exists q, t = (b + q * a)%nat) -> entry Y i j t = 0).
Proof.
  intros n first F nF dF l X k d HF HnF HdF Hl HX Hn Hf.
  destruct (dot_fit_spec n first F nF dF l HF HnF HdF Hl Hn Hf) as [a [b [E [Ha Hb]]]].
  destruct (dot_spec a b X k d l HX Ha) as [Y [E2 [HY HSp]]].
  exists a, b, Y. split; [exact E|]. split; [exact Ha|]. split; [exact Hb|].
  unfold dot_fit in E. rewrite (lenX_shape F nF dF l HF HnF HdF) in E. injection E as Ea Eb.
  split; [|split; [|split]].
  - intros z ->. cbn [dot_n] in Ea. destruct (Z.leb_spec (Z.of_nat l) z); lia.
  - intros z ->. cbn [dot_first] in Eb. destruct (Z.leb_spec (Z.of_nat l) z); lia.
  - intros ->. cbn [dot_first] in Eb. rewrite Ea in Eb. lia.
  - assert (E : dot_fit n first F = (Z.of_nat a, Z.of_nat b)).
    { unfold dot_fit. rewrite (lenX_shape F nF dF l HF HnF HdF). cbv zeta. now rewrite Eb, Ea. }
    rewrite E. split; [exact E2|]. split; [exact HY|]. intros i j t Hi Hj Ht. rewrite HSp by assumption. split.
    + intros [q ->]. replace (b <=? b + q * a)%nat with true by (symmetry; apply Nat.leb_le; lia).
      replace (b + q * a - b)%nat with (q * a)%nat by lia. rewrite Nat.mod_mul by lia. reflexivity.
    + intros N. destruct (Nat.leb_spec b t); cbn [andb]; [|reflexivity].
      destruct (Nat.eqb_spec ((t - b) mod a) 0); [|reflexivity]. exfalso. apply N. exists ((t - b) / a)%nat.
      pose proof (Nat.div_mod (t - b) a ltac:(lia)). lia.
Qed.
Print Assumptions C40_dot.
(** PDD: only keeps or zeroes. *)
Theorem C40_pdd : forall dn dd pn pd (F : dataset R) X n d l, has_shape X n d l ->
  exists Y, pdd_transform (Some (pdd_fit dn dd pn pd F)) X = Ok Y /\ has_shape Y n d l /\
  forall i j t, (i < n)%nat -> (j < d)%nat -> (t < l)%nat ->
    entry Y i j t = entry X i j t \/ entry Y i j t = 0.
Proof.
  intros dn dd pn pd F X n d l HX. destruct (pdd_spec (pdd_fit dn dd pn pd F) X n d l HX) as [Y [E [HY HSp]]].
  exists Y. split; [exact E|]. split; [exact HY|]. intros i j t Hi Hj Ht. rewrite HSp by assumption.
  destruct (existsb _ _); auto.
Qed.
Print Assumptions C40_pdd.
(** WIN: the window between the coquantiles of the quadratic variation of
    dimension 0 of the cached input [C]. *)
Theorem C40_win : forall start stop C dC X n d l,
  has_shape C n dC l -> (1 <= dC)%nat -> has_shape X n d l -> (1 <= l)%nat -> 0 <= start ->
  exists Y, win_transform start stop C X = Ok Y /\ has_shape Y n d l /\
  forall i, (i < n)%nat ->
    let v := variation (fun u => u * u) (entry C i 0) in
    exists a b, (1 <= a)%nat /\ (a <= l)%nat /\ (b <= l)%nat /\
      (forall t, (t < l)%nat -> ((t < a)%nat <-> v t <= start * v (l - 1)%nat)) /\
      (forall t, (t < l)%nat -> ((t < b)%nat <-> v t <= stop * v (l - 1)%nat)) /\
      forall j t, (j < d)%nat -> (t < l)%nat ->
        ((a - 1 <= t < b)%nat -> entry Y i j t = entry X i j t) /\
        (~ (a - 1 <= t < b)%nat -> entry Y i j t = 0).
Proof.
  intros start stop C dC X n d l HC HdC HX Hl Hst. unfold win_transform.
  destruct (L2_sum_spec C n dC l HC HdC) as [L HSp].
  set (v := fun i => variation (fun u => u * u) (entry C i 0)) in *.
  assert (M : forall i, nondecreasing_on (v i) l) by (intros i; apply variation_mono; intros u; apply Rle_0_sqr).
  assert (Cq : forall q i, (i < n)%nat -> exists c, nth i (coquantile q (L2_sum C)) 0%nat = c /\ (c <= l)%nat /\
      forall t, (t < l)%nat -> ((t < c)%nat <-> v i t <= q * v i (l - 1)%nat)).
  { intros q i Hi. unfold coquantile.
    rewrite (nth_indep _ 0%nat (coquantile1 q [])) by (rewrite map_length; lia).
    rewrite map_nth, HSp by exact Hi. exact (coquantile1_spec q l (v i) Hl (M i)). }
  assert (Ps : forall i, (i < n)%nat -> (1 <= nth i (coquantile start (L2_sum C)) 0)%nat).
  { intros i Hi. destruct (Cq start i Hi) as [c [-> [Hc E]]]. destruct c as [|c]; [|lia]. exfalso.
    assert (0 < 0)%nat; [|lia]. apply E; [lia|]. unfold v. rewrite variation_0.
    apply Rmult_le_pos; [exact Hst|]. unfold variation. apply Rsum_upto_nonneg. intros u _. apply Rle_0_sqr. }
  destruct (win_apply_spec (coquantile start (L2_sum C)) (coquantile stop (L2_sum C)) X n d l HX) as [Y [E [HY V]]].
  - unfold coquantile. rewrite map_length. exact L.
  - unfold coquantile. rewrite map_length. exact L.
  - apply Forall_forall. intros c Hc. apply (In_nth _ _ 0%nat) in Hc as [i [Hi <-]]. apply Ps.
    unfold coquantile in Hi. rewrite map_length, L in Hi. exact Hi.
  - exists Y. split; [exact E|]. split; [exact HY|]. intros i Hi. cbv zeta.
    destruct (Cq start i Hi) as [a [Ea [Ha Sa]]]. destruct (Cq stop i Hi) as [b [Eb [Hb Sb]]].
    exists a, b. pose proof (Ps i Hi) as P1. rewrite Ea in P1.
    split; [exact P1|]. split; [exact Ha|]. split; [exact Hb|]. split; [exact Sa|]. split; [exact Sb|].
    intros j t Hj Ht. rewrite V by assumption. rewrite Ea, Eb.
    destruct (Nat.leb_spec a (S t)), (Nat.ltb_spec t b); cbn [andb]; split; intros; try reflexivity; try lia; tauto.
Qed.
Print Assumptions C40_win.
Example C40_win_ex : win_transform (1/2) 1 X3 X3 = Ok [[[1; 3; 2]; [5; 5; 5]]]
  /\ win_transform (9/10) 1 X3 X3 = Ok [[[0; 3; 2]; [0; 5; 5]]].
Proof. split; rcompute. Qed.
Example C40_dot_ex : dot_transform (Some (dot_fit (DInt 2) None X3)) X3 = Ok [[[0; 3; 0]; [0; 5; 0]]].
Proof. rcompute. Qed.
Example C40_dil_ex : exists s, dil_fit (Some (fun _ => 2%Z)) 0 [2; 0]%nat (fun _ => 1%nat) X3 = Ok s /\
   dil_transform (Some s) X3 = Ok [[[0; 0; 0]; [0; 0; 0]]] /\ dil_strips s = [(0, 2); (2, 1)]%nat.
Proof. eexists. split; [reflexivity|]. split; [rcompute|reflexivity]. Qed.

(** * C41 *)
Theorem C41_pdd_default_is_identity : forall (F : dataset R) nF dF l X n d,
  has_shape F nF dF l -> (1 <= nF)%nat -> (1 <= dF)%nat -> (2 <= l)%nat -> has_shape X n d l ->
  pdd_transform (Some (pdd_fit 1 10 1 2 F)) X = Ok X.
Proof.
  intros F nF dF l X n d HF HnF HdF Hl HX.
  destruct (pdd_spec (pdd_fit 1 10 1 2 F) X n d l HX) as [Y [E [HY HSp]]]. rewrite E. f_equal.
  apply (dataset_ext Y X n d l HY HX). intros i j t Hi Hj Ht. rewrite HSp by assumption.
  now rewrite (pdd_default_no_strip F nF dF l t HF HnF HdF Hl).
Qed.
Print Assumptions C41_pdd_default_is_identity.
(** It is not the identity for other parameters (density 1/2... proportion 9/10). *)
Example C41_ex : pdd_transform (Some (pdd_fit 9 10 1 2 X3)) X3 = Ok [[[0; 3; 2]; [0; 5; 5]]].
Proof. rcompute. Qed.

(** * C42 *)
Theorem C42_cts : forall c X n d l s,
  has_shape X n d l -> (1 <= n)%nat -> (1 <= d)%nat -> (1 <= l)%nat -> (1 <= s)%nat ->
  c = CInt (Z.of_nat s) \/ (exists f, c = CFrac f /\ Z.max 1 (f l) = Z.of_nat s) ->
  exists Y, cts_transform c false X = Ok Y /\ has_shape Y n d l /\
  forall i j t, (i < n)%nat -> (j < d)%nat -> (t < l)%nat ->
    entry Y i j t = if (t + s <? l)%nat then entry X i j (t + s) else entry X i j (l - 1).
Proof.
  intros c X n d l s HX Hn Hd Hl Hs Hc. apply cts_spec; auto. unfold cts_k.
  destruct Hc as [->|[f [-> Hf]]]; auto.
Qed.
Print Assumptions C42_cts.
Theorem C42_cts_pseudo : forall X n d l s,
  has_shape X n d l -> (1 <= n)%nat -> (1 <= d)%nat ->
  exists Y, cts_transform (CInt (Z.of_nat s)) true X = Ok Y /\ has_shape Y n d l /\
  forall i j t, (i < n)%nat -> (j < d)%nat -> (t < l)%nat ->
    entry Y i j t = if (t <? s)%nat then 0 else entry X i j t.
Proof. intros X n d l s HX Hn Hd. now apply cts_pseudo_spec. Qed.
Print Assumptions C42_cts_pseudo.
Theorem C42_shifts_add : forall X n d l s s',
  has_shape X n d l -> (1 <= n)%nat -> (1 <= d)%nat -> (1 <= l)%nat -> (1 <= s)%nat -> (1 <= s')%nat ->
  (let! Y := cts_transform (CInt (Z.of_nat s)) false X in cts_transform (CInt (Z.of_nat s')) false Y)
  = cts_transform (CInt (Z.of_nat (s' + s))) false X.
Proof.
  intros X n d l s s' HX Hn Hd Hl Hs Hs'.
  destruct (C42_cts (CInt (Z.of_nat s)) X n d l s HX Hn Hd Hl Hs (or_introl eq_refl)) as [Y [E1 [HY S1]]].
  destruct (C42_cts (CInt (Z.of_nat s')) Y n d l s' HY Hn Hd Hl Hs' (or_introl eq_refl)) as [Z [E2 [HZ S2]]].
  destruct (C42_cts (CInt (Z.of_nat (s' + s))) X n d l (s' + s) HX Hn Hd Hl ltac:(lia) (or_introl eq_refl)) as [W [E3 [HW S3]]].
  rewrite E1. cbn [bind]. rewrite E2, E3. f_equal. apply (dataset_ext Z W n d l HZ HW). intros i j t Hi Hj Ht.
  rewrite S3, S2 by assumption.
  change (if (t + (s' + s) <? l)%nat then entry X i j (t + (s' + s)) else entry X i j (l - 1)) with (shifted (s' + s) l (entry X i j) t).
  rewrite <- shifted_shifted by exact Ht. unfold shifted at 1.
  destruct (Nat.ltb_spec (t + s') l); apply S1; lia.
Qed.
Print Assumptions C42_shifts_add.
Theorem C42_zero_shift_raises : forall X n d l,
  has_shape X n d l -> (1 <= n)%nat -> (1 <= d)%nat -> (2 <= l)%nat ->
  cts_transform (CInt 0) false X = Err ValueError.
Proof. intros. now apply (cts_zero (CInt 0) X n d l). Qed.
Print Assumptions C42_zero_shift_raises.
Example C42_ex : cts_transform (CInt 1) false X3 = Ok [[[3; 2; 2]; [5; 5; 5]]].
Proof. rcompute. Qed.

(** * C43 *)
Theorem C43_qtc : forall lower q X n d l, has_shape X n d l ->
  exists Y, qtc_transform lower None (Some q) X = Ok Y /\ has_shape Y n d l /\
  (forall i j t, (i < n)%nat -> (j < d)%nat -> (t < l)%nat ->
     entry Y i j t = if lower then Rmax q (entry X i j t) else Rmin q (entry X i j t)) /\
  qtc_transform lower None (Some q) Y = Ok Y.
Proof.
  intros lower q X n d l HX. destruct (qtc_spec lower None q X n d l HX) as [Y [E [HY HSp]]].
  assert (V : forall i j t, (i < n)%nat -> (j < d)%nat -> (t < l)%nat ->
     entry Y i j t = if lower then Rmax q (entry X i j t) else Rmin q (entry X i j t)).
  { intros i j t Hi Hj Ht. rewrite HSp by assumption. unfold Rmax, Rmin.
    destruct lower, (Rle_dec q (entry X i j t)); destruct (Rlt_dec (entry X i j t) q), (Rlt_dec q (entry X i j t)); lra. }
  exists Y. split; [exact E|]. split; [exact HY|]. split; [exact V|].
  destruct (qtc_spec lower None q Y n d l HY) as [Z [E2 [HZ S2]]]. rewrite E2. f_equal.
  apply (dataset_ext Z Y n d l HZ HY). intros i j t Hi Hj Ht. rewrite S2 by assumption.
  pose proof (V i j t Hi Hj Ht) as W. destruct lower.
  - destruct (Rlt_dec (entry Y i j t) q); [|reflexivity]. pose proof (Rmax_l q (entry X i j t)). lra.
  - destruct (Rlt_dec q (entry Y i j t)); [|reflexivity]. pose proof (Rmin_l q (entry X i j t)). lra.
Qed.
Print Assumptions C43_qtc.
Theorem C43_qtc_monotone : forall lower q X X' Y Y' n d l, has_shape X n d l -> has_shape X' n d l ->
  (forall i j t, (i < n)%nat -> (j < d)%nat -> (t < l)%nat -> entry X i j t <= entry X' i j t) ->
  qtc_transform lower None (Some q) X = Ok Y -> qtc_transform lower None (Some q) X' = Ok Y' ->
  forall i j t, (i < n)%nat -> (j < d)%nat -> (t < l)%nat -> entry Y i j t <= entry Y' i j t.
Proof.
  intros lower q X X' Y Y' n d l HX HX' H E E' i j t Hi Hj Ht.
  destruct (C43_qtc lower q X n d l HX) as [Y0 [E0 [_ [S0 _]]]]. rewrite E in E0. injection E0 as <-.
  destruct (C43_qtc lower q X' n d l HX') as [Y1 [E1 [_ [S1 _]]]]. rewrite E' in E1. injection E1 as <-.
  rewrite S0, S1 by assumption. pose proof (H i j t Hi Hj Ht). destruct lower.
  - now apply Rle_max_compat_l.
  - now apply Rle_min_compat_l.
Qed.
Print Assumptions C43_qtc_monotone.
Theorem C43_qtc_bound : forall lower b q X n d l, has_shape X n d l ->
  exists Y, qtc_transform lower (Some b) (Some q) X = Ok Y /\ has_shape Y n d l /\
  forall i j t, (i < n)%nat -> (j < d)%nat -> (t < l)%nat ->
    ((if lower then entry X i j t < q else q < entry X i j t) -> entry Y i j t = b) /\
    (~ (if lower then entry X i j t < q else q < entry X i j t) -> entry Y i j t = entry X i j t).
Proof.
  intros lower b q X n d l HX. destruct (qtc_spec lower (Some b) q X n d l HX) as [Y [E [HY HSp]]].
  exists Y. split; [exact E|]. split; [exact HY|]. intros i j t Hi Hj Ht. rewrite HSp by assumption.
  destruct lower.
  - destruct (Rlt_dec (entry X i j t) q); split; intros; try reflexivity; contradiction.
  - destruct (Rlt_dec q (entry X i j t)); split; intros; try reflexivity; contradiction.
Qed.
Print Assumptions C43_qtc_bound.
Example C43_ex : qtc_transform false None (Some 2) X3 = Ok [[[1; 2; 2]; [2; 2; 2]]].
Proof. rcompute. Qed.

(** * C44 *)
Theorem C44_new : forall p X Y n d l d',
  has_shape X n d l -> (1 <= n)%nat -> (1 <= d)%nat -> p X = Ok Y -> has_shape Y n d' l -> (1 <= d')%nat ->
  exists Z, new_transform (Some p) X = Ok Z /\ length Z = n /\
  forall i, (i < n)%nat -> nth i Z [] = nth i X [] ++ nth i Y [].
Proof.
  intros p X Y n d l d' HX Hn Hd Hp HY Hd'. rewrite (new_spec p X Y n d l d') by assumption.
  eexists. split; [reflexivity|]. destruct HX as [LX _]. destruct HY as [LY _].
  split; [rewrite map2_length; lia|]. intros i Hi. now apply map2_nth; lia.
Qed.
Print Assumptions C44_new.
Theorem C44_new_default_duplicates : forall X : dataset R,
  new_transform None X = Ok (map (fun x => x ++ x) X).
Proof. exact new_none_spec. Qed.
Print Assumptions C44_new_default_duplicates.
(** NEW around a preparateur that changes the length (such as LAG) raises. *)
Theorem C44_new_length_mismatch : forall p X Y n d l d' l',
  has_shape X n d l -> (1 <= n)%nat -> (1 <= d)%nat -> p X = Ok Y -> has_shape Y n d' l' -> (1 <= d')%nat ->
  (l' <> l)%nat -> (l' <> 1)%nat -> new_transform (Some p) X = Err ValueError.
Proof. intros. eapply new_mismatch; eauto. Qed.
Print Assumptions C44_new_length_mismatch.
Theorem C44_dim : forall (dims : list nat) p X Y n d l d',
  has_shape X n d l -> (1 <= n)%nat -> (1 <= d)%nat -> Forall (fun k => (k < d)%nat) dims ->
  p (map (fun x => map (fun k => nth k x []) dims) X) = Ok Y -> has_shape Y n d' l -> (1 <= d')%nat ->
  exists Z, dim_transform (map Z.of_nat dims) p X = Ok Z /\ length Z = n /\
  forall i, (i < n)%nat ->
    nth i Z [] = map (row X i) (filter (fun k => negb (existsb (Nat.eqb k) dims)) (seq 0 d)) ++ nth i Y [].
Proof. exact dim_spec. Qed.
Print Assumptions C44_dim.
Theorem C44_dim_out_of_range : forall dim p (X : dataset R) n d l z,
  has_shape X n d l -> (1 <= n)%nat -> In z dim -> (z >= Z.of_nat d \/ z < - Z.of_nat d)%Z ->
  dim_transform dim p X = Err IndexError.
Proof.
  intros dim p X n d l z HX Hn Hin Hz. unfold dim_transform. rewrite (dimX_shape X n d l HX Hn).
  assert (E : mapM (py_index d) dim = Err IndexError); [|now rewrite E].
  induction dim as [|y dim IH]; [contradiction|]. cbn [mapM].
  assert (Hy : py_index d y = Err IndexError \/ exists k, py_index d y = Ok k).
  { unfold py_index. destruct (y <? 0)%Z, (0 <=? Z.of_nat d + y)%Z, (y <? Z.of_nat d)%Z; eauto. }
  destruct Hy as [-> | [k Ek]]; [reflexivity|]. destruct Hin as [->|Hin].
  - exfalso. unfold py_index in Ek. destruct (Z.ltb_spec z 0).
    + destruct (Z.leb_spec 0 (Z.of_nat d + z)); [lia|discriminate].
    + destruct (Z.ltb_spec z (Z.of_nat d)); [lia|discriminate].
  - rewrite Ek. cbn [bind]. rewrite (IH Hin). reflexivity.
Qed.
Print Assumptions C44_dim_out_of_range.
Example C44_ex : dim_transform [0%Z] (inc_transform {| inc_shift := ShInt 1; inc_depth := 1; inc_zp := true |}) X3
  = Ok [[[5; 5; 5]; [0; 2; -1]]].
Proof. rcompute. Qed.

(** * C45 *)
(** [group o] of an output dimension: the kernel entries start .. start+size-1. *)
Theorem C45_jld_projection : forall kernel bias ndim dims X n d l,
  has_shape X n d l -> (1 <= d)%nat -> length bias = length ndim ->
  exists Y, jld_transform (Some {| jld_kernel := kernel; jld_bias := bias; jld_ndim := ndim; jld_dims := dims |}) X = Ok Y /\
  has_shape Y n (length ndim) l /\
  forall i o t, (i < n)%nat -> (o < length ndim)%nat -> (t < l)%nat ->
    entry Y i o t =
      Rsum (map (fun j => entry X i (nth j dims 0%nat) t * nth j kernel 0)
                (seq (list_sum (firstn o ndim)) (nth o ndim 0%nat)))
      + INR (nth o ndim 0%nat) * nth o bias 0.
Proof. intros. eexists. split; [reflexivity|]. now apply (jld_backend_spec kernel bias ndim dims X n d l). Qed.
Print Assumptions C45_jld_projection.
(** Without distribution every output is a weighted sum over all dimensions. *)
Theorem C45_jld_full : forall out draw bdraw perm X n d l s,
  has_shape X n d l -> (1 <= d)%nat -> (1 <= n)%nat ->
  jld_fit out false false draw bdraw perm d = Ok s ->
  exists Y, jld_transform (Some s) X = Ok Y /\ has_shape Y n out l /\
  forall i o t, (i < n)%nat -> (o < out)%nat -> (t < l)%nat ->
    entry Y i o t = Rsum_upto (fun j => entry X i j t * nth (o * d + j) draw 0) d.
Proof.
  intros out draw bdraw perm X n d l s HX Hd Hn E. injection E as <-.
  destruct (C45_jld_projection draw (zeros out) (repeat d out) (concat (repeat (seq 0 d) out)) X n d l HX Hd) as [Y [E [HY HSp]]].
  { unfold zeros. now rewrite !repeat_length. }
  rewrite repeat_length in *. exists Y. split; [exact E|]. split; [exact HY|]. intros i o t Hi Ho Ht.
  rewrite HSp by assumption. rewrite nth_repeat' by exact Ho. unfold zeros. rewrite nth_repeat' by exact Ho.
  cbn [nzero RNum]. rewrite Rmult_0_r, Rplus_0_r.
  assert (Ef : list_sum (firstn o (repeat d out)) = (o * d)%nat).
  { assert (F : firstn o (repeat d out) = repeat d o).
    { clear - Ho. revert o Ho. induction out as [|m IH]; intros [|o] Ho; cbn; try lia; auto. f_equal. apply IH. lia. }
    rewrite F. apply list_sum_repeat. }
  rewrite Ef. replace (o * d)%nat with (o * d + 0)%nat at 1 by lia. rewrite seq_shift_add, map_map.
  rewrite <- Rsum_tab. unfold tab. f_equal. apply map_ext_in. intros j Hj. apply in_seq in Hj. f_equal. f_equal.
  clear - Ho Hj. revert o Ho. induction out as [|m IH]; intros o Ho; [lia|]. cbn [repeat concat].
  destruct o as [|o].
  - rewrite app_nth1 by (rewrite seq_length; lia). cbn [Nat.mul Nat.add]. rewrite seq_nth; lia.
  - rewrite app_nth2 by (rewrite seq_length; nia). rewrite seq_length.
    replace (S o * d + j - d)%nat with (o * d + j)%nat by nia. apply IH. lia.
Qed.
Print Assumptions C45_jld_full.
(** Without bias the projection is linear. *)
Theorem C45_jld_linear : forall kernel ndim dims X X' X'' n d l a b,
  has_shape X n d l -> has_shape X' n d l -> has_shape X'' n d l -> (1 <= d)%nat ->
  Forall (fun k => (k < d)%nat) dims -> list_sum ndim = length dims ->
  (forall i j t, (i < n)%nat -> (j < d)%nat -> (t < l)%nat ->
     entry X'' i j t = a * entry X i j t + b * entry X' i j t) ->
  let s := Some {| jld_kernel := kernel; jld_bias := zeros (length ndim); jld_ndim := ndim; jld_dims := dims |} in
  exists Y Y' Y'', jld_transform s X = Ok Y /\ jld_transform s X' = Ok Y' /\ jld_transform s X'' = Ok Y'' /\
  forall i o t, (i < n)%nat -> (o < length ndim)%nat -> (t < l)%nat ->
     entry Y'' i o t = a * entry Y i o t + b * entry Y' i o t.
Proof.
  intros kernel ndim dims X X' X'' n d l a b HX HX' HX'' Hd Hdims Hsum E s.
  assert (Lb : length (@zeros R _ (length ndim)) = length ndim) by (unfold zeros; apply repeat_length).
  destruct (C45_jld_projection kernel _ ndim dims X n d l HX Hd Lb) as [Y [E1 [_ S1]]].
  destruct (C45_jld_projection kernel _ ndim dims X' n d l HX' Hd Lb) as [Y' [E2 [_ S2]]].
  destruct (C45_jld_projection kernel _ ndim dims X'' n d l HX'' Hd Lb) as [Y'' [E3 [_ S3]]].
  exists Y, Y', Y''. split; [exact E1|]. split; [exact E2|]. split; [exact E3|]. intros i o t Hi Ho Ht.
  rewrite S1, S2, S3 by assumption. unfold zeros. rewrite nth_repeat' by exact Ho. cbn [nzero RNum].
  rewrite !Rmult_0_r, !Rplus_0_r, <- !Rsum_map_scal, <- Rsum_map_plus. f_equal. apply map_ext_in. intros j Hj.
  rewrite E; [ring|exact Hi| |exact Ht]. apply in_seq in Hj. rewrite Forall_forall in Hdims. apply Hdims. apply nth_In.
  rewrite <- Hsum. assert (Q : (list_sum (firstn o ndim) + nth o ndim 0 <= list_sum ndim)%nat).
  { clear - Ho. revert o Ho. induction ndim as [|m ndim IH]; intros o Ho; cbn [length] in Ho; [lia|].
    destruct o as [|o]; cbn [firstn nth]; change (list_sum (m :: ndim)) with (m + list_sum ndim)%nat.
    - cbn. lia.
    - change (list_sum (m :: firstn o ndim)) with (m + list_sum (firstn o ndim))%nat. specialize (IH o ltac:(lia)). lia. }
  lia.
Qed.
Print Assumptions C45_jld_linear.
(** distribute=True: the input dimensions are split into [out] groups, each
    used exactly once, sizes differing by at most one. *)
Theorem C45_jld_distribute : forall out bias draw bdraw perm d s,
  (1 <= out)%nat -> Permutation perm (seq 0 d) ->
  jld_fit (T := R) out true bias draw bdraw perm d = Ok s ->
  exists parts : list (list nat), length parts = out /\ Permutation (concat parts) (seq 0 d) /\
    Forall (fun g => length g = (d / out)%nat \/ length g = S (d / out)) parts /\
    forall o, (o < out)%nat ->
      nth o parts [] = map (fun j => nth j (jld_dims s) 0%nat)
          (seq (list_sum (firstn o (jld_ndim s))) (nth o (jld_ndim s) 0%nat)).
Proof.
  intros out bias draw bdraw perm d s Hout Hp E. unfold jld_fit in E.
  destruct (Nat.ltb_spec d out); [discriminate|]. injection E as <-. cbn [jld_dims jld_ndim].
  destruct (group_sizes_spec d out Hout ltac:(lia)) as [L [Sm [F _]]].
  exists (map (map (fun j => nth j perm 0%nat)) (groups (group_sizes d out))).
  split; [rewrite map_length, groups_length; exact L|]. split; [|split].
  - rewrite <- concat_map, concat_groups, Sm.
    assert (Lp : length perm = d) by (rewrite (Permutation_length Hp), seq_length; reflexivity).
    assert (E : map (fun j => nth j perm 0%nat) (seq 0 d) = perm).
    { change (tab d (fun j => nth j perm 0%nat) = perm). symmetry. now apply tab_eta'. }
    rewrite E. exact Hp.
  - apply Forall_forall. intros g Hg. apply in_map_iff in Hg as [q [<- Hq]]. rewrite map_length.
    apply (In_nth _ _ []) in Hq as [o [Ho <-]]. rewrite groups_length in Ho. rewrite groups_nth by exact Ho.
    rewrite seq_length. rewrite Forall_forall in F. apply F. apply nth_In. exact Ho.
  - intros o Ho. rewrite (nth_indep _ [] (map (fun j => nth j perm 0%nat) [])) by (rewrite map_length, groups_length; lia).
    rewrite map_nth, groups_nth by lia. reflexivity.
Qed.
Print Assumptions C45_jld_distribute.
Theorem C45_jld_too_many_outputs : forall out bias draw bdraw perm d, (d < out)%nat ->
  jld_fit (T := R) out true bias draw bdraw perm d = Err ValueError.
Proof. intros. unfold jld_fit. replace (d <? out)%nat with true by (symmetry; now apply Nat.ltb_lt). reflexivity. Qed.
Print Assumptions C45_jld_too_many_outputs.
(** The documented bias (added once) is refuted: JLD(1, bias=True) on two
    input dimensions with bias 1 and kernel (1, 1) maps (1, 5) to 8, not 7. *)
Theorem C45_bias_once_refuted : exists s X Y,
  jld_fit 1 false true [1; 1] [1] [] 2 = Ok s /\ X = [[[1]; [5]]] /\ jld_transform (Some s) X = Ok Y /\
  entry Y 0 0 0 <> (entry X 0 0 0 * 1 + entry X 0 1 0 * 1) + 1.
Proof.
  do 3 eexists. split; [reflexivity|]. split; [reflexivity|]. split; [reflexivity|]. rcbv. lra.
Qed.
Print Assumptions C45_bias_once_refuted.
Example C45_ex : exists s, jld_fit 2 true false [1; 2; 3] [] [2; 0; 1]%nat 3 = Ok s /\
  jld_transform (Some s) [[[1]; [10]; [100]]] = Ok [[[102]; [30]]].
Proof. eexists. split; [reflexivity|]. rcompute. Qed.

(** * C46 *)
Theorem C46_rin_constant_kernel : forall kernel X n d l, has_shape X n d l -> (1 <= d)%nat ->
  let w := tlen kernel in
  exists Y, rin_transform false (Some (rin_fit_const kernel d)) X = Ok Y /\ has_shape Y n d l /\
  forall i j t, (i < n)%nat -> (j < d)%nat -> (t < l)%nat ->
    entry Y i j t = if (t <? w)%nat then 0 else
      entry X i j t - Rsum_upto (fun a => nth a (nth j kernel []) 0 * entry X i j (t - w + a)) w.
Proof.
  intros kernel X n d l HX Hd w. destruct (rin_spec (rin_fit_const kernel d) X n d l HX Hd) as [Y [E [HY HSp]]].
  cbn [rin_fit_const rin_ndim rin_kernel rin_dims] in *. rewrite repeat_length in *. fold w in HSp.
  exists Y. split; [exact E|]. split; [exact HY|]. intros i j t Hi Hj Ht. rewrite HSp by assumption.
  destruct (t <? w)%nat; [reflexivity|]. unfold rin_value. rewrite groups_ones by exact Hj. cbn [map].
  rewrite Rsum_cons, Rsum_nil, Rplus_0_r, seq_nth by exact Hj. reflexivity.
Qed.
Print Assumptions C46_rin_constant_kernel.
Theorem C46_rin_constant_kernel_adaptive : forall kernel X n d l, has_shape X n d l -> (1 <= d)%nat ->
  let w := tlen kernel in
  exists Y, rin_transform true (Some (rin_fit_const kernel d)) X = Ok Y /\ has_shape Y n d l /\
  forall i j t, (i < n)%nat -> (j < d)%nat -> (t < l)%nat ->
    entry Y i j t = entry X i j t - Rsum_upto (fun a => nth a (nth j kernel []) 0 *
                         (if (t + a <? w)%nat then 0 else entry X i j (t + a - w))) w.
Proof.
  intros kernel X n d l HX Hd w.
  destruct (rin_adaptive_spec (rin_fit_const kernel d) X n d l HX Hd (rin_const_ok kernel d)) as [Y [E [HY HSp]]].
  cbn [rin_fit_const rin_ndim rin_kernel rin_dims] in *. rewrite repeat_length in *. fold w in HSp.
  exists Y. split; [exact E|]. split; [exact HY|]. intros i j t Hi Hj Ht. rewrite HSp by assumption.
  unfold rin_value. rewrite groups_ones by exact Hj. cbn [map].
  rewrite Rsum_cons, Rsum_nil, Rplus_0_r, seq_nth by exact Hj. cbn [Nat.add].
  destruct (Nat.ltb_spec (t + w) w); [lia|]. replace (t + w - w)%nat with t by lia. f_equal.
Qed.
Print Assumptions C46_rin_constant_kernel_adaptive.
(** Random kernels: what is computed (the x_t term uses dimension j, the
    convolution dimension dims[j]). *)
Theorem C46_rin_general : forall s X n d l, has_shape X n d l -> (1 <= d)%nat ->
  let w := tlen (rin_kernel s) in
  exists Y, rin_transform false (Some s) X = Ok Y /\ has_shape Y n (length (rin_ndim s)) l /\
  forall i o t, (i < n)%nat -> (o < length (rin_ndim s))%nat -> (t < l)%nat ->
    entry Y i o t = if (t <? w)%nat then 0 else
      Rsum (map (fun j => entry X i j t -
              Rsum_upto (fun a => nth a (nth j (rin_kernel s) []) 0 * entry X i (nth j (rin_dims s) 0%nat) (t - w + a)) w)
            (seq (list_sum (firstn o (rin_ndim s))) (nth o (rin_ndim s) 0%nat))).
Proof.
  intros s X n d l HX Hd w. destruct (rin_spec s X n d l HX Hd) as [Y [E [HY HSp]]]. fold w in HSp.
  exists Y. split; [exact E|]. split; [exact HY|]. intros i o t Hi Ho Ht. rewrite HSp by assumption.
  rewrite groups_nth by exact Ho. reflexivity.
Qed.
Print Assumptions C46_rin_general.
(** The documented formula would use the same dimension in both places; for
    the drawn permutation (1, 0) no assignment of the two output dimensions to
    input dimensions makes it true. *)
Theorem C46_documented_formula_refuted : exists draw perm s X Y,
  Permutation perm (seq 0 2) /\ rin_fit (-1) true draw perm 2 = Ok s /\ rin_kernel s = [[1]; [1]] /\
  rin_transform false (Some s) X = Ok Y /\
  forall j, (j < 2)%nat -> entry Y 0 0 1 <> entry X 0 j 1 - 1 * entry X 0 j 0.
Proof.
  exists [[0]; [0]], [1; 0]%nat. eexists. exists [[[1; 2]; [10; 20]]]. eexists.
  split; [apply perm_swap|]. split; [reflexivity|]. split.
  - rcbv. rdec. f_equal; [f_equal; field|f_equal; f_equal; field].
  - split; [reflexivity|]. intros [|[|j]] Hj; [| |lia]; rcbv; rdec; intros H; field_simplify in H; lra.
Qed.
Print Assumptions C46_documented_formula_refuted.
Theorem C46_force_sum_one : forall k, Rsum (map (fun v => 1 - Rabs v) k) <> 0 -> Rsum (rin_force k) = 1.
Proof. exact rin_force_sum. Qed.
Print Assumptions C46_force_sum_one.
Theorem C46_centred_kernels_sum_zero : forall k, k <> [] -> Rsum (rin_centre k) = 0.
Proof. exact rin_centre_sum. Qed.
Print Assumptions C46_centred_kernels_sum_zero.
(** "while keeping interval borders" is refuted: (9/10, 9/10, 9/10, 0) is
    drawn from [-1, 1], its last weight becomes -17/13. *)
Theorem C46_interval_borders_refuted : exists k, Forall (fun v => -1 <= v <= 1) k /\
  Rsum (map (fun v => 1 - Rabs v) k) >= 1 /\ nth 3 (rin_force k) 0 < -1.
Proof.
  exists [9/10; 9/10; 9/10; 0]. split; [repeat apply Forall_cons; try lra; constructor|]. split.
  - cbn [map]. rewrite !(Rabs_right (9/10)) by lra. rewrite Rabs_R0. rcbv. lra.
  - rcbv. rdec.
    match goal with |- ?a < _ => replace a with (-17/13) by field end. lra.
Qed.
Print Assumptions C46_interval_borders_refuted.
Example C46_ex : rin_transform false (Some (rin_fit_const [[1]; [2]] 2)) X3 = Ok [[[0; 2; -1]; [0; -5; -5]]].
Proof. rcompute. Qed.

(** * C47 *)
Theorem C47_rpe_isometry : forall den X X' n l, has_shape X n 2 l -> has_shape X' n 2 l -> (1 <= n)%nat ->
  exists Y Y', rpe_transform den X = Ok Y /\ rpe_transform den X' = Ok Y' /\ has_shape Y n 2 l /\ has_shape Y' n 2 l /\
  forall i t, (i < n)%nat -> (t < l)%nat ->
    entry Y i 0 t * entry Y' i 0 t + entry Y i 1 t * entry Y' i 1 t
    = entry X i 0 t * entry X' i 0 t + entry X i 1 t * entry X' i 1 t.
Proof.
  intros den X X' n l HX HX' Hn.
  destruct (rpe_spec den X n l HX Hn) as [Y [E [HY HSp]]]. destruct (rpe_spec den X' n l HX' Hn) as [Y' [E' [HY' S']]].
  exists Y, Y'. repeat (split; [assumption|]). intros i t Hi Ht.
  destruct (HSp i t Hi Ht) as [-> ->]. destruct (S' i t Hi Ht) as [-> ->].
  pose proof (sin2_cos2 (INR t / den)) as Q. unfold Rsqr in Q.
  set (c := cos (INR t / den)) in *. set (s := sin (INR t / den)) in *.
  transitivity ((s * s + c * c) * (entry X i 0 t * entry X' i 0 t + entry X i 1 t * entry X' i 1 t)); [ring|].
  rewrite Q. ring.
Qed.
Print Assumptions C47_rpe_isometry.
Theorem C47_rpe_preserves_norm : forall den X n l, has_shape X n 2 l -> (1 <= n)%nat ->
  exists Y, rpe_transform den X = Ok Y /\
  forall i t, (i < n)%nat -> (t < l)%nat ->
    sqrt (Rsqr (entry Y i 0 t) + Rsqr (entry Y i 1 t)) = sqrt (Rsqr (entry X i 0 t) + Rsqr (entry X i 1 t)).
Proof.
  intros den X n l HX Hn. destruct (C47_rpe_isometry den X X n l HX HX Hn) as [Y [Y' [E [E' [_ [_ HSp]]]]]].
  rewrite E in E'. injection E' as <-. exists Y. split; [exact E|]. intros i t Hi Ht. unfold Rsqr. now rewrite HSp.
Qed.
Print Assumptions C47_rpe_preserves_norm.
Theorem C47_rpe_rotation : forall den X n l, has_shape X n 2 l -> (1 <= n)%nat ->
  exists Y, rpe_transform den X = Ok Y /\ has_shape Y n 2 l /\
  forall i t, (i < n)%nat -> (t < l)%nat ->
    entry Y i 0 t = cos (INR t / den) * entry X i 0 t - sin (INR t / den) * entry X i 1 t /\
    entry Y i 1 t = sin (INR t / den) * entry X i 0 t + cos (INR t / den) * entry X i 1 t.
Proof. exact rpe_spec. Qed.
Print Assumptions C47_rpe_rotation.
Theorem C47_rpe_wrong_dimension : forall den (X : dataset R) n d l, has_shape X n d l -> (1 <= n)%nat -> d <> 2%nat ->
  rpe_transform den X = Err ValueError.
Proof.
  intros den X n d l HX Hn Hd. unfold rpe_transform. rewrite (dimX_shape X n d l HX Hn).
  replace (d =? 2)%nat with false by (symmetry; now apply Nat.eqb_neq). reflexivity.
Qed.
Print Assumptions C47_rpe_wrong_dimension.

(** * C54 *)
Theorem C54_variations : forall X n d l, has_shape X n d l -> (1 <= d)%nat ->
  (length (L1_sum X) = n /\ forall i t, (i < n)%nat -> (t < l)%nat ->
     nth t (nth i (L1_sum X) []) 0 = Rsum_upto (fun u => Rabs (entry X i 0 (S u) - entry X i 0 u)) t) /\
  (length (L2_sum X) = n /\ forall i t, (i < n)%nat -> (t < l)%nat ->
     nth t (nth i (L2_sum X) []) 0 = Rsum_upto (fun u => Rsqr (entry X i 0 (S u) - entry X i 0 u)) t).
Proof.
  intros X n d l HX Hd. split.
  - destruct (L1_sum_spec X n d l HX Hd) as [L HSp]. split; [exact L|]. intros i t Hi Ht.
    rewrite HSp, tab_nth by assumption. reflexivity.
  - destruct (L2_sum_spec X n d l HX Hd) as [L HSp]. split; [exact L|]. intros i t Hi Ht.
    rewrite HSp, tab_nth by assumption. reflexivity.
Qed.
Print Assumptions C54_variations.
Theorem C54_variation_monotone : forall X n d l i, has_shape X n d l -> (1 <= d)%nat -> (i < n)%nat -> (1 <= l)%nat ->
  (nth 0 (nth i (L1_sum X) []) 0 = 0 /\ nondecreasing_on (fun t => nth t (nth i (L1_sum X) []) 0) l) /\
  (nth 0 (nth i (L2_sum X) []) 0 = 0 /\ nondecreasing_on (fun t => nth t (nth i (L2_sum X) []) 0) l).
Proof.
  intros X n d l i HX Hd Hi Hl. destruct (L1_sum_spec X n d l HX Hd) as [_ S1]. destruct (L2_sum_spec X n d l HX Hd) as [_ S2].
  rewrite S1, S2 by exact Hi. split; (split; [rewrite tab_nth by lia; apply variation_0|]);
    intros s t Hst Ht; rewrite !tab_nth by lia.
  - apply (variation_mono Rabs _ l); [apply Rabs_pos|exact Hst|exact Ht].
  - apply (variation_mono (fun v => v * v) _ l); [intros v; apply Rle_0_sqr|exact Hst|exact Ht].
Qed.
Print Assumptions C54_variation_monotone.
(** Coquantiles of any non-decreasing series starting at 0. *)
Theorem C54_coquantile : forall q l y, length y = l -> (1 <= l)%nat -> nth 0 y 0 = 0 ->
  nondecreasing_on (fun t => nth t y 0) l -> 0 <= q <= 1 ->
  let c := coquantile1 q y in
  (1 <= c <= l)%nat /\ (forall t, (t < l)%nat -> ((t < c)%nat <-> nth t y 0 <= q * nth (l - 1) y 0)) /\
  (forall q', q <= q' -> (c <= coquantile1 q' y)%nat) /\
  coquantile1 1 y = l.
Proof.
  intros q l y Ly Hl H0 Hm Hq c.
  assert (C : forall p, exists c, coquantile1 p y = c /\ (c <= l)%nat /\
      forall t, (t < l)%nat -> ((t < c)%nat <-> nth t y 0 <= p * nth (l - 1) y 0)).
  { intros p. destruct (coquantile1_spec p l (fun t => nth t y 0) Hl Hm) as [c1 [E1 [E2 E3]]].
    exists c1. split; [|split; assumption]. rewrite <- E1. f_equal. exact (tab_eta' 0 l y Ly). }
  assert (P : 0 <= nth (l - 1) y 0) by (pose proof (Hm 0%nat (l - 1)%nat ltac:(lia) ltac:(lia)) as Hm0; cbn beta in Hm0; lra).
  destruct (C q) as [c0 [Ec [Hc Sc]]]. unfold c. rewrite Ec. split; [|split; [exact Sc|split]].
  - split; [|exact Hc]. destruct c0; [|lia]. exfalso. assert (0 < 0)%nat; [|lia]. apply Sc; [lia|]. rewrite H0.
    apply Rmult_le_pos; lra.
  - intros q' Hq'. destruct (C q') as [c' [Ec' [Hc' Sc']]]. rewrite Ec'.
    destruct (Nat.le_gt_cases c0 c') as [|G]; [assumption|]. exfalso.
    assert (L : (c' < l)%nat) by lia. assert (K : (c' < c')%nat); [|lia]. apply Sc'; [exact L|].
    pose proof (proj1 (Sc c' L) G). nra.
  - destruct (C 1) as [c' [Ec' [Hc' Sc']]]. rewrite Ec'.
    destruct (Nat.eq_dec c' l) as [|N]; [assumption|]. exfalso. assert (L : (c' < l)%nat) by lia.
    assert (K : (c' < c')%nat); [|lia]. apply Sc'; [exact L|]. rewrite Rmult_1_l. apply Hm; lia.
Qed.
Print Assumptions C54_coquantile.
Example C54_ex : L1_sum X3 = [[0; 2; 3]] /\ L2_sum X3 = [[0; 4; 5]] /\ coquantile (1/2) (L1_sum X3) = [1]%nat.
Proof. split; [|split]; rcompute. Qed.

(** * C56: weighting lookups.  [lookup_of f l scale r] (S_Prep.v): r has length
    l, values in [0, scale], is (anti)monotone when f is, reaches 0 and scale
    when f is not constant, is a function of f, and is the linear rescaling of f.
    This holds if the array to be normalised has float entries (the default
    relative=True, or a transform that returns floats). *)
Theorem C56_indices : forall relative tr scale (X : dataset R) n d l,
  has_shape X n d l -> (1 <= n)%nat -> (1 <= d)%nat -> (1 <= l)%nat ->
  (tr = None -> relative = true) -> floats_at tr (index_arg relative l 0) ->
  exists r, indices_lookup relative tr scale X = Ok (map (fun _ => r) X) /\
    lookup_of (index_fn relative tr l) l scale r.
Proof.
  intros relative tr scale X n d l HX Hn Hd Hl Hr F. unfold indices_lookup.
  rewrite (lenX_shape X n d l HX Hn Hd), indices_row_float by assumption.
  destruct (nrm_scale_lookup scale l (index_fn relative tr l) Hl) as [r [E L]]. rewrite E. exists r. auto.
Qed.
Print Assumptions C56_indices.
Theorem C56_indices_monotone : forall scale (X : dataset R) n d l,
  has_shape X n d l -> (1 <= n)%nat -> (1 <= d)%nat -> (2 <= l)%nat -> 0 <= scale ->
  exists r, indices_lookup true None scale X = Ok (map (fun _ => r) X) /\ length r = l /\
    nth 0 r 0 = 0 /\ nth (l - 1) r 0 = scale /\ nondecreasing_on (fun t => nth t r 0) l.
Proof.
  intros scale X n d l HX Hn Hd Hl Hs.
  destruct (C56_indices true None scale X n d l HX Hn Hd ltac:(lia) (fun _ => eq_refl) Logic.I) as [r [E [L [R1 [R2 [_ [R3 _]]]]]]].
  pose proof (index_fn_mono true l) as M. specialize (R2 Hs M). specialize (R1 Hs).
  destruct R3 as [[a [Ha Ea]] [b [Hb Eb]]].
  { exists 0%nat, 1%nat. repeat split; try lia. unfold index_fn, apply_tr, index_arg. cbn [INR]. intros H.
    apply (f_equal (fun v => v * INR l)) in H. unfold Rdiv in H. rewrite !Rmult_assoc, !Rinv_l in H by (apply not_0_INR; lia). lra. }
  exists r. split; [exact E|]. split; [exact L|]. split; [|split; [|exact R2]].
  - pose proof (R1 0%nat ltac:(lia)). pose proof (R2 0%nat a ltac:(lia) Ha) as Q. cbv beta in Q. lra.
  - pose proof (R1 (l - 1)%nat ltac:(lia)). pose proof (R2 b (l - 1)%nat ltac:(lia) ltac:(lia)) as Q. cbv beta in Q. lra.
Qed.
Print Assumptions C56_indices_monotone.
(** The relative indices, exactly: t * scale / (l - 1). *)
Theorem C56_indices_linear : forall scale (X : dataset R) n d l,
  has_shape X n d l -> (1 <= n)%nat -> (1 <= d)%nat -> (2 <= l)%nat ->
  indices_lookup true None scale X = Ok (map (fun _ => map (fun t => INR t / INR (l - 1) * scale) (seq 0 l)) X).
Proof.
  intros scale X n d l HX Hn Hd Hl.
  destruct (C56_indices true None scale X n d l HX Hn Hd ltac:(lia) (fun _ => eq_refl) Logic.I) as [r [E [L [_ [_ [_ [_ [_ Q]]]]]]]].
  rewrite E. enough (Er : r = map (fun t => INR t / INR (l - 1) * scale) (seq 0 l)) by now rewrite Er.
  apply (nth_ext _ _ 0 0); [rewrite L, map_length, seq_length; reflexivity|].
  intros t Ht. rewrite L in Ht. pose proof (index_fn_mono true l) as Mo.
  assert (Hl0 : 0 < INR l) by (apply lt_0_INR; lia).
  rewrite (Q (INR 1 / INR l) (INR l / INR l) t).
  - rewrite (nth_indep _ 0 (INR 0 / INR (l - 1) * scale)) by (rewrite map_length, seq_length; exact Ht).
    rewrite (map_nth (fun t => INR t / INR (l - 1) * scale) (seq 0 l) 0%nat t), seq_nth by exact Ht. cbn [Nat.add]. f_equal.
    unfold rescale, index_fn, apply_tr, index_arg. assert (G : 1 < INR l) by (change 1 with (INR 1); apply lt_INR; lia).
    destruct (Req_EM_T (INR 1 / INR l) (INR l / INR l)) as [C|N].
    + exfalso. apply (f_equal (fun v => v * INR l)) in C. unfold Rdiv in C. rewrite !Rmult_assoc, !Rinv_l in C by lra. cbn [INR] in C. lra.
    + rewrite S_INR, minus_INR by lia. cbn [INR]. field. lra.
  - split; [exists 0%nat; split; [lia|reflexivity]|]. intros u Hu. apply (Mo 0%nat u); lia.
  - split; [exists (l - 1)%nat; split; [lia|]; unfold index_fn, apply_tr, index_arg; now replace (S (l - 1)) with l by lia|].
    intros u Hu. replace (INR l / INR l) with (index_fn true None l (l - 1)); [apply Mo; lia|].
    unfold index_fn, apply_tr, index_arg. now replace (S (l - 1)) with l by lia.
  - exact Ht.
Qed.
Print Assumptions C56_indices_linear.
(** If the array is an integer array - relative=False without a transform, or a
    transform that returns an int for the first index - NRM truncates. *)
Theorem C56_indices_integer : forall relative tr scale (X : dataset R) n d l,
  has_shape X n d l -> (1 <= n)%nat -> (1 <= d)%nat -> (1 <= l)%nat ->
  (tr = None /\ relative = false) \/ ints_at tr (index_arg relative l 0) ->
  exists r, indices_lookup relative tr scale X = Ok (map (fun _ => r) X) /\
    integer_lookup_of (fun t => Rtrunc (index_fn relative tr l t)) l scale r.
Proof.
  intros relative tr scale X n d l HX Hn Hd Hl D. unfold indices_lookup.
  rewrite (lenX_shape X n d l HX Hn Hd), indices_row_int by assumption. destruct tr as [g|].
  - destruct (nrm_scale_integer scale l (fun t => Rtrunc (index_fn relative (Some g) l t)) Hl) as [r [E L]]. rewrite E. exists r. auto.
  - destruct D as [[_ ->]|D]; [|contradiction].
    replace (tab l (index_fn false None l)) with (tab l (fun t => Rtrunc (index_fn false None l t))).
    2:{ apply tab_ext. intros t Ht. unfold index_fn, apply_tr, index_arg. rewrite INR_IZR_INZ. apply Rtrunc_IZR. }
    destruct (nrm_scale_integer scale l (fun t => Rtrunc (index_fn false None l t)) Hl) as [r [E L]]. rewrite E. exists r. auto.
Qed.
Print Assumptions C56_indices_integer.
(** Indices(relative=False): the lookup is 0 everywhere except at the last time
    step, and so for three or more time steps never that of relative=True. *)
Theorem C56_indices_absolute_degenerate : forall scale (X : dataset R) n d l,
  has_shape X n d l -> (1 <= n)%nat -> (1 <= d)%nat -> (2 <= l)%nat ->
  indices_lookup false None scale X = Ok (map (fun _ => repeat 0 (l - 1) ++ [scale]) X).
Proof.
  intros scale X n d l HX Hn Hd Hl.
  destruct (C56_indices_integer false None scale X n d l HX Hn Hd ltac:(lia) (or_introl (conj eq_refl eq_refl))) as [r [E [L Q]]].
  rewrite E. enough (Er : r = repeat 0 (l - 1) ++ [scale]) by now rewrite Er.
  assert (I : forall t, Rtrunc (index_fn false None l t) = INR (S t)).
  { intros t. unfold index_fn, apply_tr, index_arg. rewrite INR_IZR_INZ. apply Rtrunc_IZR. }
  apply (nth_ext _ _ 0 0); [rewrite L, app_length, repeat_length; cbn [length]; lia|].
  intros t Ht. rewrite L in Ht. destruct (Q (INR 1) (INR l) t) as [Q1 Q2].
  - split; [exists 0%nat; split; [lia|apply I]|]. intros u Hu. rewrite I. apply le_INR. lia.
  - split; [exists (l - 1)%nat; split; [lia|]; rewrite I; f_equal; lia|]. intros u Hu. rewrite I. apply le_INR. lia.
  - exact Ht.
  - destruct (Nat.eq_dec t (l - 1)) as [->|N].
    + rewrite Q1; [|apply not_INR; lia|rewrite I; f_equal; lia]. rewrite app_nth2 by (rewrite repeat_length; lia). rewrite repeat_length, Nat.sub_diag. reflexivity.
    + rewrite Q2; [|right; rewrite I; apply not_INR; lia]. rewrite app_nth1 by (rewrite repeat_length; lia). symmetry. apply nth_repeat.
Qed.
Print Assumptions C56_indices_absolute_degenerate.
Theorem C56_indices_absolute_refuted : forall scale (X : dataset R) n d l,
  has_shape X n d l -> (1 <= n)%nat -> (1 <= d)%nat -> (3 <= l)%nat -> scale <> 0 ->
  indices_lookup false None scale X <> indices_lookup true None scale X.
Proof.
  intros scale X n d l HX Hn Hd Hl Hs E.
  rewrite (C56_indices_absolute_degenerate scale X n d l), (C56_indices_linear scale X n d l) in E by (assumption || lia).
  injection E as E. destruct X as [|x X]; [destruct HX; cbn in *; lia|]. cbn [map] in E. injection E as E _.
  apply (f_equal (fun r => nth 1 r 0)) in E.
  rewrite app_nth1 in E by (rewrite repeat_length; lia). rewrite nth_repeat in E.
  rewrite (nth_indep _ 0 (INR 0 / INR (l - 1) * scale)) in E by (rewrite map_length, seq_length; lia).
  rewrite (map_nth (fun t => INR t / INR (l - 1) * scale) (seq 0 l) 0%nat 1%nat), seq_nth in E by lia. cbn [Nat.add INR] in E.
  symmetry in E. apply Rmult_integral in E as [E|E]; [|contradiction]. apply (f_equal (fun v => v * INR (l - 1))) in E.
  unfold Rdiv in E. rewrite Rmult_assoc, Rinv_l in E by (apply not_0_INR; lia). lra.
Qed.
Print Assumptions C56_indices_absolute_refuted.
(** L1 and L2 (p = absolute value or square), computed from the series [X]. *)
Theorem C56_lp : forall relative eps tr scale (X : dataset R) n d l,
  has_shape X n d l -> (1 <= d)%nat -> (1 <= l)%nat -> floats_at tr 0 ->
  (exists R1, lp_lookup relative eps tr scale (L1_sum X) = Ok R1 /\ length R1 = n /\
     forall i, (i < n)%nat -> lookup_of (lp_fn relative eps tr l (variation Rabs (entry X i 0))) l scale (nth i R1 [])) /\
  (exists R2, lp_lookup relative eps tr scale (L2_sum X) = Ok R2 /\ length R2 = n /\
     forall i, (i < n)%nat -> lookup_of (lp_fn relative eps tr l (variation (fun v => v * v) (entry X i 0))) l scale (nth i R2 [])).
Proof.
  intros relative eps tr scale X n d l HX Hd Hl F.
  assert (G : forall (S : list (list R)) (f : nat -> nat -> R), length S = n -> (forall i, f i 0%nat = 0) ->
     (forall i, (i < n)%nat -> nth i S [] = tab l (f i)) ->
     exists R1, lp_lookup relative eps tr scale S = Ok R1 /\ length R1 = n /\
       forall i, (i < n)%nat -> lookup_of (lp_fn relative eps tr l (f i)) l scale (nth i R1 [])).
  { intros S f LS F0 ES. apply (lp_lookup_rows relative eps tr scale n S (fun i => lookup_of (lp_fn relative eps tr l (f i)) l scale)); [exact LS|]. intros i Hi. rewrite ES by exact Hi.
    rewrite lp_row_float; [now apply nrm_scale_lookup|exact Hl|]. unfold lp_arg. rewrite F0. destruct relative; [|exact F].
    unfold Rdiv. rewrite Rmult_0_l. exact F. }
  split; (apply G; [|intros i; apply variation_0|]).
  - apply (L1_sum_spec X n d l HX Hd).
  - apply (L1_sum_spec X n d l HX Hd).
  - apply (L2_sum_spec X n d l HX Hd).
  - apply (L2_sum_spec X n d l HX Hd).
Qed.
Print Assumptions C56_lp.
(** A transform that returns an int for 0.0. *)
Theorem C56_lp_integer : forall relative eps tr scale (X : dataset R) n d l,
  has_shape X n d l -> (1 <= d)%nat -> (1 <= l)%nat -> ints_at tr 0 ->
  (exists R1, lp_lookup relative eps tr scale (L1_sum X) = Ok R1 /\ length R1 = n /\
     forall i, (i < n)%nat -> integer_lookup_of (fun t => Rtrunc (lp_fn relative eps tr l (variation Rabs (entry X i 0)) t)) l scale (nth i R1 [])) /\
  (exists R2, lp_lookup relative eps tr scale (L2_sum X) = Ok R2 /\ length R2 = n /\
     forall i, (i < n)%nat -> integer_lookup_of (fun t => Rtrunc (lp_fn relative eps tr l (variation (fun v => v * v) (entry X i 0)) t)) l scale (nth i R2 [])).
Proof.
  intros relative eps tr scale X n d l HX Hd Hl F.
  assert (G : forall (S : list (list R)) (f : nat -> nat -> R), length S = n -> (forall i, f i 0%nat = 0) ->
     (forall i, (i < n)%nat -> nth i S [] = tab l (f i)) ->
     exists R1, lp_lookup relative eps tr scale S = Ok R1 /\ length R1 = n /\
       forall i, (i < n)%nat -> integer_lookup_of (fun t => Rtrunc (lp_fn relative eps tr l (f i) t)) l scale (nth i R1 [])).
  { intros S f LS F0 ES. apply (lp_lookup_rows relative eps tr scale n S (fun i => integer_lookup_of (fun t => Rtrunc (lp_fn relative eps tr l (f i) t)) l scale)); [exact LS|]. intros i Hi. rewrite ES by exact Hi.
    rewrite lp_row_int; [now apply nrm_scale_integer|exact Hl|]. unfold lp_arg. rewrite F0. destruct relative; [|exact F].
    unfold Rdiv. rewrite Rmult_0_l. exact F. }
  split; (apply G; [|intros i; apply variation_0|]).
  - apply (L1_sum_spec X n d l HX Hd).
  - apply (L1_sum_spec X n d l HX Hd).
  - apply (L2_sum_spec X n d l HX Hd).
  - apply (L2_sum_spec X n d l HX Hd).
Qed.
Print Assumptions C56_lp_integer.
Theorem C56_lp_time_transform_monotone : forall relative eps p x l, 0 < eps -> (forall v, 0 <= p v) ->
  nondecreasing_on (lp_fn relative eps None l (variation p x)) l.
Proof.
  intros relative eps p x l He Hp. apply lp_fn_mono; [exact He| |].
  - intros t Ht. unfold variation. apply Rsum_upto_nonneg. intros; apply Hp.
  - now apply variation_mono.
Qed.
Print Assumptions C56_lp_time_transform_monotone.
Theorem C56_plateaus : forall n rev_ scale (X : dataset R) k d l,
  has_shape X k d l -> (1 <= k)%nat -> (1 <= d)%nat -> (1 <= l)%nat -> (2 <= n)%nat -> 0 <= scale ->
  exists r, plateaus_lookup n rev_ scale X = Ok (map (fun _ => r) X) /\ length r = l /\
    (forall t, (t < l)%nat -> 0 <= nth t r 0 <= scale) /\
    (if rev_ then nondecreasing_on (fun t => - nth t r 0) l else nondecreasing_on (fun t => nth t r 0) l) /\
    (exists values, (length values <= n)%nat /\ forall t, (t < l)%nat -> In (nth t r 0) values).
Proof.
  intros n rev_ scale X k d l HX Hk Hd Hl Hn Hs. unfold plateaus_lookup. rewrite (lenX_shape X k d l HX Hk Hd).
  set (g := fun t => plateau n (l / n) (if rev_ then (l - 1 - t)%nat else t)).
  assert (E0 : plateaus_row n rev_ l = tab l g).
  { pose proof (plateaus_row_tab n l Hn) as Q. unfold plateaus_row in *. cbv zeta in *. destruct rev_.
    - rewrite Q, rev_tab. reflexivity.
    - exact Q. }
  rewrite E0. destruct (nrm_scale_lookup scale l g Hl) as [r [E [L [R1 [R2 [R3 [_ [R5 _]]]]]]]]. rewrite E.
  exists r. split; [reflexivity|]. split; [exact L|]. split; [now apply R1|]. split.
  - pose proof (plateau_mono n (l / n) l Hn) as M. destruct rev_.
    + apply R3; [exact Hs|]. intros s t Hst Ht. unfold g. pose proof (M (l - 1 - t)%nat (l - 1 - s)%nat ltac:(lia) ltac:(lia)). lra.
    + apply R2; [exact Hs|]. intros s t Hst Ht. unfold g. now apply M.
  - (* one value per plateau *)
    set (lev := fun t => if (l / n =? 0)%nat then 0%nat else Nat.min ((if rev_ then (l - 1 - t)%nat else t) / (l / n)) (n - 1)).
    set (pick := fun a => match find (fun t => (lev t =? a)%nat) (seq 0 l) with Some t => nth t r 0 | None => 0 end).
    exists (map pick (seq 0 n)). split; [rewrite map_length, seq_length; lia|]. intros t Ht.
    assert (Hlev : (lev t < n)%nat) by (unfold lev; destruct (l / n =? 0)%nat; lia).
    apply in_map_iff. exists (lev t). split; [|apply in_seq; lia]. unfold pick.
    destruct (find (fun t0 => (lev t0 =? lev t)%nat) (seq 0 l)) as [u|] eqn:Ef.
    + apply find_some in Ef as [Hu Eu]. apply in_seq in Hu. apply Nat.eqb_eq in Eu. apply R5; [lia|exact Ht|].
      unfold g, plateau, lev in *. destruct (l / n =? 0)%nat; [reflexivity|]. now rewrite Eu.
    + pose proof (find_none _ _ Ef t ltac:(apply in_seq; lia)) as K. cbv beta in K. rewrite Nat.eqb_refl in K. discriminate.
Qed.
Print Assumptions C56_plateaus.
Theorem C56_plateaus_at_least_two : forall n, (n <= 1)%Z -> plateaus_new n = Err ValueError.
Proof. intros n H. unfold plateaus_new. replace (n <=? 1)%Z with true; [reflexivity|]. symmetry. now apply Z.leb_le. Qed.
Print Assumptions C56_plateaus_at_least_two.
(** More plateaus than time steps: the lookup degenerates to all zeros. *)
Theorem C56_too_many_plateaus_degenerate : forall n rev_ scale (X : dataset R) k d l,
  has_shape X k d l -> (1 <= k)%nat -> (1 <= d)%nat -> (1 <= l)%nat -> (2 <= n)%nat -> (l < n)%nat ->
  plateaus_lookup n rev_ scale X = Ok (map (fun _ => repeat 0 l) X).
Proof.
  intros n rev_ scale X k d l HX Hk Hd Hl Hn Hln. unfold plateaus_lookup. rewrite (lenX_shape X k d l HX Hk Hd).
  assert (E0 : plateaus_row n rev_ l = tab l (fun _ => 1)).
  { pose proof (plateaus_row_tab n l Hn) as Q. unfold plateaus_row in *. cbv zeta in *.
    rewrite (Nat.div_small l n Hln) in *. unfold plateau in Q. cbn [Nat.eqb] in Q. rewrite Q. destruct rev_; [|reflexivity].
    now rewrite rev_tab. }
  rewrite E0. destruct (nrm_scale_tab scale TFloat l (fun _ => 1) Hl) as [m [M [Hm [HM E]]]]. rewrite E. cbn [bind].
  f_equal. apply map_ext. intros _. rewrite tab_repeat. apply tab_ext. intros t Ht.
  destruct Hm as [[a [_ Ea]] _]. destruct HM as [[b [_ Eb]] _]. subst m M. unfold rescale.
  destruct (Req_EM_T 1 1); [cbn [store]; ring|contradiction].
Qed.
Print Assumptions C56_too_many_plateaus_degenerate.
Example C56_ex : indices_lookup true None 50 X3 = Ok [[0; 25; 50]] /\ indices_lookup false None 50 X3 = Ok [[0; 0; 50]].
Proof.
  pose proof X3_shape as S.
  split; [rewrite (C56_indices_linear 50 X3 1 2 3) by (exact S || lia); cbn; repeat f_equal; field|].
  now rewrite (C56_indices_absolute_degenerate 50 X3 1 2 3) by (exact S || lia).
Qed.
Example C56_ex2 : plateaus_lookup 2 false 50 X3 = Ok [[0; 50; 50]].
Proof. rcompute. Qed.
