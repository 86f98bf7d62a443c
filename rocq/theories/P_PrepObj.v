(** Property C88: "fit on one data set, transform another" for the preparateurs
    that learn, stated about the objects: [fit_transform .. p F X] is what
    [p.fit(F); p.transform(X)] returns or raises, where [p] is any object of the
    class - new, copied or fitted before - with or without a cache. *)
From Coq Require Import Ascii String List Arith ZArith Lia Bool Reals Lra Permutation.
From Verif Require Import Num Arr M_Str M_Np M_Prep M_Cache M_PrepObj S_ISS S_Prep S_Sieve L_Arr L_Np L_Tuples L_Prep L_Prep2 L_Prep3 L_Quantile L_RComp P_Prep P_Prep2 P_Prep3.
Import ListNotations.
Local Open Scope R_scope.

Section C88.
Variable parse : pystr -> res R.            (* float() *)
Variable powf : R -> R -> R.                (* x ** y *)
Variable eps : R.                           (* the default std_eps *)

Definition fit_transform (r : rand R) (p : prep R) (F X : dataset R) : res (dataset R) :=
  let (x, q) := pr_fit eps r p F in
  match x with Ok _ => fst (pr_transform parse powf q X) | Err e => Err e end.

(** The two steps on a leaf: the cache plays no role for the classes below. *)
Lemma fit_transform_leaf r f ca F X : (forall inp inp' g, leaf_fit eps r f F = Ok g -> leaf_transform parse powf inp g X = leaf_transform parse powf inp' g X) ->
  fit_transform r (PLeaf f ca) F X = let! g := leaf_fit eps r f F in leaf_transform parse powf X g X.
Proof.
  intros E. unfold fit_transform. cbn [pr_fit pr_cache]. destruct (leaf_fit eps r f F) as [g|e] eqn:Eg; [|reflexivity].
  cbn [pr_transform pr_cache bind]. rewrite (E _ X g eq_refl). now destruct (leaf_transform parse powf X g X).
Qed.
Ltac leafy := rewrite fit_transform_leaf by (intros inp inp' g Eg; cbn [leaf_fit] in Eg; cbn [leaf_transform];
  first [ injection Eg as <-; reflexivity | idtac ]); cbn [leaf_fit bind leaf_transform].

(** STD(separately=False): mean and deviation of all values of the training set. *)
Theorem C88_std : forall r c st ca F n' d' l' X n d l,
  has_shape X n d l -> has_shape F n' d' l' -> std_separately c = false ->
  let N := INR (n' * d' * l') in
  let sum := fun g => Rsum_upto (fun i => Rsum_upto (fun j => Rsum_upto (fun t => g (entry F i j t)) l') d') n' in
  let mu := sum (fun v => v) / N in
  let sd := sqrt (sum (fun v => (v - mu) * (v - mu)) / N) in
  exists Y, fit_transform r (PLeaf (LSTD c st) ca) F X = Ok Y /\ has_shape Y n d l /\
  forall i j t, (i < n)%nat -> (j < d)%nat -> (t < l)%nat ->
    entry Y i j t = (entry X i j t - mu) / ((if std_var c then sd else 1) + std_eps c).
Proof.
  intros r c st ca F n' d' l' X n d l HX HF Hs N sum mu sd. leafy.
  exact (C36_std_jointly c X n d l F n' d' l' st HX HF Hs).
Qed.
(** MAV with an int: the window does not depend on the training set ... *)
Theorem C88_mav : forall r w st ca F X n d l, has_shape X n d l -> (1 <= w)%nat ->
  exists Y, fit_transform r (PLeaf (LMAV (WInt (Z.of_nat w)) st) ca) F X = Ok Y /\ has_shape Y n d l /\
  forall i j t, (i < n)%nat -> (j < d)%nat -> (t < l)%nat ->
    entry Y i j t = if (w <=? S t)%nat then Rsum_range (entry X i j) (S t - w) (S t) / INR w else 0.
Proof. intros r w st ca F X n d l HX Hw. leafy. exact (C38_mav w X n d l F st HX Hw). Qed.
(** ... with a float it is that fraction of the length of the TRAINING series. *)
Theorem C88_mav_float : forall r f st ca F nF dF lF X n d l,
  has_shape X n d l -> has_shape F nF dF lF -> (1 <= nF)%nat -> (1 <= dF)%nat ->
  let w := Z.to_nat (Z.max 1 (f lF)) in
  exists Y, fit_transform r (PLeaf (LMAV (WFloat f) st) ca) F X = Ok Y /\ has_shape Y n d l /\
  forall i j t, (i < n)%nat -> (j < d)%nat -> (t < l)%nat ->
    entry Y i j t = if (w <=? S t)%nat then Rsum_range (entry X i j) (S t - w) (S t) / INR w else 0.
Proof. intros r f st ca F nF dF lF X n d l HX HF Hn Hd. leafy. exact (C38_mav_float f X n d l F nF dF lF st HX HF Hn Hd). Qed.
(** QTC: capped at the quantile of all values of the training set. *)
Theorem C88_qtc : forall r a b lower bound st ca F X n d l, has_shape X n d l -> (0 < b)%nat ->
  exists q Y, is_quantile a b (concat (concat F)) q /\
  fit_transform r (PLeaf (LQTC a b lower bound st) ca) F X = Ok Y /\ has_shape Y n d l /\
  forall i j t, (i < n)%nat -> (j < d)%nat -> (t < l)%nat ->
    let beyond := if lower then entry X i j t < q else q < entry X i j t in
    (beyond -> entry Y i j t = match bound with Some v => v | None => q end) /\
    (~ beyond -> entry Y i j t = entry X i j t).
Proof.
  intros r a b lower bound st ca F X n d l HX Hb.
  exists (qtc_fit a b F).
  assert (E : forall Y, leaf_transform parse powf X (LQTC a b lower bound (Some (qtc_fit a b F))) X = Ok Y ->
     fit_transform r (PLeaf (LQTC a b lower bound st) ca) F X = Ok Y) by (intros Y E; leafy; exact E).
  cbn [leaf_transform] in E. destruct bound as [v|].
  - destruct (C43_qtc_bound lower v (qtc_fit a b F) X n d l HX) as [Y [E1 [HY HSp]]]. exists Y.
    split; [now apply np_quantile_spec|]. split; [now apply E|]. split; [exact HY|exact HSp].
  - destruct (C43_qtc lower (qtc_fit a b F) X n d l HX) as [Y [E1 [HY [HSp _]]]]. exists Y.
    split; [now apply np_quantile_spec|]. split; [now apply E|]. split; [exact HY|].
    intros i j t Hi Hj Ht. rewrite HSp by assumption. cbv zeta. unfold Rmax, Rmin.
    destruct lower, (Rle_dec (qtc_fit a b F) (entry X i j t)); split; intros; lra.
Qed.
(** RIN with a given kernel. *)
Theorem C88_rin_kernel : forall r w a o fs kernel st ca F nF dF lF X n l, has_shape X n dF l -> has_shape F nF dF lF -> (1 <= nF)%nat -> (1 <= dF)%nat ->
  let w' := length (nth 0 kernel []) in
  exists Y, fit_transform r (PLeaf (LRIN w a o fs (Some kernel) st) ca) F X = Ok Y /\ has_shape Y n dF l /\
  forall i j t, (i < n)%nat -> (j < dF)%nat -> (t < l)%nat ->
    entry Y i j t = if andb (negb a) (t <? w')%nat then 0 else
      entry X i j t - Rsum_upto (fun k => nth k (nth j kernel []) 0 * (if (t + k <? w')%nat then 0 else entry X i j (t + k - w'))) w'.
Proof.
  intros r w a o fs kernel st ca F nF dF lF X n l HX HF HnF HdF w'. leafy. rewrite (dimX_shape F nF dF lF HF HnF).
  assert (Ew : tlen kernel = w') by (unfold w', tlen; destruct kernel; reflexivity).
  destruct a; cbn [negb andb].
  - destruct (C46_rin_constant_kernel_adaptive kernel X n dF l HX HdF) as [Y [E [HY HSp]]]. rewrite Ew in HSp. eauto.
  - destruct (C46_rin_constant_kernel kernel X n dF l HX HdF) as [Y [E [HY HSp]]]. exists Y. split; [exact E|]. split; [exact HY|].
    intros i j t Hi Hj Ht. rewrite HSp by assumption. rewrite Ew. destruct (Nat.ltb_spec t w') as [|Hw]; [reflexivity|].
    f_equal. apply Rsum_upto_ext. intros k Hk. replace (t + k <? w')%nat with false by (symmetry; apply Nat.ltb_ge; lia).
    now replace (t - w' + k)%nat with (t + k - w')%nat by lia.
Qed.

(** JLD: the numbers drawn are the weights of a projection; every output is a
    weighted sum of all input dimensions plus d times its bias (the bias is
    added once per input dimension, see C45_bias_once_refuted) ... *)
Lemma rows1 r k m : sized r -> length (hd [] (r_mat r k 1 m)) = m.
Proof.
  intros Hr. destruct (Hr k 1%nat m) as [L Fm]. destruct (r_mat r k 1 m) as [|row rest]; [discriminate|].
  inversion Fm; subst. reflexivity.
Qed.
Theorem C88_jld : forall r out bias st ca F nF dF lF X n l,
  has_shape X n dF l -> has_shape F nF dF lF -> (1 <= nF)%nat -> (1 <= dF)%nat -> sized r ->
  exists W B Y, fit_transform r (PLeaf (LJLD out false bias st) ca) F X = Ok Y /\ has_shape Y n (out dF) l /\
  length W = (dF * out dF)%nat /\ length B = out dF /\ (bias = false -> forall o, nth o B 0 = 0) /\
  forall i o t, (i < n)%nat -> (o < out dF)%nat -> (t < l)%nat ->
    entry Y i o t = Rsum_upto (fun j => entry X i j t * nth (o * dF + j) W 0) dF + INR dF * nth o B 0.
Proof.
  intros r out bias st ca F nF dF lF X n l HX HF HnF HdF Hr.
  set (o := out dF). set (W := hd [] (r_mat r 0 1 (dF * o))). set (B := if bias then hd [] (r_mat r 1 1 o) else zeros o).
  assert (LB : length B = o) by (unfold B; destruct bias; [now apply rows1|unfold zeros; apply repeat_length]).
  destruct (C45_jld_projection W B (repeat dF o) (concat (repeat (seq 0 dF) o)) X n dF l HX HdF) as [Y [E [HY HSp]]].
  { now rewrite repeat_length. }
  rewrite repeat_length in *. exists W, B, Y. split; [|split; [exact HY|split; [now apply rows1|split; [exact LB|split]]]].
  - rewrite fit_transform_leaf.
    + cbn [leaf_fit]. rewrite (dimX_shape F nF dF lF HF HnF). fold o. exact E.
    + intros inp inp' g Eg. cbn [leaf_fit jld_fit bind] in Eg. injection Eg as <-. reflexivity.
  - intros ->. intros k. unfold B, zeros. change (@nzero R _) with 0. generalize o. clear. intros o. revert k.
    induction o as [|o IH]; intros [|k]; cbn; auto.
  - intros i q t Hi Hq Ht. rewrite HSp by assumption. rewrite nth_repeat' by exact Hq. f_equal.
    assert (Ef : list_sum (firstn q (repeat dF o)) = (q * dF)%nat).
    { assert (Fr : firstn q (repeat dF o) = repeat dF q).
      { clear - Hq. revert q Hq. induction o as [|m IH]; intros [|q] Hq; cbn; try lia; auto. f_equal. apply IH. lia. }
      rewrite Fr. apply list_sum_repeat. }
    rewrite Ef. replace (q * dF)%nat with (q * dF + 0)%nat at 1 by lia. rewrite seq_shift_add, map_map.
    rewrite <- Rsum_tab. unfold tab. f_equal. apply map_ext_in. intros j Hj. apply in_seq in Hj. f_equal. f_equal.
    clear - Hq Hj. revert q Hq. induction o as [|m IH]; intros q Hq; [lia|]. cbn [repeat concat].
    destruct q as [|q].
    + rewrite app_nth1 by (rewrite seq_length; lia). cbn [Nat.mul Nat.add]. rewrite seq_nth; lia.
    + rewrite app_nth2 by (rewrite seq_length; nia). rewrite seq_length.
      replace (S q * dF + j - dF)%nat with (q * dF + j)%nat by nia. apply IH. lia.
Qed.
(** ... and with distribute=True the input dimensions are dealt out: every
    dimension belongs to exactly one output, the shares differ by at most one. *)
Theorem C88_jld_distribute : forall r out bias st ca F nF dF lF X n l,
  has_shape X n dF l -> has_shape F nF dF lF -> (1 <= nF)%nat -> (1 <= dF)%nat -> sized r -> Permutation (r_idx r 0) (seq 0 dF) ->
  ((dF < out dF)%nat -> fit_transform r (PLeaf (LJLD out true bias st) ca) F X = Err ValueError) /\
  ((1 <= out dF <= dF)%nat ->
  exists parts W B Y, fit_transform r (PLeaf (LJLD out true bias st) ca) F X = Ok Y /\ has_shape Y n (out dF) l /\
  length parts = out dF /\ Permutation (concat parts) (seq 0 dF) /\
  Forall (fun g => length g = (dF / out dF)%nat \/ length g = S (dF / out dF)) parts /\
  length W = dF /\ length B = out dF /\ (bias = false -> forall o, nth o B 0 = 0) /\
  forall i o t, (i < n)%nat -> (o < out dF)%nat -> (t < l)%nat ->
    let g := nth o parts [] in
    entry Y i o t = Rsum_upto (fun k => entry X i (nth k g 0%nat) t * nth (length (concat (firstn o parts)) + k) W 0) (length g)
                    + INR (length g) * nth o B 0).
Proof.
  intros r out bias st ca F nF dF lF X n l HX HF HnF HdF Hr Hp.
  assert (E0 : fit_transform r (PLeaf (LJLD out true bias st) ca) F X =
    let! g := jld_fit (out dF) true bias (hd [] (r_mat r 0 1 dF)) (hd [] (r_mat r 1 1 (out dF))) (r_idx r 0) dF in
    jld_transform (Some g) X).
  { rewrite fit_transform_leaf.
    - cbn [leaf_fit]. rewrite (dimX_shape F nF dF lF HF HnF). now destruct (jld_fit _ _ _ _ _ _ _).
    - intros inp inp' g Eg. cbn [leaf_fit] in Eg. destruct (jld_fit _ _ _ _ _ _ _); [|discriminate]. cbn [bind] in Eg.
      injection Eg as <-. reflexivity. }
  rewrite E0. split.
  - intros Ho. rewrite C45_jld_too_many_outputs by exact Ho. reflexivity.
  - intros Ho. set (o := out dF) in *. set (W := hd [] (r_mat r 0 1 dF)). set (B := if bias then hd [] (r_mat r 1 1 o) else zeros o).
    assert (LB : length B = o) by (unfold B; destruct bias; [now apply rows1|unfold zeros; apply repeat_length]).
    assert (Ej : jld_fit o true bias W (hd [] (r_mat r 1 1 o)) (r_idx r 0) dF =
      Ok {| jld_kernel := W; jld_bias := B; jld_ndim := group_sizes dF o; jld_dims := r_idx r 0 |}).
    { unfold jld_fit. replace (dF <? o)%nat with false by (symmetry; apply Nat.ltb_ge; lia). reflexivity. }
    rewrite Ej. cbn [bind].
    destruct (C45_jld_distribute o bias W (hd [] (r_mat r 1 1 o)) (r_idx r 0) dF _ ltac:(lia) Hp Ej) as (parts & Lp & Pp & Fp & Np).
    cbn [jld_dims jld_ndim] in Np.
    destruct (group_sizes_spec dF o ltac:(lia) ltac:(lia)) as [Lg [Sg [Fg _]]].
    destruct (C45_jld_projection W B (group_sizes dF o) (r_idx r 0) X n dF l HX HdF ltac:(now rewrite Lg)) as [Y [E [HY HSp]]].
    rewrite Lg in *. exists parts, W, B, Y. split; [exact E|]. split; [exact HY|]. split; [exact Lp|]. split; [exact Pp|].
    split; [exact Fp|]. split; [now apply rows1|]. split; [exact LB|]. split.
    + intros ->. intros k. unfold B, zeros. change (@nzero R _) with 0. generalize o. clear. intros o. revert k.
      induction o as [|o IH]; intros [|k]; cbn; auto.
    + intros i q t Hi Hq Ht. cbv zeta. rewrite HSp by assumption.
      assert (Lq : forall k, (k < o)%nat -> length (nth k parts []) = nth k (group_sizes dF o) 0%nat).
      { intros k Hk. rewrite Np by exact Hk. now rewrite map_length, seq_length. }
      rewrite (Lq q Hq). f_equal.
      assert (Off : length (concat (firstn q parts)) = list_sum (firstn q (group_sizes dF o))).
      { assert (A : map (@length nat) parts = group_sizes dF o).
        { apply (nth_ext _ _ 0%nat 0%nat); [now rewrite map_length, Lp, Lg|]. intros k Hk. rewrite map_length in Hk.
          rewrite (nth_indep _ 0%nat (length (@nil nat))) by (now rewrite map_length). rewrite map_nth. apply Lq. lia. }
        rewrite <- A, firstn_map. generalize (firstn q parts). clear. intros ps. induction ps as [|p ps IH]; [reflexivity|].
        cbn [concat map]. rewrite app_length, IH. reflexivity. }
      rewrite Off. set (off := list_sum (firstn q (group_sizes dF o))). set (m := nth q (group_sizes dF o) 0%nat).
      replace off with (off + 0)%nat at 1 by lia. rewrite seq_shift_add, map_map.
      rewrite <- Rsum_tab. unfold tab. f_equal. apply map_ext_in. intros k Hk. apply in_seq in Hk.
      f_equal. f_equal. rewrite Np by exact Hq. fold off m.
      assert (Q : forall g : nat -> nat, nth k (map g (seq off m)) 0%nat = g (off + k)%nat).
      { intros g. rewrite (nth_indep _ 0%nat (g 0%nat)) by (rewrite map_length, seq_length; lia).
        rewrite map_nth. now rewrite seq_nth by lia. }
      symmetry. apply Q.
Qed.

(** RIN with random kernels: [out_dim] outputs (all dimensions for a value
    below one), each the sum over its share of the input dimensions of the
    value minus the kernel applied to the [w] preceding values, where the
    window is at most the length of the TRAINING series minus one and the kernel
    of position j reads dimension dims[j] (see C46_documented_formula_refuted). *)
Definition rin_window (w : rin_width) (l : nat) : int :=
  match w with RWInt z => Z.min z (Z.of_nat l - 1) | RWFun g => g l end.
Theorem C88_rin : forall r w a out_dim force st ca F nF dF lF X n l,
  has_shape X n dF l -> has_shape F nF dF lF -> (1 <= nF)%nat -> (1 <= dF)%nat -> sized r -> Permutation (r_idx r 0) (seq 0 dF) ->
  (1 <= rin_window w lF)%Z ->
  let wd := Z.to_nat (rin_window w lF) in
  let out := if (0 <? out_dim)%Z then Z.to_nat out_dim else dF in
  ((Z.of_nat dF < out_dim)%Z -> fit_transform r (PLeaf (LRIN w a out_dim force None st) ca) F X = Err ValueError) /\
  ((out_dim <= Z.of_nat dF)%Z ->
  exists K ndim dims Y, fit_transform r (PLeaf (LRIN w a out_dim force None st) ca) F X = Ok Y /\ has_shape Y n out l /\
  length K = dF /\ Forall (fun k => length k = wd) K /\ (force = false -> Forall (fun k => Rsum k = 0) K) /\
  length ndim = out /\ list_sum ndim = dF /\ Forall (fun m => m = (dF / out)%nat \/ m = S (dF / out)) ndim /\ Permutation dims (seq 0 dF) /\
  forall i o t, (i < n)%nat -> (o < out)%nat -> (t < l)%nat ->
    entry Y i o t = if andb (negb a) (t <? wd)%nat then 0 else
      Rsum (map (fun j => entry X i j t -
          Rsum_upto (fun k => nth k (nth j K []) 0 * (if (t + k <? wd)%nat then 0 else entry X i (nth j dims 0%nat) (t + k - wd))) wd)
        (seq (list_sum (firstn o ndim)) (nth o ndim 0%nat)))).
Proof.
  intros r w a out_dim force st ca F nF dF lF X n l HX HF HnF HdF Hr Hp Hw wd out.
  assert (E0 : fit_transform r (PLeaf (LRIN w a out_dim force None st) ca) F X =
    let! g := rin_fit out_dim force (r_mat r 0 dF wd) (r_idx r 0) dF in rin_transform a (Some g) X).
  { assert (Ew : Z.to_nat (match w with RWFun g => g lF | RWInt z => Z.min z (Z.of_nat lF - 1) end) = wd)
      by (unfold wd, rin_window; now destruct w).
    rewrite fit_transform_leaf.
    - cbn [leaf_fit]. rewrite (dimX_shape F nF dF lF HF HnF), (lenX_shape F nF dF lF HF HnF HdF), Ew.
      now destruct (rin_fit out_dim force (r_mat r 0 dF wd) (r_idx r 0) dF).
    - intros inp inp' g Eg. cbn [leaf_fit] in Eg. destruct (rin_fit _ _ _ _ _); [|discriminate]. cbn [bind] in Eg.
      injection Eg as <-. reflexivity. }
  rewrite E0. split.
  - intros Ho. unfold rin_fit. replace (0 <? out_dim)%Z with true by (symmetry; apply Z.ltb_lt; lia).
    replace (dF <? Z.to_nat out_dim)%nat with true by (symmetry; apply Nat.ltb_lt; lia). reflexivity.
  - intros Ho. destruct (C46_fit out_dim force (r_mat r 0 dF wd) (r_idx r 0) dF HdF Ho) as (s & Es & L1 & D1 & L2 & S1 & F1 & R1).
    fold out in L1, F1. rewrite Es. cbn [bind]. destruct (Hr 0%nat dF wd) as [Lm Fm].
    assert (Rows : Forall (fun k => length k = wd) (rin_kernel s) /\ (force = false -> Forall (fun k => Rsum k = 0) (rin_kernel s))).
    { assert (Q : forall j k, nth_error (rin_kernel s) j = Some k -> length k = wd /\ (force = false -> Rsum k = 0)).
      { intros j k Ek. assert (Hj : (j < length (r_mat r 0 dF wd))%nat) by (rewrite <- L2; apply nth_error_Some; congruence).
        destruct (nth_error (r_mat r 0 dF wd) j) as [row|] eqn:Er; [|apply nth_error_None in Er; lia].
        assert (Lr : length row = wd) by (rewrite Forall_forall in Fm; apply Fm; now apply nth_error_In in Er).
        destruct (R1 j row Er) as (k' & Ek' & Lk & A & _). rewrite Ek in Ek'. injection Ek' as <-. split; [now rewrite Lk|].
        intros Ef. apply A; [exact Ef|]. intros ->. cbn in Lr. lia. }
      split; [|intros Ef]; apply Forall_forall; intros k Hk; apply In_nth_error in Hk as [j Hj];
        destruct (Q j k Hj) as [Q1 Q2]; auto. }
    assert (Ew : tlen (rin_kernel s) = wd).
    { destruct (rin_kernel s) as [|k K] eqn:EK; [cbn in L2; lia|]. destruct Rows as [Rw _]. cbn [tlen]. now apply Forall_inv in Rw. }
    assert (V : exists Y, rin_transform a (Some s) X = Ok Y /\ has_shape Y n (length (rin_ndim s)) l /\
      forall i o t, (i < n)%nat -> (o < length (rin_ndim s))%nat -> (t < l)%nat ->
      entry Y i o t = if andb (negb a) (t <? wd)%nat then 0 else
        Rsum (map (fun j => entry X i j t -
          Rsum_upto (fun k => nth k (nth j (rin_kernel s) []) 0 * (if (t + k <? wd)%nat then 0 else entry X i (nth j (rin_dims s) 0%nat) (t + k - wd))) wd)
        (seq (list_sum (firstn o (rin_ndim s))) (nth o (rin_ndim s) 0%nat)))).
    { destruct a; cbn [negb andb].
      - destruct (C46_rin_general_adaptive s X n dF l HX HdF S1) as [Y HSp]; [now rewrite D1|]. rewrite Ew in HSp. eauto.
      - destruct (C46_rin_general s X n dF l HX HdF) as [Y [E [HY HSp]]]. rewrite Ew in HSp. exists Y. split; [exact E|]. split; [exact HY|].
        intros i o t Hi Hoo Ht. rewrite HSp by assumption. destruct (Nat.ltb_spec t wd) as [|Hwt]; [reflexivity|]. f_equal.
        apply map_ext. intros j. f_equal. apply Rsum_upto_ext. intros k Hk.
        replace (t + k <? wd)%nat with false by (symmetry; apply Nat.ltb_ge; lia). now replace (t - wd + k)%nat with (t + k - wd)%nat by lia. }
    destruct V as [Y [E [HY HSp]]]. rewrite L1 in *. exists (rin_kernel s), (rin_ndim s), (rin_dims s), Y.
    split; [exact E|]. split; [exact HY|]. split; [lia|]. split; [apply Rows|]. split; [apply Rows|]. split; [exact L1|].
    split; [exact S1|]. split; [exact F1|]. split; [now rewrite D1|]. exact HSp.
Qed.
(** DIL: as many disjoint strips as clusters, drawn on the training set, are
    zero in every series. *)
Theorem C88_dil : forall r clusters st ca F nF dF X n d l,
  has_shape F nF dF l -> (1 <= nF)%nat -> (1 <= dF)%nat -> has_shape X n d l ->
  let k := match clusters with Some f => f l | None => if (l / 10 <=? 1)%nat then 1%Z else Z.of_nat (r_nat r 0) end in
  (0 <= k <= Z.of_nat l)%Z -> NoDup (r_idx r 0) -> Forall (fun a => (a < l)%nat) (r_idx r 0) -> length (r_idx r 0) = Z.to_nat k ->
  exists Y strips, fit_transform r (PLeaf (LDIL clusters st) ca) F X = Ok Y /\ has_shape Y n d l /\
    length strips = Z.to_nat k /\ disjoint_strips 0 strips l /\
    forall i j t, (i < n)%nat -> (j < d)%nat -> (t < l)%nat ->
      entry Y i j t = if existsb (fun p => in_strip p t) strips then 0 else entry X i j t.
Proof.
  intros r clusters st ca F nF dF X n d l HF HnF HdF HX k Hk ND FA Lk.
  destruct (C40_dil clusters (r_nat r 0) (r_idx r 0) (fun i => r_nat r (S i)) F nF dF l X n d HF HnF HdF HX) as (s & Y & strips & E1 & E2 & HSp); auto.
  exists Y, strips. split; [|exact HSp]. rewrite fit_transform_leaf.
  - cbn [leaf_fit]. rewrite E1. exact E2.
  - intros inp inp' g Eg. cbn [leaf_fit] in Eg. rewrite E1 in Eg. cbn [bind] in Eg. injection Eg as <-. reflexivity.
Qed.
(** DOT keeps first, first + n, first + 2n, ... where n and first are resolved
    on the training set; PDD puts its strips where the training length says. *)
Theorem C88_dot : forall r n first st ca F nF dF l X k d,
  has_shape F nF dF l -> (1 <= nF)%nat -> (1 <= dF)%nat -> (1 <= l)%nat -> has_shape X k d l ->
  (match n with DInt z => (1 <= z)%Z | DFloat f => (f l <= Z.of_nat l)%Z end) ->
  (match first with Some (DInt z) => (0 <= z)%Z | _ => True end) ->
  exists a b Y, (1 <= a)%nat /\ (b < l)%nat /\
    (forall z, n = DInt z -> a = Nat.min (Z.to_nat z) l) /\
    (forall z, first = Some (DInt z) -> b = Nat.min (Z.to_nat z) (l - 1)) /\
    (first = None -> b = (a - 1)%nat) /\
    fit_transform r (PLeaf (LDOT n first st) ca) F X = Ok Y /\ has_shape Y k d l /\
    forall i j t, (i < k)%nat -> (j < d)%nat -> (t < l)%nat ->
      ((exists q, t = (b + q * a)%nat) -> entry Y i j t = entry X i j t) /\
      (~ (exists q, t = (b + q * a)%nat) -> entry Y i j t = 0).
Proof.
  intros r n first st ca F nF dF l X k d HF HnF HdF Hl HX Hn Hf.
  destruct (C40_dot n first F nF dF l X k d HF HnF HdF Hl HX Hn Hf) as (a & b & Y & _ & A1 & A2 & A3 & A4 & A5 & E & HSp).
  exists a, b, Y. repeat (split; [assumption|]). split; [|exact HSp]. leafy. exact E.
Qed.
Theorem C88_pdd : forall r dn dd pn pd st ca F nF dF l X n d, has_shape F nF dF l -> (1 <= nF)%nat -> (1 <= dF)%nat ->
  has_shape X n d l ->
  let p := Nat.max (pn * l / pd) 1 in
  let points := Nat.max ((dd - dn) * l / dd) 1 in
  let w := (p / points)%nat in
  let m := if (points =? l - w)%nat then (points - 1)%nat else points in
  exists Y, fit_transform r (PLeaf (LPDD dn dd pn pd st) ca) F X = Ok Y /\ has_shape Y n d l /\
    forall i j t, (i < n)%nat -> (j < d)%nat -> (t < l)%nat ->
      ((exists q, (q < m)%nat /\ (q * (l - w) / (m - 1) <= t < q * (l - w) / (m - 1) + w)%nat) -> entry Y i j t = 0) /\
      (~ (exists q, (q < m)%nat /\ (q * (l - w) / (m - 1) <= t < q * (l - w) / (m - 1) + w)%nat) -> entry Y i j t = entry X i j t).
Proof.
  intros r dn dd pn pd st ca F nF dF l X n d HF HnF HdF HX p points w m. leafy.
  exact (C40_pdd_positions dn dd pn pd F nF dF l X n d HF HnF HdF HX).
Qed.
End C88.
Print Assumptions C88_std.
Print Assumptions C88_mav.
Print Assumptions C88_mav_float.
Print Assumptions C88_qtc.
Print Assumptions C88_rin_kernel.
Print Assumptions C88_jld.
Print Assumptions C88_jld_distribute.
Print Assumptions C88_rin.
Print Assumptions C88_dil.
Print Assumptions C88_dot.
Print Assumptions C88_pdd.

(** Non-vacuity: a shuffled pair of dimensions, one accepted matrix of every size. *)
Definition rand_ex : rand R :=
  {| r_nat := fun _ => 1%nat; r_idx := fun _ => [1; 0]%nat; r_mat := fun _ a b => repeat (repeat 1 b) a |}.
Lemma rand_ex_sized : sized rand_ex.
Proof.
  intros k a b. cbn [r_mat rand_ex]. split; [apply repeat_length|]. apply Forall_forall. intros x Hx. apply repeat_spec in Hx as ->.
  apply repeat_length.
Qed.
Example C88_ex : exists F X, has_shape F 1 2 2 /\ has_shape X 1 2 3 /\ sized rand_ex /\ Permutation (r_idx rand_ex 0) (seq 0 2) /\
  (1 <= rin_window (RWInt 24) 2)%Z /\ Z.to_nat (rin_window (RWInt 24) 2) = 1%nat /\
  fit_transform (fun _ => Err ValueError) (fun x _ => x) 1 rand_ex (PLeaf (LJLD (fun _ => 1%nat) true false None) None) F X = Ok [[[9; 11; 13]]] /\
  fit_transform (fun _ => Err ValueError) (fun x _ => x) 1 rand_ex (PLeaf (LMAV (WFloat Z.of_nat) None) None) F X
    = Ok [[[0; 5 / 2; 7 / 2]; [0; 15 / 2; 17 / 2]]].
Proof.
  exists [[[1; 2]; [3; 4]]], [[[2; 3; 4]; [7; 8; 9]]].
  split; [repeat constructor|]. split; [repeat constructor|]. split; [exact rand_ex_sized|]. split; [apply perm_swap|].
  split; [cbn; lia|]. split; [reflexivity|]. split; rcompute.
Qed.
