(** Lemmas on datasets and on the preparateurs INC, CTS, LAG, MAV. *)
From Coq Require Import List Arith ZArith Lia Bool Reals Lra.
From Verif Require Import Num Arr M_Str M_Np M_Prep S_ISS S_Prep L_Arr L_Np L_Tuples.
Import ListNotations.
Open Scope R_scope.

(** * Shapes *)
Lemma row_length X n d l i j : has_shape X n d l -> (i < n)%nat -> (j < d)%nat -> length (row X i j) = l.
Proof.
  intros [Hn HX] Hi Hj. rewrite Forall_forall in HX.
  destruct (HX (nth i X [])) as [Hd Hr]; [apply nth_In; lia|].
  rewrite Forall_forall in Hr. apply Hr. apply nth_In. lia.
Qed.
Lemma sample_length X n d l i : has_shape X n d l -> (i < n)%nat -> length (nth i X []) = d.
Proof.
  intros [Hn HX] Hi. rewrite Forall_forall in HX.
  destruct (HX (nth i X [])) as [Hd Hr]; [apply nth_In; lia|]. exact Hd.
Qed.
Lemma has_shape_map X n d l d' l' (g : list (list R) -> list (list R)) :
  has_shape X n d l ->
  (forall x, length x = d -> Forall (fun r => length r = l) x ->
     length (g x) = d' /\ Forall (fun r => length r = l') (g x)) ->
  has_shape (map g X) n d' l'.
Proof.
  intros [Hn HX] Hg. split; [now rewrite map_length|].
  rewrite Forall_forall in *. intros y Hy. apply in_map_iff in Hy as [x [<- Hx]].
  destruct (HX x Hx) as [H1 H2]. now apply Hg.
Qed.
Lemma has_shape_mapmap X n d l l' (g : list R -> list R) :
  has_shape X n d l -> (forall r, length r = l -> length (g r) = l') ->
  has_shape (map (map g) X) n d l'.
Proof.
  intros HX Hg. eapply has_shape_map; [exact HX|]. intros x H1 H2. split; [now rewrite map_length|].
  rewrite Forall_forall in *. intros y Hy. apply in_map_iff in Hy as [r [<- Hr]]. auto.
Qed.
Lemma row_mapmap X n d l (g : list R -> list R) i j :
  has_shape X n d l -> (i < n)%nat -> (j < d)%nat -> row (map (map g) X) i j = g (row X i j).
Proof.
  intros HX Hi Hj. unfold row.
  rewrite (nth_indep _ [] (map g [])) by (rewrite map_length; destruct HX; lia).
  rewrite map_nth.
  rewrite (nth_indep _ [] (g [])).
  2:{ rewrite map_length. erewrite sample_length; eauto. }
  now rewrite map_nth.
Qed.
Lemma mapM2_ok (f : list R -> res (list R)) g X n d l :
  has_shape X n d l -> (forall r, length r = l -> f r = Ok (g r)) ->
  mapM (mapM f) X = Ok (map (map g) X).
Proof.
  intros [Hn HX] E. apply mapM_ok. intros x Hx. apply mapM_ok. intros r Hr.
  apply E. rewrite Forall_forall in HX. destruct (HX x Hx) as [_ H2].
  rewrite Forall_forall in H2. now apply H2.
Qed.
Lemma mapM2_err (f : list R -> res (list R)) e X n d l :
  has_shape X n d l -> (1 <= n)%nat -> (1 <= d)%nat -> (forall r, length r = l -> f r = Err e) ->
  mapM (mapM f) X = Err e.
Proof.
  intros [Hn HX] H1 H2 E. apply mapM_err.
  - destruct X; cbn in *; [lia|discriminate].
  - intros x Hx. rewrite Forall_forall in HX. destruct (HX x Hx) as [Hd Hr].
    apply mapM_err.
    + destruct x; cbn in *; [lia|discriminate].
    + intros r Hrr. apply E. rewrite Forall_forall in Hr. now apply Hr.
Qed.
Lemma list_ext {A} (d : A) l1 l2 : length l1 = length l2 ->
  (forall i, (i < length l1)%nat -> nth i l1 d = nth i l2 d) -> l1 = l2.
Proof. intros. now apply (nth_ext _ _ d d). Qed.
Lemma dataset_ext X Y n d l : has_shape X n d l -> has_shape Y n d l ->
  (forall i j t, (i < n)%nat -> (j < d)%nat -> (t < l)%nat -> entry X i j t = entry Y i j t) -> X = Y.
Proof.
  intros HX HY E. pose proof HX as [Hn _]. pose proof HY as [Hn' _].
  apply (list_ext []); [lia|]. intros i Hi.
  apply (list_ext []).
  { rewrite (sample_length X n d l i HX), (sample_length Y n d l i HY) by lia. reflexivity. }
  intros j Hj. rewrite (sample_length X n d l i HX) in Hj by lia.
  change (row X i j = row Y i j).
  assert (L1 : length (row X i j) = l) by (eapply row_length; eauto; lia).
  assert (L2 : length (row Y i j) = l) by (eapply row_length; eauto; lia).
  apply (list_ext 0); [lia|]. intros t Ht. apply E; lia.
Qed.
Lemma lenX_shape X n d l : has_shape X n d l -> (1 <= n)%nat -> (1 <= d)%nat -> lenX X = l.
Proof.
  intros [Hn HX] H1 H2. destruct X as [|x X]; cbn in Hn; [lia|]. inversion HX as [|? ? [Hd Hr] ?]; subst.
  destruct x as [|r x]; cbn in H2; [lia|]. inversion Hr; subst. reflexivity.
Qed.
Lemma dimX_shape X n d l : has_shape X n d l -> (1 <= n)%nat -> dimX X = d.
Proof.
  intros [Hn HX] H1. destruct X as [|x X]; cbn in Hn; [lia|]. inversion HX as [|? ? [Hd Hr] ?]; subst.
  reflexivity.
Qed.
Lemma row_tab X n d l i j : has_shape X n d l -> (i < n)%nat -> (j < d)%nat ->
  row X i j = tab l (entry X i j).
Proof. intros HX Hi Hj. unfold entry. apply tab_eta'. eapply row_length; eauto. Qed.

(** Rows given by a function of the row: everything about [map (map g)]. *)
Lemma rowwise X n d l l' (g : list R -> list R) (h : (nat -> R) -> nat -> R) :
  has_shape X n d l -> (forall f, g (tab l f) = tab l' (h f)) ->
  has_shape (map (map g) X) n d l' /\
  forall i j t, (i < n)%nat -> (j < d)%nat -> (t < l')%nat ->
    entry (map (map g) X) i j t = h (entry X i j) t.
Proof.
  intros HX E. split.
  - eapply has_shape_mapmap; [exact HX|]. intros r Hr.
    rewrite (tab_eta' 0 l r Hr), E. apply tab_length.
  - intros i j t Hi Hj Ht. unfold entry at 1.
    rewrite (row_mapmap X n d l g i j HX Hi Hj), (row_tab X n d l i j HX Hi Hj), E.
    now rewrite tab_nth.
Qed.
Lemma rowwiseM X n d l l' (f : list R -> res (list R)) (h : (nat -> R) -> nat -> R) :
  has_shape X n d l -> (forall u, f (tab l u) = Ok (tab l' (h u))) ->
  exists Y, mapM (mapM f) X = Ok Y /\ has_shape Y n d l' /\
  forall i j t, (i < n)%nat -> (j < d)%nat -> (t < l')%nat -> entry Y i j t = h (entry X i j) t.
Proof.
  intros HX E.
  set (g := fun r : list R => tab l' (h (fun t => nth t r 0))).
  exists (map (map g) X). split.
  - eapply mapM2_ok; [exact HX|]. intros r Hr.
    rewrite (tab_eta' 0 l r Hr) at 1. rewrite E. reflexivity.
  - split.
    + eapply has_shape_mapmap; [exact HX|]. intros r Hr. apply tab_length.
    + intros i j t Hi Hj Ht. unfold entry at 1. rewrite (row_mapmap X n d l g i j HX Hi Hj).
      unfold g. rewrite tab_nth by exact Ht. reflexivity.
Qed.

(** * INC *)
Lemma increments1_tab s l (f : nat -> R) : (1 <= s)%nat ->
  increments1 (Z.of_nat s) (tab l f) = Ok (tab l (diff s f)).
Proof.
  intros Hs. unfold increments1. rewrite !py_slice_tab. cbn [lo_bound hi_bound].
  rewrite py_bound_nat, py_bound_opp by exact Hs. rewrite !tab_length.
  replace (l - Nat.min s l)%nat with (l - s)%nat by lia.
  rewrite Nat.sub_0_r, Nat.eqb_refl, tab_map2, zeros_tab.
  rewrite py_set_slice_tab by (cbn [lo_bound hi_bound]; rewrite py_bound_nat; lia).
  cbn [lo_bound hi_bound]. rewrite py_bound_nat. f_equal. apply tab_ext. intros t Ht.
  unfold diff. destruct (Nat.ltb_spec t s).
  - replace (Nat.min s l <=? t)%nat with false; [reflexivity|]. symmetry. apply Nat.leb_gt. lia.
  - replace (Nat.min s l <=? t)%nat with true by (symmetry; apply Nat.leb_le; lia).
    replace (t <? l)%nat with true by (symmetry; apply Nat.ltb_lt; lia). cbn [andb nsub RNum].
    replace (Nat.min s l) with s by lia. f_equal; f_equal; lia.
Qed.
Lemma increments1_zero l (r : list R) : (1 <= l)%nat -> length r = l ->
  increments1 0 r = Err ValueError.
Proof.
  intros Hl Hr. rewrite (tab_eta' 0 l r Hr). unfold increments1. rewrite !py_slice_tab.
  rewrite !tab_length. cbn [lo_bound hi_bound]. change (- 0)%Z with (Z.of_nat 0).
  change 0%Z with (Z.of_nat 0). rewrite py_bound_nat. rewrite Nat.min_l by lia.
  replace (l - 0 =? 0 - 0)%nat with false; [reflexivity|]. symmetry. apply Nat.eqb_neq. lia.
Qed.
Lemma increments_spec X n d l s : has_shape X n d l -> (1 <= s)%nat ->
  exists Y, increments (Z.of_nat s) X = Ok Y /\ has_shape Y n d l /\
  forall i j t, (i < n)%nat -> (j < d)%nat -> (t < l)%nat -> entry Y i j t = diff s (entry X i j) t.
Proof. intros HX Hs. apply (rowwiseM X n d l l _ (diff s)); [exact HX|]. intros u. now apply increments1_tab. Qed.

Lemma diff_ext s f g t : (forall u, (u <= t)%nat -> f u = g u) -> diff s f t = diff s g t.
Proof. intros E. unfold diff. destruct (t <? s)%nat; [reflexivity|]. rewrite !E by lia. reflexivity. Qed.
Lemma iterate_diff_ext m s f g t : (forall u, (u <= t)%nat -> f u = g u) ->
  iterate m (diff s) f t = iterate m (diff s) g t.
Proof.
  revert t. induction m as [|m IH]; intros t E; cbn [iterate]; [apply E; lia|].
  apply diff_ext. intros u Hu. apply IH. intros v Hv. apply E. lia.
Qed.
Lemma iterate_S_r {A} m (f : A -> A) x : iterate (S m) f x = iterate m f (f x).
Proof. induction m as [|m IH]; [reflexivity|]. cbn [iterate] in *. now rewrite IH. Qed.

Definition inc_k (c : inc_cfg) (l : nat) : int :=
  match inc_shift c with ShInt z => z | ShFun f => f l end.

Lemma inc_zero_padded_loop (c : inc_cfg) X0 s m : inc_zp c = true -> (1 <= s)%nat ->
  forall n d l X, has_shape X n d l ->
  exists Y, inc_loop c (Z.of_nat s) X0 m X = Ok Y /\ has_shape Y n d l /\
  forall i j t, (i < n)%nat -> (j < d)%nat -> (t < l)%nat ->
    entry Y i j t = iterate m (diff s) (entry X i j) t.
Proof.
  intros Hzp Hs n d l. induction m as [|m IH]; intros X HX.
  - exists X. cbn [inc_loop iterate]. auto.
  - cbn [inc_loop]. unfold inc_step.
    destruct (increments_spec X n d l s HX Hs) as [Y [E1 [HY E2]]].
    rewrite E1. cbn [bind]. rewrite Hzp. cbn [bind].
    destruct (IH Y HY) as [Z [F1 [HZ F2]]]. exists Z. split; [exact F1|]. split; [exact HZ|].
    intros i j t Hi Hj Ht. rewrite F2 by assumption. rewrite iterate_S_r.
    apply iterate_diff_ext. intros u Hu. apply E2; lia.
Qed.
Lemma inc_zero_padded (c : inc_cfg) X n d l s :
  has_shape X n d l -> (1 <= n)%nat -> (1 <= d)%nat -> (1 <= s)%nat ->
  inc_k c l = Z.of_nat s -> inc_zp c = true ->
  exists Y, inc_transform c X = Ok Y /\ has_shape Y n d l /\
  forall i j t, (i < n)%nat -> (j < d)%nat -> (t < l)%nat ->
    entry Y i j t = iterate (inc_depth c) (diff s) (entry X i j) t.
Proof.
  intros HX Hn Hd Hs Hk Hzp. unfold inc_transform.
  rewrite (lenX_shape X n d l HX Hn Hd). unfold inc_k in Hk. rewrite Hk.
  now apply inc_zero_padded_loop.
Qed.

(** Without zero padding: after [m] steps [iterate m (strided_sum s)] gives X back. *)
Lemma map2M_ok {A B C} (f : A -> B -> res C) g l1 l2 :
  (forall a b, In a l1 -> In b l2 -> f a b = Ok (g a b)) -> map2M f l1 l2 = Ok (map2 g l1 l2).
Proof.
  revert l2. induction l1 as [|x l1 IH]; intros [|y l2] E; cbn [map2M map2]; try reflexivity.
  rewrite E by now left. cbn [bind]. rewrite IH; [reflexivity|].
  intros a b Ha Hb. apply E; now right.
Qed.
Definition keep_first (s : nat) (x out : nat -> R) (t : nat) : R := if (t <? s)%nat then x t else out t.
Lemma inc_prefix1_tab s l (f g : nat -> R) :
  inc_prefix1 (Z.of_nat s) (tab l f) (tab l g) = Ok (tab l (keep_first s f g)).
Proof.
  unfold inc_prefix1. rewrite py_slice_tab. rewrite py_set_slice_tab by reflexivity.
  cbn [lo_bound hi_bound]. rewrite py_bound_nat. f_equal. apply tab_ext. intros t Ht.
  unfold keep_first. cbn [Nat.leb andb]. rewrite Nat.sub_0_r. cbn [Nat.add].
  destruct (Nat.ltb_spec t s), (Nat.ltb_spec t (Nat.min s l)); try reflexivity; lia.
Qed.
Lemma map2_shape {g : list R -> list R -> list R} X Y n d l l' :
  has_shape X n d l -> has_shape Y n d l ->
  (forall r q, length r = l -> length q = l -> length (g r q) = l') ->
  has_shape (map2 (map2 g) X Y) n d l' /\
  forall i j, (i < n)%nat -> (j < d)%nat -> row (map2 (map2 g) X Y) i j = g (row X i j) (row Y i j).
Proof.
  intros HX HY Hg. pose proof HX as [Hn FX]. pose proof HY as [Hn' FY].
  assert (S : forall i, (i < n)%nat -> nth i (map2 (map2 g) X Y) [] = map2 g (nth i X []) (nth i Y [])).
  { intros i Hi. apply map2_nth; lia. }
  assert (Rw : forall i j, (i < n)%nat -> (j < d)%nat -> row (map2 (map2 g) X Y) i j = g (row X i j) (row Y i j)).
  { intros i j Hi Hj. unfold row. rewrite S by exact Hi.
    apply map2_nth; erewrite sample_length; eauto. }
  split; [|exact Rw].
  split; [rewrite map2_length; lia|].
  apply Forall_forall. intros y Hy. apply (In_nth _ _ []) in Hy as [i [Hi <-]].
  rewrite map2_length in Hi. assert (Hi' : (i < n)%nat) by lia. rewrite S by exact Hi'.
  split.
  - rewrite map2_length. erewrite !sample_length; eauto. lia.
  - apply Forall_forall. intros r Hr. apply (In_nth _ _ []) in Hr as [j [Hj <-]].
    rewrite map2_length in Hj. erewrite !sample_length in Hj by eauto.
    assert (Hj' : (j < d)%nat) by lia.
    pose proof (Rw i j Hi' Hj') as Q. unfold row in Q. rewrite S in Q by exact Hi'. rewrite Q.
    apply Hg; eapply row_length; eauto.
Qed.
Lemma inc_step_nopad (c : inc_cfg) X Y n d l s : inc_zp c = false -> inc_shift c = ShInt (Z.of_nat s) ->
  (1 <= s)%nat -> has_shape X n d l -> has_shape Y n d l ->
  exists Z, inc_step c (Z.of_nat s) X Y = Ok Z /\ has_shape Z n d l /\
  forall i j t, (i < n)%nat -> (j < d)%nat -> (t < l)%nat ->
    entry Z i j t = if (t <? s)%nat then entry X i j t else entry Y i j t - entry Y i j (t - s).
Proof.
  intros Hzp Hsh Hs HX HY. unfold inc_step.
  destruct (increments_spec Y n d l s HY Hs) as [W [E1 [HW E2]]].
  rewrite E1. cbn [bind]. rewrite Hzp, Hsh.
  set (g := fun r q : list R => tab l (keep_first s (fun t => nth t r 0) (fun t => nth t q 0))).
  exists (map2 (map2 g) X W).
  destruct (map2_shape (g := g) X W n d l l HX HW) as [S1 S2].
  { intros. apply tab_length. }
  split; [|split; [exact S1|]].
  - apply map2M_ok. intros x w Hx Hw. apply map2M_ok. intros r q Hr Hq.
    destruct HX as [_ FX]. destruct HW as [_ FW]. rewrite Forall_forall in FX, FW.
    destruct (FX x Hx) as [_ Fx]. destruct (FW w Hw) as [_ Fw]. rewrite Forall_forall in Fx, Fw.
    rewrite (tab_eta' 0 l r) at 1 by auto. rewrite (tab_eta' 0 l q) at 1 by auto.
    apply inc_prefix1_tab.
  - intros i j t Hi Hj Ht. unfold entry at 1. rewrite S2 by assumption. unfold g.
    rewrite tab_nth by exact Ht. unfold keep_first. destruct (Nat.ltb_spec t s) as [Hlt|Hge].
    + reflexivity.
    + fold (entry W i j t). rewrite E2 by assumption. unfold diff.
      destruct (Nat.ltb_spec t s); [lia|reflexivity].
Qed.

Lemma Rsum_upto_ext f g n : (forall i, (i < n)%nat -> f i = g i) -> Rsum_upto f n = Rsum_upto g n.
Proof.
  induction n as [|n IH]; intros E; cbn [Rsum_upto]; [reflexivity|].
  rewrite IH by (intros; apply E; lia). now rewrite E by lia.
Qed.
Lemma Rsum_upto_S_l f n : Rsum_upto f (S n) = f 0%nat + Rsum_upto (fun i => f (S i)) n.
Proof. induction n as [|n IH]; cbn [Rsum_upto] in *; [lra|]. rewrite IH. lra. Qed.
Lemma strided_sum_rec s f t : (1 <= s)%nat ->
  strided_sum s f t = if (t <? s)%nat then f t else f t + strided_sum s f (t - s).
Proof.
  intros Hs. unfold strided_sum. destruct (Nat.ltb_spec t s) as [H|H].
  - rewrite Nat.div_small by exact H. cbn [Rsum_upto]. rewrite Nat.mul_0_l, Nat.sub_0_r. lra.
  - replace (t / s)%nat with (S ((t - s) / s)).
    + rewrite Rsum_upto_S_l. rewrite Nat.mul_0_l, Nat.sub_0_r. f_equal.
      apply Rsum_upto_ext. intros i _. f_equal. cbn [Nat.mul]. lia.
    + replace t with ((t - s) + 1 * s)%nat at 2 by lia. rewrite Nat.div_add by lia. lia.
Qed.
Lemma strided_sum_ext s f g t : (forall u, (u <= t)%nat -> f u = g u) -> strided_sum s f t = strided_sum s g t.
Proof. intros E. apply Rsum_upto_ext. intros i _. apply E. lia. Qed.
Lemma iterate_strided_ext m s f g t : (forall u, (u <= t)%nat -> f u = g u) ->
  iterate m (strided_sum s) f t = iterate m (strided_sum s) g t.
Proof.
  revert t. induction m as [|m IH]; intros t E; cbn [iterate]; [apply E; lia|].
  apply strided_sum_ext. intros u Hu. apply IH. intros v Hv. apply E. lia.
Qed.
(** One unpadded step is inverted by the strided sum. *)
Lemma strided_inverts s (x y z : nat -> R) l : (1 <= s)%nat ->
  (forall t, (t < s)%nat -> (t < l)%nat -> x t = y t) ->
  (forall t, (t < l)%nat -> z t = if (t <? s)%nat then x t else y t - y (t - s)%nat) ->
  forall t, (t < l)%nat -> strided_sum s z t = y t.
Proof.
  intros Hs Hxy Hz t. induction t as [t IH] using lt_wf_ind. intros Ht.
  rewrite strided_sum_rec by exact Hs. rewrite Hz by exact Ht.
  destruct (Nat.ltb_spec t s) as [H|H]; [apply Hxy; auto|].
  rewrite IH by lia. lra.
Qed.
Lemma inc_nopad_loop (c : inc_cfg) X n d l s : inc_zp c = false -> inc_shift c = ShInt (Z.of_nat s) ->
  (1 <= s)%nat -> has_shape X n d l ->
  forall m Y, has_shape Y n d l ->
  (forall i j t, (i < n)%nat -> (j < d)%nat -> (t < s)%nat -> (t < l)%nat -> entry X i j t = entry Y i j t) ->
  exists Z, inc_loop c (Z.of_nat s) X m Y = Ok Z /\ has_shape Z n d l /\
  forall i j t, (i < n)%nat -> (j < d)%nat -> (t < l)%nat ->
    iterate m (strided_sum s) (entry Z i j) t = entry Y i j t.
Proof.
  intros Hzp Hsh Hs HX. induction m as [|m IH]; intros Y HY HXY.
  - exists Y. cbn. auto.
  - cbn [inc_loop]. destruct (inc_step_nopad c X Y n d l s Hzp Hsh Hs HX HY) as [W [E1 [HW E2]]].
    rewrite E1. cbn [bind]. destruct (IH W HW) as [Z [F1 [HZ F2]]].
    { intros i j t Hi Hj Ht Hl. rewrite E2 by assumption. destruct (Nat.ltb_spec t s); [reflexivity|lia]. }
    exists Z. split; [exact F1|]. split; [exact HZ|]. intros i j t Hi Hj Ht. cbn [iterate].
    rewrite (strided_sum_ext s _ (entry W i j)) by (intros u Hu; apply F2; lia).
    apply (strided_inverts s (entry X i j) (entry Y i j) (entry W i j) l); auto.
Qed.
Lemma inc_nopad_restores (c : inc_cfg) X n d l s :
  has_shape X n d l -> (1 <= s)%nat -> inc_shift c = ShInt (Z.of_nat s) -> inc_zp c = false ->
  exists Y, inc_transform c X = Ok Y /\ has_shape Y n d l /\
  forall i j t, (i < n)%nat -> (j < d)%nat -> (t < l)%nat ->
    iterate (inc_depth c) (strided_sum s) (entry Y i j) t = entry X i j t.
Proof.
  intros HX Hs Hsh Hzp. unfold inc_transform. rewrite Hsh.
  apply inc_nopad_loop; auto.
Qed.

Lemma inc_shift_zero (c : inc_cfg) X n d l : has_shape X n d l -> (1 <= n)%nat -> (1 <= d)%nat -> (1 <= l)%nat ->
  (1 <= inc_depth c)%nat -> inc_k c l = 0%Z -> inc_transform c X = Err ValueError.
Proof.
  intros HX Hn Hd Hl Hm Hk. unfold inc_transform. rewrite (lenX_shape X n d l HX Hn Hd).
  unfold inc_k in Hk. rewrite Hk. destruct (inc_depth c) as [|m]; [lia|]. cbn [inc_loop].
  unfold inc_step, increments.
  rewrite (mapM2_err _ ValueError X n d l HX Hn Hd); [reflexivity|].
  intros r Hr. now apply (increments1_zero l).
Qed.
Lemma inc_fun_nopad (c : inc_cfg) X n d l f s : has_shape X n d l -> (1 <= n)%nat -> (1 <= d)%nat ->
  (1 <= inc_depth c)%nat -> inc_shift c = ShFun f -> f l = Z.of_nat s -> (1 <= s)%nat -> inc_zp c = false ->
  inc_transform c X = Err TypeError.
Proof.
  intros HX Hn Hd Hm Hsh Hf Hs Hzp. unfold inc_transform.
  rewrite (lenX_shape X n d l HX Hn Hd). rewrite Hsh, Hf.
  destruct (inc_depth c) as [|m]; [lia|]. cbn [inc_loop]. unfold inc_step.
  destruct (increments_spec X n d l s HX Hs) as [W [E1 _]]. rewrite E1. cbn [bind].
  now rewrite Hzp, Hsh.
Qed.

(** Consequences: translation invariance and linearity. *)
Lemma diff_linear s a b f g t :
  diff s (fun u => a * f u + b * g u) t = a * diff s f t + b * diff s g t.
Proof. unfold diff. destruct (t <? s)%nat; lra. Qed.
Lemma iterate_diff_linear m s a b f g t :
  iterate m (diff s) (fun u => a * f u + b * g u) t =
  a * iterate m (diff s) f t + b * iterate m (diff s) g t.
Proof.
  revert t. induction m as [|m IH]; intros t; cbn [iterate]; [reflexivity|].
  rewrite <- diff_linear. apply diff_ext. intros u _. apply IH.
Qed.
Lemma iterate_diff_const m s c f t : (1 <= m)%nat ->
  iterate m (diff s) (fun u => f u + c) t = iterate m (diff s) f t.
Proof.
  destruct m as [|m]; [lia|]. intros _. rewrite !iterate_S_r. apply iterate_diff_ext.
  intros u _. unfold diff. destruct (u <? s)%nat; lra.
Qed.

Lemma cts_row_tab s l (f : nat -> R) : (1 <= s)%nat -> (1 <= l)%nat ->
  cts_row false (Z.of_nat s) (tab l f) = Ok (tab l (shifted s l f)).
Proof.
  intros Hs Hl. unfold cts_row. rewrite py_slice_tab.
  rewrite py_set_slice_tab by (cbn [lo_bound hi_bound]; rewrite py_bound_nat, py_bound_opp by exact Hs; lia).
  cbn [bind]. cbn [lo_bound hi_bound]. rewrite py_bound_nat, py_bound_opp by exact Hs.
  rewrite py_slice_tab. cbn [lo_bound hi_bound].
  change (-1)%Z with (- Z.of_nat 1)%Z. rewrite (py_bound_opp l 1) by lia.
  replace (l - (l - 1))%nat with 1%nat by lia.
  assert (Hlast : forall u, (u < 1)%nat ->
    (if (0 <=? l - 1 + u)%nat && (l - 1 + u <? l - s)%nat
     then f (Nat.min s l + (l - 1 + u - 0))%nat else f (l - 1 + u)%nat) = f (l - 1)%nat).
  { intros u Hu. replace u with 0%nat by lia.
    replace (l - 1 + 0 <? l - s)%nat with false by (symmetry; apply Nat.ltb_ge; lia).
    cbn [Nat.leb andb]. f_equal. lia. }
  rewrite (tab_ext 1 _ _ Hlast). clear Hlast.
  set (m := (l - (l - s))%nat).
  destruct (Nat.eq_dec m 1) as [Em|Em].
  - rewrite py_set_slice_tab by (cbn [lo_bound hi_bound]; rewrite py_bound_opp by exact Hs; lia).
    cbn [lo_bound hi_bound]. rewrite py_bound_opp by exact Hs. f_equal. apply tab_ext.
    intros t Ht. unfold shifted. cbn [Nat.leb andb].
    destruct (Nat.leb_spec (l - s) t); destruct (Nat.ltb_spec t l); cbn [andb]; try lia.
    + destruct (Nat.ltb_spec (t + s) l); [lia|reflexivity].
    + destruct (Nat.ltb_spec t (l - s)); [|lia]. destruct (Nat.ltb_spec (t + s) l); [|lia].
      f_equal. lia.
  - unfold py_set_slice. rewrite !tab_length. cbn [lo_bound hi_bound].
    rewrite py_bound_opp by exact Hs. fold m.
    replace (1 =? m)%nat with false by (symmetry; apply Nat.eqb_neq; lia).
    cbn [tab seq map]. rewrite tab_repeat.
    rewrite splice_tab by lia. f_equal. apply tab_ext. intros t Ht. unfold shifted.
    cbn [Nat.leb andb].
    destruct (Nat.leb_spec (l - s) t); destruct (Nat.ltb_spec t (l - s + m)); cbn [andb]; try lia.
    + destruct (Nat.ltb_spec (t + s) l); [lia|reflexivity].
    + destruct (Nat.ltb_spec t (l - s)); [|lia]. destruct (Nat.ltb_spec (t + s) l); [|lia].
      f_equal. lia.
Qed.
Lemma cts_row_pseudo_tab s l (f : nat -> R) :
  cts_row true (Z.of_nat s) (tab l f) = Ok (tab l (fun t => if (t <? s)%nat then 0 else f t)).
Proof.
  unfold cts_row. rewrite py_fill_slice_tab. cbn [lo_bound hi_bound]. rewrite py_bound_nat.
  f_equal. apply tab_ext. intros t Ht. cbn [Nat.leb andb].
  destruct (Nat.ltb_spec t s), (Nat.ltb_spec t (Nat.min s l)); try reflexivity; lia.
Qed.
Definition cts_k (c : cts_arg) (l : nat) : int :=
  match c with CInt z => z | CFrac f => Z.max 1 (f l) end.
Lemma cts_spec c X n d l s : has_shape X n d l -> (1 <= n)%nat -> (1 <= d)%nat -> (1 <= l)%nat ->
  cts_k c l = Z.of_nat s -> (1 <= s)%nat ->
  exists Y, cts_transform c false X = Ok Y /\ has_shape Y n d l /\
  forall i j t, (i < n)%nat -> (j < d)%nat -> (t < l)%nat -> entry Y i j t = shifted s l (entry X i j) t.
Proof.
  intros HX Hn Hd Hl Hk Hs. unfold cts_transform. rewrite (lenX_shape X n d l HX Hn Hd).
  unfold cts_k in Hk. rewrite Hk. apply (rowwiseM X n d l l _ (shifted s l)); [exact HX|]. intros u. now apply cts_row_tab.
Qed.
Lemma cts_pseudo_spec c X n d l s : has_shape X n d l -> (1 <= n)%nat -> (1 <= d)%nat ->
  cts_k c l = Z.of_nat s ->
  exists Y, cts_transform c true X = Ok Y /\ has_shape Y n d l /\
  forall i j t, (i < n)%nat -> (j < d)%nat -> (t < l)%nat ->
    entry Y i j t = if (t <? s)%nat then 0 else entry X i j t.
Proof.
  intros HX Hn Hd Hk. unfold cts_transform. rewrite (lenX_shape X n d l HX Hn Hd).
  unfold cts_k in Hk. rewrite Hk.
  apply (rowwiseM X n d l l _ (fun u t => if (t <? s)%nat then 0 else u t)); [exact HX|].
  intros u. apply cts_row_pseudo_tab.
Qed.
Lemma cts_zero c X n d l : has_shape X n d l -> (1 <= n)%nat -> (1 <= d)%nat -> (2 <= l)%nat ->
  cts_k c l = 0%Z -> cts_transform c false X = Err ValueError.
Proof.
  intros HX Hn Hd Hl Hk. unfold cts_transform. rewrite (lenX_shape X n d l HX Hn Hd).
  unfold cts_k in Hk. rewrite Hk. apply (mapM2_err _ ValueError X n d l); auto.
  intros r Hr. rewrite (tab_eta' 0 l r Hr). unfold cts_row. rewrite py_slice_tab.
  unfold py_set_slice. rewrite !tab_length. cbn [lo_bound hi_bound].
  change (- 0)%Z with (Z.of_nat 0). change 0%Z with (Z.of_nat 0). rewrite py_bound_nat.
  rewrite Nat.min_l by lia.
  replace (l - 0 =? 0 - 0)%nat with false by (symmetry; apply Nat.eqb_neq; lia).
  replace (l - 0)%nat with (S (S (l - 2))) by lia. reflexivity.
Qed.
Lemma shifted_shifted s s' l f t : (t < l)%nat ->
  shifted s' l (shifted s l f) t = shifted (s' + s) l f t.
Proof.
  intros Ht. unfold shifted.
  destruct (Nat.ltb_spec (t + s') l), (Nat.ltb_spec (t + (s' + s)) l),
    (Nat.ltb_spec (t + s' + s) l), (Nat.ltb_spec (l - 1 + s) l); try lia; try reflexivity; f_equal; lia.
Qed.

(** * LAG *)
Lemma set_strided_tab a step m n (v f : nat -> R) :
  (forall t, (a <= t)%nat -> (t < n)%nat -> ((t - a) mod step = 0)%nat -> ((t - a) / step < m)%nat) ->
  set_strided a step (tab m v) (tab n f) =
  tab n (fun t => if (a <=? t)%nat && ((t - a) mod step =? 0)%nat then v ((t - a) / step)%nat else f t).
Proof.
  intros Hm. unfold set_strided. rewrite tab_length.
  change (map ?h (seq 0 n)) with (tab n h). apply tab_ext. intros t Ht.
  destruct (Nat.leb_spec a t); cbn [andb]; [|now rewrite tab_nth].
  destruct (Nat.eqb_spec ((t - a) mod step) 0)%nat; [|now rewrite tab_nth].
  rewrite tab_nth by auto. reflexivity.
Qed.
Definition lag_lead (f : nat -> R) (t : nat) : R := f ((t + 1) / 2)%nat.
Definition lag_lag (f : nat -> R) (t : nat) : R := f (t / 2)%nat.
Lemma removelast_tab {A} n (f : nat -> A) : removelast (tab n f) = tab (n - 1) f.
Proof.
  destruct n as [|n]; [reflexivity|]. rewrite tab_snoc, removelast_last. f_equal. lia.
Qed.
Lemma even_or_odd t : exists k, t = (2 * k)%nat \/ t = (2 * k + 1)%nat.
Proof. exists (t / 2)%nat. pose proof (Nat.div_mod t 2). pose proof (Nat.mod_upper_bound t 2). lia. Qed.
Lemma lag_pair_tab l (f : nat -> R) : (1 <= l)%nat ->
  lag_pair (tab l f) = [tab (2 * l - 1) (lag_lead f); tab (2 * l - 1) (lag_lag f)].
Proof.
  intros Hl. unfold lag_pair. rewrite tab_length, zeros_tab, removelast_tab, skipn_tab.
  rewrite !(set_strided_tab 0 2 l (2 * l - 1)).
  2:{ intros t _ Ht _. rewrite Nat.sub_0_r. apply Nat.div_lt_upper_bound; lia. }
  rewrite !(set_strided_tab 1 2 (l - 1) (2 * l - 1)).
  2, 3: (intros t H1t Ht _; apply Nat.div_lt_upper_bound; lia).
  assert (D1 : forall k, ((2 * k) / 2 = k)%nat) by (intros; rewrite Nat.mul_comm; apply Nat.div_mul; lia).
  assert (D2 : forall k, ((2 * k + 1) / 2 = k)%nat) by (intros; rewrite Nat.mul_comm, Nat.div_add_l by lia; cbn; lia).
  assert (M1 : forall k, ((2 * k) mod 2 = 0)%nat) by (intros; rewrite Nat.mul_comm; apply Nat.mod_mul; lia).
  assert (M2 : forall k, ((2 * k + 1) mod 2 = 1)%nat) by (intros; rewrite Nat.add_comm, (Nat.mul_comm 2), Nat.mod_add by lia; reflexivity).
  f_equal; [|f_equal]; apply tab_ext; intros t Ht; unfold lag_lead, lag_lag;
    destruct (even_or_odd t) as [k [-> | ->]].
  - replace ((2 * k + 1) / 2)%nat with k by now rewrite D2.
    destruct (Nat.leb_spec 1 (2 * k)); cbn [andb].
    + replace (2 * k - 1)%nat with (2 * (k - 1) + 1)%nat by lia. rewrite M2. cbn [Nat.eqb].
      cbn [Nat.leb andb]. rewrite Nat.sub_0_r, M1, D1. reflexivity.
    + cbn [Nat.leb andb]. rewrite Nat.sub_0_r, M1, D1. reflexivity.
  - replace (2 * k + 1 - 1)%nat with (2 * k)%nat by lia. rewrite M1, D1.
    replace (1 <=? 2 * k + 1)%nat with true by (symmetry; apply Nat.leb_le; lia). cbn [andb Nat.eqb].
    replace (2 * k + 1 + 1)%nat with (2 * (k + 1))%nat by lia. rewrite D1. f_equal. lia.
  - rewrite D1. destruct (Nat.leb_spec 1 (2 * k)); cbn [andb].
    + replace (2 * k - 1)%nat with (2 * (k - 1) + 1)%nat by lia. rewrite M2. cbn [Nat.eqb].
      cbn [Nat.leb andb]. rewrite Nat.sub_0_r, M1, D1. reflexivity.
    + cbn [Nat.leb andb]. rewrite Nat.sub_0_r, M1, D1. reflexivity.
  - replace (2 * k + 1 - 1)%nat with (2 * k)%nat by lia. rewrite M1, D1, D2.
    replace (1 <=? 2 * k + 1)%nat with true by (symmetry; apply Nat.leb_le; lia). reflexivity.
Qed.
Lemma nth_flat_map_pair {A} (p : A -> list A) (d : A) l a b :
  (forall x, In x l -> length (p x) = 2%nat) -> (a < length l)%nat -> (b < 2)%nat ->
  nth (2 * a + b) (flat_map p l) d = nth b (p (nth a l d)) d.
Proof.
  revert a. induction l as [|x l IH]; intros a Hp Ha Hb; cbn [length] in Ha; [lia|].
  cbn [flat_map]. pose proof (Hp x (or_introl eq_refl)) as Hx. destruct a as [|a].
  - cbn [Nat.mul Nat.add nth]. rewrite app_nth1 by lia. reflexivity.
  - rewrite app_nth2 by lia. rewrite Hx. replace (2 * S a + b - 2)%nat with (2 * a + b)%nat by lia.
    cbn [nth]. apply IH; [|lia|exact Hb]. intros y Hy. apply Hp. now right.
Qed.
Lemma lag_spec X n d l : has_shape X n d l -> (1 <= n)%nat -> (1 <= d)%nat -> (1 <= l)%nat ->
  exists Y, lag_transform X = Ok Y /\ has_shape Y n (2 * d) (2 * l - 1) /\
  forall i j t, (i < n)%nat -> (j < d)%nat -> (t < 2 * l - 1)%nat ->
    entry Y i (2 * j) t = lag_lead (entry X i j) t /\ entry Y i (2 * j + 1) t = lag_lag (entry X i j) t.
Proof.
  intros HX Hn Hd Hl. unfold lag_transform. rewrite (lenX_shape X n d l HX Hn Hd).
  replace (l =? 0)%nat with false by (symmetry; apply Nat.eqb_neq; lia).
  exists (map (flat_map lag_pair) X). split; [reflexivity|].
  assert (P : forall r, length r = l -> lag_pair r = [tab (2 * l - 1) (lag_lead (fun t => nth t r 0)); tab (2 * l - 1) (lag_lag (fun t => nth t r 0))]).
  { intros r Hr. rewrite (tab_eta' 0 l r Hr) at 1. now apply lag_pair_tab. }
  split.
  - eapply has_shape_map; [exact HX|]. intros x Hx Hr. subst d. clear HX Hd.
    induction Hr as [|r x Hr1 Hr2 IH]; [split; [reflexivity|constructor]|].
    destruct IH as [I1 I2]. cbn [flat_map]. rewrite P by exact Hr1. cbn [app]. split.
    + cbn [length]. rewrite I1. lia.
    + repeat apply Forall_cons; try apply tab_length. exact I2.
  - intros i j t Hi Hj Ht.
    assert (Q : forall b, (b < 2)%nat -> row (map (flat_map lag_pair) X) i (2 * j + b) = nth b (lag_pair (row X i j)) []).
    { intros b Hb. unfold row at 1.
      rewrite (nth_indep _ [] (flat_map lag_pair [])) by (rewrite map_length; destruct HX; lia).
      rewrite map_nth. apply nth_flat_map_pair.
      - intros r Hr. rewrite P; [reflexivity|]. destruct HX as [Hn' HX]. rewrite Forall_forall in HX.
        destruct (HX (nth i X [])) as [_ H2]; [apply nth_In; lia|]. rewrite Forall_forall in H2. auto.
      - erewrite sample_length; eauto.
      - exact Hb. }
    unfold entry at 1 3. split.
    + replace (2 * j)%nat with (2 * j + 0)%nat by lia. rewrite Q by lia.
      rewrite P by (eapply row_length; eauto). cbn [nth]. rewrite tab_nth by exact Ht. reflexivity.
    + rewrite Q by lia.
      rewrite P by (eapply row_length; eauto). cbn [nth]. rewrite tab_nth by exact Ht. reflexivity.
Qed.

(** * Sums, MAV *)
Lemma fold_left_Rplus l a : fold_left Rplus l a = a + Rsum l.
Proof.
  revert a. induction l as [|x l IH]; intros a; cbn [fold_left]; [cbn; lra|].
  rewrite IH, Rsum_cons. lra.
Qed.
Lemma vsum_Rsum (l : list R) : vsum l = Rsum l.
Proof. unfold vsum. cbn [nadd nzero RNum]. rewrite fold_left_Rplus. lra. Qed.
Lemma Rsum_tab n f : Rsum (tab n f) = Rsum_upto f n.
Proof.
  induction n as [|n IH]; [reflexivity|]. rewrite tab_snoc, Rsum_app, IH. cbn. lra.
Qed.
Lemma vsum_tab n (f : nat -> R) : vsum (tab n f) = Rsum_upto f n.
Proof. now rewrite vsum_Rsum, Rsum_tab. Qed.
Lemma nofnat_INR n : @nofnat R RNum n = INR n.
Proof. unfold nofnat. cbn. symmetry. apply INR_IZR_INZ. Qed.

Lemma mav_row_tab w l (f : nat -> R) : mav_row w (tab l f) = tab l (moving_avg w f).
Proof.
  unfold mav_row. rewrite tab_length. change (map ?h (seq 0 l)) with (tab l h).
  apply tab_ext. intros t Ht. unfold moving_avg. destruct (Nat.leb_spec w (S t)); [|reflexivity].
  rewrite skipn_tab, firstn_tab by lia. rewrite vsum_tab, nofnat_INR. cbn [ndiv RNum].
  unfold Rsum_range. replace (S t - (S t - w))%nat with w by lia. reflexivity.
Qed.
