(** Filters, wrappers, random projections, rotations, weighting lookups. *)
From Coq Require Import List Arith ZArith Lia Bool Reals Lra Permutation Sorting.
From Verif Require Import Num Arr M_Str M_Np M_Prep S_ISS S_Prep L_Arr L_Np L_Tuples L_Prep L_Prep2.
Import ListNotations.
Open Scope R_scope.

Lemma fill_nat_tab {A} a b l (f : nat -> A) v :
  py_fill_slice (Some (Z.of_nat a)) (Some (Z.of_nat b)) v (tab l f) =
  tab l (fun t => if (a <=? t)%nat && (t <? b)%nat then v else f t).
Proof.
  rewrite py_fill_slice_tab. cbn [lo_bound hi_bound]. rewrite !py_bound_nat. apply tab_ext. intros t Ht.
  destruct (Nat.leb_spec a t), (Nat.leb_spec (Nat.min a l) t), (Nat.ltb_spec t b), (Nat.ltb_spec t (Nat.min b l));
    cbn [andb]; try reflexivity; lia.
Qed.
Lemma fold_fill_tab {A} (ps : list (nat * nat)) l (f : nat -> A) z :
  fold_left (fun v p => py_fill_slice (Some (Z.of_nat (fst p))) (Some (Z.of_nat (fst p + snd p))) z v) ps (tab l f)
  = tab l (fun t => if existsb (fun p => in_strip p t) ps then z else f t).
Proof.
  revert f. induction ps as [|p ps IH]; intros f; cbn [fold_left existsb].
  - reflexivity.
  - rewrite fill_nat_tab, IH. apply tab_ext. intros t _. unfold in_strip at 2.
    destruct (existsb _ ps) eqn:E; [now rewrite orb_true_r|]. rewrite orb_false_r. reflexivity.
Qed.

(** * DIL *)
Lemma ninsert_perm x l : Permutation (ninsert x l) (x :: l).
Proof.
  induction l as [|y l IH]; cbn [ninsert]; [reflexivity|]. destruct (x <=? y)%nat; [reflexivity|].
  rewrite IH. apply perm_swap.
Qed.
Lemma nsort_perm l : Permutation (nsort l) l.
Proof. induction l as [|x l IH]; cbn; [reflexivity|]. rewrite ninsert_perm. now constructor. Qed.
Lemma ninsert_sorted x l : StronglySorted le l -> StronglySorted le (ninsert x l).
Proof.
  induction 1 as [|y l Hl IH Hy]; cbn [ninsert]; [repeat constructor|].
  destruct (Nat.leb_spec x y).
  - constructor; [now constructor|]. constructor; [exact H|]. eapply Forall_impl; [|exact Hy]. intros; lia.
  - constructor; [exact IH|]. apply (Permutation_Forall (Permutation_sym (ninsert_perm x l))).
    constructor; [lia|exact Hy].
Qed.
Lemma nsort_sorted l : StronglySorted le (nsort l).
Proof. induction l as [|x l IH]; cbn; [constructor|]. now apply ninsert_sorted. Qed.
Lemma sorted_nodup_lt l : StronglySorted le l -> NoDup l -> StronglySorted lt l.
Proof.
  induction 1 as [|y l Hl IH Hy]; intros N; [constructor|]. inversion N as [|? ? N1 N2]; subst.
  constructor; [now apply IH|]. rewrite Forall_forall in *. intros z Hz. specialize (Hy z Hz).
  assert (z <> y) by (intros ->; contradiction). lia.
Qed.
Lemma dil_lens_strips dr l : forall idx i a, StronglySorted lt idx -> Forall (fun k => (k < l)%nat) idx ->
  Forall (fun k => (a <= k)%nat) idx ->
  disjoint_strips a (combine idx (dil_lens dr l i idx)) l /\ length (dil_lens dr l i idx) = length idx.
Proof.
  induction idx as [|k idx IH]; intros i a Hs Hl Ha; [split; [exact I|reflexivity]|].
  inversion Hs as [|? ? Hs' Hk]; subst. inversion Hl as [|? ? Hl1 Hl2]; subst. inversion Ha; subst.
  cbn [dil_lens combine disjoint_strips fst snd length].
  set (m := match idx with [] => (l - k)%nat | b :: _ => (b - k)%nat end).
  assert (Hm : (1 <= m)%nat /\ (k + m <= l)%nat /\ Forall (fun j => (k + m <= j)%nat) idx).
  { unfold m. destruct idx as [|b idx]; [repeat split; [lia|lia|constructor]|].
    inversion Hk; subst. inversion Hl2; subst. inversion Hs'; subst. repeat split; try lia.
    constructor; [lia|]. match goal with H : Forall (lt b) idx |- _ => eapply Forall_impl; [|exact H] end.
    cbn. intros; lia. }
  destruct Hm as [M1 [M2 M3]].
  pose proof (Nat.mod_upper_bound (dr i) m ltac:(lia)) as Hr.
  destruct (IH (S i) (k + (1 + dr i mod m))%nat Hs' Hl2) as [I1 I2].
  { eapply Forall_impl; [|exact M3]. cbn. intros; lia. }
  repeat split; try lia.
  - exact I1.
Qed.
Definition dil_strips (s : dil_state) : list (nat * nat) := combine (dil_indices s) (dil_lengths s).
Lemma dil_row_tab s l (f : nat -> R) :
  dil_row s (tab l f) = tab l (fun t => if existsb (fun p => in_strip p t) (dil_strips s) then 0 else f t).
Proof. unfold dil_row. apply fold_fill_tab. Qed.
Lemma dil_transform_spec s X n d l : has_shape X n d l ->
  exists Y, dil_transform (Some s) X = Ok Y /\ has_shape Y n d l /\
  forall i j t, (i < n)%nat -> (j < d)%nat -> (t < l)%nat ->
    entry Y i j t = if existsb (fun p => in_strip p t) (dil_strips s) then 0 else entry X i j t.
Proof.
  intros HX. eexists. split; [reflexivity|].
  apply (rowwise X n d l l (dil_row s) (fun f t => if existsb (fun p => in_strip p t) (dil_strips s) then 0 else f t) HX).
  intros f. apply dil_row_tab.
Qed.
Lemma dil_fit_spec clusters ncl ch dr (X : dataset R) n d l :
  has_shape X n d l -> (1 <= n)%nat -> (1 <= d)%nat ->
  let k := dil_nclusters clusters ncl l in
  (0 <= k <= Z.of_nat l)%Z ->
  NoDup ch -> Forall (fun a => (a < l)%nat) ch -> length ch = Z.to_nat k ->
  exists s, dil_fit clusters ncl ch dr X = Ok s /\ length (dil_strips s) = Z.to_nat k /\
    disjoint_strips 0 (dil_strips s) l.
Proof.
  intros HX Hn Hd k Hk Nch Fch Lch. unfold dil_fit. rewrite (lenX_shape X n d l HX Hn Hd). fold k.
  replace (k <? 0)%Z with false by (symmetry; apply Z.ltb_ge; lia).
  replace (Z.of_nat l <? k)%Z with false by (symmetry; apply Z.ltb_ge; lia).
  eexists. split; [reflexivity|]. unfold dil_strips. cbn [dil_indices dil_lengths].
  assert (H : forall idx, StronglySorted lt idx -> Forall (fun a => (a < l)%nat) idx -> length idx = Z.to_nat k ->
     length (combine idx (dil_lens dr l 0 idx)) = Z.to_nat k /\ disjoint_strips 0 (combine idx (dil_lens dr l 0 idx)) l).
  { intros idx S F L. destruct (dil_lens_strips dr l idx 0%nat 0%nat S F) as [D1 D2].
    - eapply Forall_impl; [|exact F]. cbn. intros; lia.
    - split; [|exact D1]. rewrite combine_length. lia. }
  destruct (Z.leb_spec (Z.of_nat l) k).
  - apply H.
    + clear. generalize 0%nat. induction l as [|l IH]; intros a; cbn [seq]; constructor; [apply IH|].
      apply Forall_forall. intros x Hx. apply in_seq in Hx. lia.
    + apply Forall_forall. intros x Hx. apply in_seq in Hx. lia.
    + rewrite seq_length. lia.
  - apply H.
    + apply sorted_nodup_lt; [apply nsort_sorted|]. apply (Permutation_NoDup (Permutation_sym (nsort_perm ch))). exact Nch.
    + apply (Permutation_Forall (Permutation_sym (nsort_perm ch))). exact Fch.
    + rewrite (Permutation_length (nsort_perm ch)). exact Lch.
Qed.

(** * WIN *)
Lemma win_row_tab cs ce l (f : nat -> R) : (1 <= cs)%nat ->
  win_row (Z.of_nat cs) (Z.of_nat ce) (tab l f) =
  Ok (tab l (fun t => if (cs <=? S t)%nat && (t <? ce)%nat then f t else 0)).
Proof.
  intros Hc. unfold win_row. rewrite tab_length, py_slice_tab, zeros_tab.
  rewrite py_set_slice_tab by reflexivity. cbn [lo_bound hi_bound].
  replace (Z.of_nat cs - 1)%Z with (Z.of_nat (cs - 1)) by lia. rewrite !py_bound_nat.
  f_equal. apply tab_ext. intros t Ht.
  destruct (Nat.leb_spec (Nat.min (cs - 1) l) t), (Nat.leb_spec cs (S t)), (Nat.ltb_spec t (Nat.min ce l)), (Nat.ltb_spec t ce);
    cbn [andb]; try reflexivity; try lia. f_equal. lia.
Qed.
Lemma win_apply_spec (cs ce : list nat) X n d l : has_shape X n d l -> length cs = n -> length ce = n ->
  Forall (fun c => (1 <= c)%nat) cs ->
  exists Y, win_apply cs ce X = Ok Y /\ has_shape Y n d l /\
  forall i j t, (i < n)%nat -> (j < d)%nat -> (t < l)%nat ->
    entry Y i j t = if (nth i cs 0 <=? S t)%nat && (t <? nth i ce 0)%nat then entry X i j t else 0.
Proof.
  intros [Hn HX] Lc Le Hc. unfold win_apply. revert n cs ce Hn Lc Le Hc.
  induction HX as [|x X [Hd Hr] HX IH]; intros n cs ce Hn Lc Le Hc; cbn [length] in Hn.
  - subst n. destruct cs; [|discriminate]. exists []. split; [reflexivity|]. split; [split; [reflexivity|constructor]|].
    intros; lia.
  - destruct cs as [|c cs]; cbn in Lc; [lia|]. destruct ce as [|e ce]; cbn in Le; [lia|].
    inversion Hc as [|? ? Hc1 Hc2]; subst. injection Lc as Lc. injection Le as Le.
    destruct (IH (length X) cs ce eq_refl Lc Le Hc2) as [Y [E [HY SS]]].
    cbn [combine map2M fst snd].
    set (g := fun r : list R => tab l (fun t => if (c <=? S t)%nat && (t <? e)%nat then nth t r 0 else 0)).
    rewrite (mapM_ok (win_row (Z.of_nat c) (Z.of_nat e)) g x).
    2:{ intros r Hrr. rewrite Forall_forall in Hr. rewrite (tab_eta' 0 l r (Hr r Hrr)) at 1. now apply win_row_tab. }
    cbn [bind]. rewrite E. cbn [bind]. eexists. split; [reflexivity|]. destruct HY as [HY1 HY2]. split.
    + split; [cbn; now rewrite HY1|]. constructor; [|exact HY2]. split; [now rewrite map_length|].
      apply Forall_forall. intros r Hrr. apply in_map_iff in Hrr as [q [<- _]]. apply tab_length.
    + intros [|i] j t Hi Hj Ht.
      * unfold entry, row. cbn [nth]. rewrite (nth_indep _ [] (g [])) by (rewrite map_length; lia).
        rewrite map_nth. unfold g. rewrite tab_nth by exact Ht. reflexivity.
      * cbn [nth]. change (entry (?a :: Y) (S i) j t) with (entry Y i j t).
        rewrite SS by (lia || assumption). reflexivity.
Qed.

(** * DOT *)
Lemma idx_up_In fuel start step l t : (1 <= step)%nat -> (l <= fuel + start)%nat ->
  In t (idx_up fuel start step l) <-> (start <= t)%nat /\ (t < l)%nat /\ ((t - start) mod step = 0)%nat.
Proof.
  intros Hs. revert start. induction fuel as [|fuel IH]; intros start Hf; cbn [idx_up].
  - split; [intros []|]. lia.
  - destruct (Nat.ltb_spec start l); [|split; [intros []|lia]]. cbn [In]. rewrite IH by lia. split.
    + intros [<-|[H1 [H2 H3]]].
      * rewrite Nat.sub_diag, Nat.mod_0_l by lia. lia.
      * repeat split; try lia. replace (t - start)%nat with (t - (start + step) + 1 * step)%nat by lia.
        now rewrite Nat.mod_add by lia.
    + intros [H1 [H2 H3]]. destruct (Nat.eq_dec start t) as [|N]; [now left|]. right.
      assert (step <= t - start)%nat.
      { destruct (Nat.lt_ge_cases (t - start) step); [|assumption]. rewrite Nat.mod_small in H3 by assumption. lia. }
      repeat split; try lia. replace (t - start)%nat with (t - (start + step) + 1 * step)%nat in H3 by lia.
      now rewrite Nat.mod_add in H3 by lia.
Qed.
Lemma existsb_In t l : existsb (Nat.eqb t) l = true <-> In t l.
Proof.
  rewrite existsb_exists. split.
  - intros [x [Hx E]]. apply Nat.eqb_eq in E. now subst.
  - intros H. exists t. split; [exact H|apply Nat.eqb_refl].
Qed.
Lemma dot_row_tab n first l (f : nat -> R) : (1 <= n)%nat ->
  dot_row (Z.of_nat n) (Z.of_nat first) (tab l f) =
  Ok (tab l (fun t => if (first <=? t)%nat && ((t - first) mod n =? 0)%nat then f t else 0)).
Proof.
  intros Hn. unfold dot_row, stride_idx.
  replace (Z.of_nat n =? 0)%Z with false by (symmetry; apply Z.eqb_neq; lia).
  replace (0 <? Z.of_nat n)%Z with true by (symmetry; apply Z.ltb_lt; lia).
  cbn [bind]. rewrite !tab_length, py_bound_nat, Nat2Z.id. change (map ?h (seq 0 l)) with (tab l h).
  f_equal. apply tab_ext. intros t Ht. rewrite tab_nth by exact Ht.
  pose proof (existsb_In t (idx_up l (Nat.min first l) n l)) as Q.
  rewrite idx_up_In in Q by lia.
  destruct (existsb _ _).
  - destruct (proj1 Q eq_refl) as [Q1 [Q2 Q3]]. replace (Nat.min first l) with first in * by lia.
    replace (first <=? t)%nat with true by (symmetry; apply Nat.leb_le; lia). rewrite Q3. reflexivity.
  - destruct (Nat.leb_spec first t); cbn [andb]; [|reflexivity].
    destruct (Nat.eqb_spec ((t - first) mod n) 0); [|reflexivity]. exfalso.
    assert (false = true) by (apply Q; replace (Nat.min first l) with first by lia; repeat split; lia). discriminate.
Qed.
Lemma dot_spec n first X k d l : has_shape X k d l -> (1 <= n)%nat ->
  exists Y, dot_transform (Some (Z.of_nat n, Z.of_nat first)) X = Ok Y /\ has_shape Y k d l /\
  forall i j t, (i < k)%nat -> (j < d)%nat -> (t < l)%nat ->
    entry Y i j t = if (first <=? t)%nat && ((t - first) mod n =? 0)%nat then entry X i j t else 0.
Proof.
  intros HX Hn. unfold dot_transform.
  apply (rowwiseM X k d l l _ (fun f t => if (first <=? t)%nat && ((t - first) mod n =? 0)%nat then f t else 0) HX).
  intros u. now apply dot_row_tab.
Qed.
Lemma dot_fit_spec n first (X : dataset R) k d l : has_shape X k d l -> (1 <= k)%nat -> (1 <= d)%nat -> (1 <= l)%nat ->
  (match n with DInt z => (1 <= z)%Z | DFloat f => (f l <= Z.of_nat l)%Z end) ->
  (match first with Some (DInt z) => (0 <= z)%Z | _ => True end) ->
  exists a b, dot_fit n first X = (Z.of_nat a, Z.of_nat b) /\ (1 <= a)%nat /\ (b < l)%nat.
Proof.
  intros HX Hk Hd Hl Hn Hf. unfold dot_fit. rewrite (lenX_shape X k d l HX Hk Hd).
  assert (Ha : exists a, dot_n n l = Z.of_nat a /\ (1 <= a <= l)%nat).
  { destruct n as [z|f]; cbn [dot_n].
    - destruct (Z.leb_spec (Z.of_nat l) z).
      + exists l. lia.
      + exists (Z.to_nat z). lia.
    - destruct (Z.leb_spec (f l) 0).
      + exists 1%nat. lia.
      + exists (Z.to_nat (f l)). lia. }
  destruct Ha as [a [Ea Ha]]. rewrite Ea. exists a.
  assert (Hb : exists b, dot_first first (Z.of_nat a) l = Z.of_nat b /\ (b < l)%nat).
  { destruct first as [[z|f]|]; cbn [dot_first].
    - destruct (Z.leb_spec (Z.of_nat l) z).
      + exists (l - 1)%nat. lia.
      + exists (Z.to_nat z). lia.
    - destruct (Z.leb_spec (f l) 0).
      + destruct (Z.leb_spec (Z.of_nat l) 1).
        * exists (l - 1)%nat. lia.
        * exists 1%nat. lia.
      + destruct (Z.leb_spec (Z.of_nat l) (f l)).
        * exists (l - 1)%nat. lia.
        * exists (Z.to_nat (f l)). lia.
    - exists (a - 1)%nat. lia. }
  destruct Hb as [b [Eb Hb]]. rewrite Eb. exists b. repeat split; try lia.
Qed.

(** * PDD *)
Definition pdd_strips (s : pdd_state) : list (nat * nat) := map (fun i => (i, pdd_width s)) (pdd_indices s).
Lemma fold_left_map' {A B C} (f : A -> B -> A) (g : C -> B) l a :
  fold_left f (map g l) a = fold_left (fun x y => f x (g y)) l a.
Proof. revert a. induction l as [|x l IH]; intros a; cbn; auto. Qed.
Lemma pdd_spec s X n d l : has_shape X n d l ->
  exists Y, pdd_transform (Some s) X = Ok Y /\ has_shape Y n d l /\
  forall i j t, (i < n)%nat -> (j < d)%nat -> (t < l)%nat ->
    entry Y i j t = if existsb (fun p => in_strip p t) (pdd_strips s) then 0 else entry X i j t.
Proof.
  intros HX. eexists. split; [reflexivity|].
  apply (rowwise X n d l l (pdd_row s) (fun f t => if existsb (fun p => in_strip p t) (pdd_strips s) then 0 else f t) HX).
  intros f. rewrite <- fold_fill_tab. unfold pdd_strips. rewrite fold_left_map'. reflexivity.
Qed.
Lemma pdd_default_no_strip (X : dataset R) n d l t : has_shape X n d l -> (1 <= n)%nat -> (1 <= d)%nat -> (2 <= l)%nat ->
  existsb (fun p => in_strip p t) (pdd_strips (pdd_fit 1 10 1 2 X)) = false.
Proof.
  intros HX Hn Hd Hl. apply Bool.not_true_is_false. rewrite existsb_exists. intros [p [Hp Hs]].
  unfold pdd_strips, pdd_fit in Hp. rewrite (lenX_shape X n d l HX Hn Hd) in Hp.
  cbn [pdd_indices pdd_width] in Hp. cbn [Nat.sub] in Hp.
  apply in_map_iff in Hp as [i [<- Hi]]. unfold in_strip in Hs. cbn [fst snd] in Hs.
  apply andb_prop in Hs as [H1 H2]. apply Nat.leb_le in H1. apply Nat.ltb_lt in H2.
  set (p := Nat.max (1 * l / 2) 1) in *. set (q := Nat.max (9 * l / 10) 1) in *.
  assert (Hq : (1 <= q)%nat) by (unfold q; lia).
  assert (l = 2 \/ p < q)%nat as [->|Hpq].
  { destruct (Nat.eq_dec l 2) as [|N]; [now left|]. right. unfold p, q.
    pose proof (Nat.div_mod (1 * l) 2). pose proof (Nat.mod_upper_bound (1 * l) 2).
    pose proof (Nat.div_mod (9 * l) 10). pose proof (Nat.mod_upper_bound (9 * l) 10). lia. }
  - cbn in Hi. contradiction.
  - rewrite Nat.div_small in H2 by exact Hpq. lia.
Qed.

(** * DIM, NEW *)
Lemma py_index_ok n z k : py_index n z = Ok k -> (k < n)%nat.
Proof.
  unfold py_index. destruct (Z.ltb_spec z 0).
  - destruct (Z.leb_spec 0 (Z.of_nat n + z)); [|discriminate]. intros E. injection E as <-. lia.
  - destruct (Z.ltb_spec z (Z.of_nat n)); [|discriminate]. intros E. injection E as <-. lia.
Qed.
Lemma py_index_nat n k : (k < n)%nat -> py_index n (Z.of_nat k) = Ok k.
Proof.
  intros Hk. unfold py_index. destruct (Z.ltb_spec (Z.of_nat k) 0); [lia|].
  destruct (Z.ltb_spec (Z.of_nat k) (Z.of_nat n)); [|lia]. f_equal. lia.
Qed.
Lemma dim_spec (dims : list nat) p X Y n d l d' :
  has_shape X n d l -> (1 <= n)%nat -> (1 <= d)%nat -> Forall (fun k => (k < d)%nat) dims ->
  p (map (fun x => map (fun k => nth k x []) dims) X) = Ok Y -> has_shape Y n d' l -> (1 <= d')%nat ->
  exists Z, dim_transform (map Z.of_nat dims) p X = Ok Z /\ length Z = n /\
  forall i, (i < n)%nat ->
    nth i Z [] = map (row X i) (filter (fun k => negb (existsb (Nat.eqb k) dims)) (seq 0 d)) ++ nth i Y [].
Proof.
  intros HX Hn Hd Hdims Hp HY Hd'. unfold dim_transform.
  rewrite (dimX_shape X n d l HX Hn).
  assert (E : mapM (py_index d) (map Z.of_nat dims) = Ok dims).
  { clear - Hdims. induction Hdims as [|k dims Hk _ IH]; [reflexivity|]. cbn [map mapM].
    rewrite py_index_nat by exact Hk. cbn [bind]. rewrite IH. reflexivity. }
  rewrite E. cbn [bind]. unfold select_dims. rewrite Hp. cbn [bind]. unfold same_len.
  rewrite (lenX_shape X n d l HX Hn Hd), (lenX_shape Y n d' l HY Hn Hd').
  pose proof HX as [LX _]. pose proof HY as [LY _]. rewrite LX, LY, !Nat.eqb_refl. cbn [andb].
  eexists. split; [reflexivity|]. split; [rewrite map2_length; lia|]. intros i Hi.
  rewrite (map2_nth _ _ _ i [] [] []) by lia. unfold delete_dims.
  rewrite (sample_length X n d l i HX Hi). reflexivity.
Qed.
Lemma new_none_spec (X : dataset R) : new_transform None X = Ok (map (fun x => x ++ x) X).
Proof. reflexivity. Qed.
Lemma new_spec p X Y n d l d' :
  has_shape X n d l -> (1 <= n)%nat -> (1 <= d)%nat -> p X = Ok Y -> has_shape Y n d' l -> (1 <= d')%nat ->
  new_transform (Some p) X = Ok (map2 (fun x y => x ++ y) X Y).
Proof.
  intros HX Hn Hd Hp HY Hd'. unfold new_transform. rewrite Hp. cbn [bind].
  rewrite (lenX_shape X n d l HX Hn Hd), (lenX_shape Y n d' l HY Hn Hd').
  pose proof HX as [LX _]. pose proof HY as [LY FY]. rewrite LX, LY, !Nat.eqb_refl. cbn [orb andb].
  f_equal. apply map2_ext_in. intros x y Hx Hy. f_equal.
  rewrite Forall_forall in FY. destruct (FY y Hy) as [_ Fy]. rewrite Forall_forall in Fy.
  rewrite <- (map_id y) at 2. apply map_ext_in. intros r Hr. specialize (Fy r Hr).
  unfold stretch. destruct r as [|v [|v' r]]; try reflexivity. cbn in Fy. subst l. reflexivity.
Qed.
Lemma new_mismatch p X Y n d l n' d' l' :
  has_shape X n d l -> (1 <= n)%nat -> (1 <= d)%nat -> p X = Ok Y -> has_shape Y n' d' l' -> (1 <= n')%nat -> (1 <= d')%nat ->
  (l' <> l /\ l' <> 1)%nat \/ (n' <> n /\ n' <> 1)%nat ->
  new_transform (Some p) X = Err ValueError.
Proof.
  intros HX Hn Hd Hp HY Hn' Hd' Hl. unfold new_transform. rewrite Hp. cbn [bind].
  rewrite (lenX_shape X n d l HX Hn Hd), (lenX_shape Y n' d' l' HY Hn' Hd').
  pose proof HX as [LX _]. pose proof HY as [LY FY]. rewrite LX, LY.
  destruct (Nat.eqb_spec n n'), (Nat.eqb_spec n' 1), (Nat.eqb_spec l l'), (Nat.eqb_spec l' 1); cbn [orb andb]; try reflexivity; lia.
Qed.

(** * Groups *)
Lemma starts_length s ndim : length (starts s ndim) = length ndim.
Proof. revert s. induction ndim; intros s; cbn; auto. Qed.
Lemma groups_length ndim : length (groups ndim) = length ndim.
Proof. unfold groups. rewrite map2_length, starts_length. lia. Qed.
Lemma starts_nth s ndim o : (o < length ndim)%nat -> nth o (starts s ndim) 0%nat = (s + list_sum (firstn o ndim))%nat.
Proof.
  revert s o. induction ndim as [|m ndim IH]; intros s o Ho; cbn [length] in Ho; [lia|].
  destruct o as [|o]; cbn [starts nth firstn]; [cbn; lia|].
  rewrite IH by lia. change (list_sum (m :: firstn o ndim)) with (m + list_sum (firstn o ndim))%nat. lia.
Qed.
Lemma groups_nth ndim o : (o < length ndim)%nat ->
  nth o (groups ndim) [] = seq (list_sum (firstn o ndim)) (nth o ndim 0%nat).
Proof.
  intros Ho. unfold groups. rewrite (map2_nth _ _ _ o [] 0%nat 0%nat) by (rewrite ?starts_length; lia).
  rewrite starts_nth by exact Ho. reflexivity.
Qed.
Lemma concat_groups ndim : concat (groups ndim) = seq 0 (list_sum ndim).
Proof.
  unfold groups. generalize 0%nat. induction ndim as [|m ndim IH]; intros s; [reflexivity|].
  cbn [starts map2 concat]. rewrite IH. change (list_sum (m :: ndim)) with (m + list_sum ndim)%nat.
  now rewrite seq_app.
Qed.
Lemma list_sum_repeat a k : list_sum (repeat a k) = (k * a)%nat.
Proof. induction k as [|k IH]; cbn [repeat]; [reflexivity|]. change (list_sum (a :: repeat a k)) with (a + list_sum (repeat a k))%nat. rewrite IH. lia. Qed.
Lemma group_sizes_spec d out : (1 <= out)%nat -> (out <= d)%nat ->
  length (group_sizes d out) = out /\ list_sum (group_sizes d out) = d /\
  Forall (fun m => m = d / out \/ m = S (d / out))%nat (group_sizes d out) /\
  Forall (fun m => 1 <= m)%nat (group_sizes d out).
Proof.
  intros H1 H2. unfold group_sizes.
  pose proof (Nat.div_mod d out ltac:(lia)) as D. pose proof (Nat.mod_upper_bound d out ltac:(lia)) as B.
  assert (1 <= d / out)%nat by (apply Nat.div_le_lower_bound; lia).
  split; [rewrite app_length, !repeat_length; lia|]. split.
  - rewrite list_sum_app, !list_sum_repeat. nia.
  - split; apply Forall_app; split; apply Forall_forall; intros m Hm; apply repeat_spec in Hm; subst; lia.
Qed.

(** * JLD *)
Lemma fold_left_plus_map {A} (h : A -> R) g a :
  fold_left (fun acc j => acc + h j) g a = a + Rsum (map h g).
Proof.
  revert a. induction g as [|x g IH]; intros a; cbn [fold_left map]; [cbn; lra|].
  rewrite IH, Rsum_cons. lra.
Qed.
Lemma Rsum_map_const {A} c (l : list A) : Rsum (map (fun _ => c) l) = INR (length l) * c.
Proof.
  induction l as [|x l IH]; [cbn; lra|]. cbn [map]. rewrite Rsum_cons, IH. cbn [length]. rewrite S_INR. lra.
Qed.
Lemma jld_backend_spec kernel bias ndim dims X n d l :
  has_shape X n d l -> (1 <= d)%nat -> length bias = length ndim ->
  let Y := map (jld_backend kernel bias ndim dims) X in
  has_shape Y n (length ndim) l /\
  forall i o t, (i < n)%nat -> (o < length ndim)%nat -> (t < l)%nat ->
    entry Y i o t =
      Rsum (map (fun j => entry X i (nth j dims 0%nat) t * nth j kernel 0)
                (seq (list_sum (firstn o ndim)) (nth o ndim 0%nat)))
      + INR (nth o ndim 0%nat) * nth o bias 0.
Proof.
  intros HX Hd Lb Y. split.
  - eapply has_shape_map; [exact HX|]. intros x H1 H2. unfold jld_backend. split.
    + rewrite map2_length, groups_length. lia.
    + apply Forall_forall. intros r Hr. apply (In_nth _ _ []) in Hr as [o [Ho <-]].
      rewrite map2_length, groups_length in Ho.
      rewrite (map2_nth _ _ _ o [] [] 0) by (rewrite ?groups_length; lia).
      rewrite map_length, seq_length. destruct x as [|r x]; [cbn in H1; lia|]. now inversion H2.
  - intros i o t Hi Ho Ht. unfold Y, entry at 1, row.
    rewrite (nth_indep _ [] (jld_backend kernel bias ndim dims [])) by (rewrite map_length; destruct HX; lia).
    rewrite map_nth. unfold jld_backend.
    rewrite (map2_nth _ _ _ o [] [] 0) by (rewrite ?groups_length; lia).
    rewrite groups_nth by exact Ho.
    assert (Lx : tlen (nth i X []) = l).
    { pose proof (row_length X n d l i 0 HX Hi ltac:(lia)) as Q. unfold row in Q.
      pose proof (sample_length X n d l i HX Hi) as S. destruct (nth i X []); [cbn in S; lia|]. exact Q. }
    rewrite Lx. change (map ?h (seq 0 l)) with (tab l h). rewrite tab_nth by exact Ht.
    cbn [nadd nmul nzero RNum].
    rewrite (fold_left_plus_map (fun j => at3 (nth i X []) (nth j dims 0%nat) t * nth j kernel 0 + nth o bias 0)).
    rewrite Rsum_map_plus, Rsum_map_const, seq_length, Rplus_0_l. reflexivity.
Qed.

(** * RIN *)
Lemma fold_left_ext {A B} (F G : A -> B -> A) l a : (forall s j, F s j = G s j) -> fold_left F l a = fold_left G l a.
Proof. intros E. revert a. induction l as [|x l IH]; intros a; [reflexivity|]. cbn [fold_left]. now rewrite E. Qed.
Lemma seq_shift_add a m b : seq (a + b) m = map (fun u => (a + u)%nat) (seq b m).
Proof.
  revert b. induction m as [|m IH]; intros b; [reflexivity|]. cbn [seq map]. f_equal.
  rewrite <- IH. f_equal. lia.
Qed.
Lemma rin_point_eq w kernel dims x k g : (w <= k)%nat ->
  rin_point w kernel dims x k g =
  Rsum (map (fun j => at3 x j k - Rsum_upto (fun a => nth a (nth j kernel []) 0 * at3 x (nth j dims 0%nat) (k - w + a)) w) g).
Proof.
  intros Hk. unfold rin_point.
  assert (I : forall j s, fold_left (fun s l => nadd s (nmul (nopp (at3 x (nth j dims 0%nat) l)) (nth (l + w - k) (nth j kernel []) nzero))) (seq (k - w) w) s
     = s - Rsum_upto (fun a => nth a (nth j kernel []) 0 * at3 x (nth j dims 0%nat) (k - w + a)) w).
  { intros j s. cbn [nadd nmul nopp nzero RNum].
    rewrite (fold_left_plus_map (fun l => - at3 x (nth j dims 0%nat) l * nth (l + w - k) (nth j kernel []) 0)).
    rewrite <- (Rsum_tab w). unfold tab.
    replace (seq (k - w) w) with (seq (k - w + 0) w) by (f_equal; lia).
    rewrite seq_shift_add, map_map. unfold Rminus. f_equal.
    rewrite <- (Rmult_1_l (Rsum (map (fun a => nth a (nth j kernel []) 0 * _) (seq 0 w)))).
    rewrite Ropp_mult_distr_l, <- Rsum_map_scal. f_equal. apply map_ext_in. intros a Ha. apply in_seq in Ha.
    replace (k - w + a + w - k)%nat with a by lia. ring. }
  transitivity (fold_left (fun s j => s + (at3 x j k - Rsum_upto (fun a => nth a (nth j kernel []) 0 * at3 x (nth j dims 0%nat) (k - w + a)) w)) g 0).
  - apply fold_left_ext. intros s j. cbv beta zeta. rewrite I. cbn [nadd RNum]. lra.
  - rewrite (fold_left_plus_map (fun j => at3 x j k - Rsum_upto (fun a => nth a (nth j kernel []) 0 * at3 x (nth j dims 0%nat) (k - w + a)) w)). lra.
Qed.
Lemma tlen_sample X n d l i : has_shape X n d l -> (1 <= d)%nat -> (i < n)%nat -> tlen (nth i X []) = l.
Proof.
  intros HX Hd Hi. pose proof (row_length X n d l i 0 HX Hi ltac:(lia)) as Q. unfold row in Q.
  pose proof (sample_length X n d l i HX Hi) as S. destruct (nth i X []); [cbn in S; lia|]. exact Q.
Qed.
Lemma rin_spec s X n d l : has_shape X n d l -> (1 <= d)%nat ->
  let w := tlen (rin_kernel s) in
  exists Y, rin_transform false (Some s) X = Ok Y /\ has_shape Y n (length (rin_ndim s)) l /\
  forall i o t, (i < n)%nat -> (o < length (rin_ndim s))%nat -> (t < l)%nat ->
    entry Y i o t = if (t <? w)%nat then 0 else
      rin_value w (rin_kernel s) (rin_dims s) (nth o (groups (rin_ndim s)) []) (entry X i) t.
Proof.
  intros HX Hd w. unfold rin_transform. eexists. split; [reflexivity|]. split.
  - eapply has_shape_map; [exact HX|]. intros x H1 H2. unfold rin_backend. split.
    + rewrite map_length, groups_length. reflexivity.
    + apply Forall_forall. intros r Hr. apply in_map_iff in Hr as [g [<- _]].
      rewrite map_length, seq_length. destruct x as [|r x]; [cbn in H1; lia|]. now inversion H2.
  - intros i o t Hi Ho Ht. unfold entry at 1, row.
    rewrite (nth_indep _ [] (rin_backend (rin_kernel s) (rin_ndim s) (rin_dims s) [])) by (rewrite map_length; destruct HX; lia).
    rewrite map_nth. unfold rin_backend.
    rewrite (tlen_sample X n d l i HX Hd Hi). fold w.
    set (G := fun g => map _ (seq 0 l)).
    rewrite (nth_indep _ [] (G [])) by (rewrite map_length, groups_length; exact Ho).
    rewrite map_nth. unfold G. change (map ?h (seq 0 l)) with (tab l h). rewrite tab_nth by exact Ht.
    destruct (Nat.ltb_spec t w); [reflexivity|]. now rewrite rin_point_eq.
Qed.
Lemma pad_shape X n d l w : has_shape X n d l -> has_shape (map (map (fun r => zeros w ++ r)) X) n d (w + l) /\
  forall i j t, (i < n)%nat -> (j < d)%nat -> (t < w + l)%nat ->
   entry (map (map (fun r => zeros w ++ r)) X) i j t = if (t <? w)%nat then 0 else entry X i j (t - w).
Proof.
  intros HX. apply (rowwise X n d l (w + l) (fun r => zeros w ++ r) (fun f t => if (t <? w)%nat then 0 else f (t - w)%nat) HX).
  intros f. rewrite zeros_tab, app_tab. reflexivity.
Qed.
Lemma rin_adaptive_spec s X n d l : has_shape X n d l -> (1 <= d)%nat ->
  Forall (fun g => Forall (fun j => (j < d)%nat) g /\ Forall (fun j => (nth j (rin_dims s) 0 < d)%nat) g) (groups (rin_ndim s)) ->
  let w := tlen (rin_kernel s) in
  exists Y, rin_transform true (Some s) X = Ok Y /\ has_shape Y n (length (rin_ndim s)) l /\
  forall i o t, (i < n)%nat -> (o < length (rin_ndim s))%nat -> (t < l)%nat ->
    entry Y i o t = rin_value w (rin_kernel s) (rin_dims s) (nth o (groups (rin_ndim s)) [])
        (fun j u => if (u <? w)%nat then 0 else entry X i j (u - w)) (t + w).
Proof.
  intros HX Hd Hg w.
  destruct (pad_shape X n d l w HX) as [HP EP].
  destruct (rin_spec s _ n d (w + l) HP Hd) as [Y [E [HY S]]]. fold w in S.
  unfold rin_transform in *. fold w. injection E as E.
  exists (map (map (skipn w)) Y). split; [|split].
  - f_equal. rewrite <- E, !map_map. apply map_ext. intros x. reflexivity.
  - eapply has_shape_mapmap; [exact HY|]. intros r Hr. rewrite skipn_length. lia.
  - intros i o t Hi Ho Ht. unfold entry at 1. rewrite (row_mapmap Y _ _ _ (skipn w) i o HY Hi Ho).
    rewrite (row_tab Y _ _ _ i o HY Hi Ho), skipn_tab, tab_nth by lia.
    rewrite S by lia. destruct (Nat.ltb_spec (w + t) w); [lia|].
    replace (w + t)%nat with (t + w)%nat by lia. unfold rin_value. f_equal. apply map_ext_in. intros j Hj.
    assert (Hgo : (o < length (groups (rin_ndim s)))%nat) by (rewrite groups_length; exact Ho).
    rewrite Forall_forall in Hg. destruct (Hg _ (nth_In _ [] Hgo)) as [G1 G2].
    rewrite Forall_forall in G1, G2.
    rewrite EP by (try lia; try exact Hi; apply G1; exact Hj). f_equal.
    apply Rsum_upto_ext. intros a Ha. f_equal. apply EP; [exact Hi|now apply G2|lia].
Qed.
Lemma rin_const_groups k d : rin_ndim (rin_fit_const (T := R) k d) = repeat 1%nat d.
Proof. reflexivity. Qed.
Lemma nth_repeat' {A} (a d : A) m i : (i < m)%nat -> nth i (repeat a m) d = a.
Proof. revert i. induction m as [|m IH]; intros [|i] Hi; cbn; try lia; auto. apply IH. lia. Qed.
Lemma groups_ones d o : (o < d)%nat -> nth o (groups (repeat 1%nat d)) [] = [o].
Proof.
  intros Ho. rewrite groups_nth by (rewrite repeat_length; exact Ho).
  rewrite nth_repeat' by exact Ho. cbn [seq]. f_equal.
  assert (E : firstn o (repeat 1%nat d) = repeat 1%nat o).
  { clear - Ho. revert o Ho. induction d as [|d IH]; intros [|o] Ho; cbn; try lia; auto. f_equal. apply IH. lia. }
  rewrite E, list_sum_repeat. lia.
Qed.
(** Conditions of the constant kernel. *)
Lemma rin_const_ok kernel d : Forall (fun g => Forall (fun j => (j < d)%nat) g /\ Forall (fun j => (nth j (rin_dims (rin_fit_const (T := R) kernel d)) 0 < d)%nat) g) (groups (rin_ndim (rin_fit_const kernel d))).
Proof.
  cbn [rin_fit_const rin_ndim rin_dims]. apply Forall_forall. intros g Hg.
  apply (In_nth _ _ []) in Hg as [o [Ho <-]]. rewrite groups_length, repeat_length in Ho.
  rewrite groups_ones by exact Ho. split; constructor; try constructor; [exact Ho|].
  rewrite seq_nth by exact Ho. lia.
Qed.
Lemma rin_force_sum k : Rsum (map (fun v => 1 - Rabs v) k) <> 0 -> Rsum (rin_force k) = 1.
Proof.
  intros H. unfold rin_force. rewrite !vsum_Rsum. cbn [nsub nadd nmul ndiv nunit RNum].
  assert (E : map (fun v => 1 - nabs v) k = map (fun v => 1 - Rabs v) k).
  { apply map_ext. intros v. now rewrite nabs_Rabs. }
  rewrite E. set (S := Rsum (map (fun v => 1 - Rabs v) k)) in *. set (c := (1 - Rsum k) / S).
  rewrite map_map, map2_same_map, Rsum_map_plus, Rsum_map_scal_r. fold S. rewrite map_id.
  unfold c. field. exact H.
Qed.
Lemma rin_centre_sum k : k <> [] -> Rsum (rin_centre k) = 0.
Proof.
  intros H. unfold rin_centre. cbn [nsub RNum].
  replace (map (fun v => v - vmean k) k) with (map (fun v => v + - vmean k) k) by (apply map_ext; intros; ring).
  rewrite Rsum_map_plus, map_id, Rsum_map_const. unfold vmean. rewrite vsum_Rsum, nofnat_INR.
  cbn [ndiv RNum]. assert (INR (length k) <> 0). { apply not_0_INR. destruct k; [congruence|discriminate]. }
  field. assumption.
Qed.
(** * RPE *)
Lemma rpe_spec den X n l : has_shape X n 2 l -> (1 <= n)%nat ->
  exists Y, rpe_transform den X = Ok Y /\ has_shape Y n 2 l /\
  forall i t, (i < n)%nat -> (t < l)%nat ->
    entry Y i 0 t = cos (INR t / den) * entry X i 0 t - sin (INR t / den) * entry X i 1 t /\
    entry Y i 1 t = sin (INR t / den) * entry X i 0 t + cos (INR t / den) * entry X i 1 t.
Proof.
  intros HX Hn. unfold rpe_transform. rewrite (dimX_shape X n 2 l HX Hn). cbn [Nat.eqb].
  eexists. split; [reflexivity|]. split.
  - eapply has_shape_map; [exact HX|]. intros x H1 H2. unfold rpe_sample.
    assert (tlen x = l). { destruct x as [|r x]; [cbn in H1; lia|]. now inversion H2. }
    split; [reflexivity|]. repeat constructor; rewrite map_length, seq_length; assumption.
  - intros i t Hi Ht. unfold entry at 1 4, row.
    rewrite (nth_indep _ [] (rpe_sample den [])) by (rewrite map_length; destruct HX; lia).
    rewrite map_nth. unfold rpe_sample. rewrite (tlen_sample X n 2 l i HX ltac:(lia) Hi).
    cbn [nth]. change (map ?h (seq 0 l)) with (tab l h). rewrite !tab_nth by exact Ht.
    rewrite nofnat_INR. split; reflexivity.
Qed.
(** * Weighting lookups *)
Lemma nrm_scale_tab scale dt l (f : nat -> R) : (1 <= l)%nat ->
  exists m M, min_on f l m /\ max_on f l M /\
    nrm_scale scale (dt, tab l f) = Ok (tab l (fun t => store dt (rescale m M (f t)) * scale)).
Proof.
  intros Hl. destruct (vmin_tab l f Hl) as [m [Em Hm]]. destruct (vmax_tab l f Hl) as [M [EM HM]].
  exists m, M. split; [exact Hm|]. split; [exact HM|]. unfold nrm_scale. rewrite Em, EM. cbn [bind].
  rewrite nrm_row_tab, !tab_map. reflexivity.
Qed.
Lemma min_on_unique f l m m' : min_on f l m -> min_on f l m' -> m = m'.
Proof. intros [[t [Ht <-]] B] [[t' [Ht' <-]] B']. apply Rle_antisym; [now apply B|now apply B']. Qed.
Lemma max_on_unique f l m m' : max_on f l m -> max_on f l m' -> m = m'.
Proof. intros [[t [Ht <-]] B] [[t' [Ht' <-]] B']. apply Rle_antisym; [now apply B'|now apply B]. Qed.
Lemma nrm_scale_lookup scale l (f : nat -> R) : (1 <= l)%nat ->
  exists r, nrm_scale scale (TFloat, tab l f) = Ok r /\ lookup_of f l scale r.
Proof.
  intros Hl. destruct (nrm_scale_tab scale TFloat l f Hl) as [m [M [Hm [HM E]]]]. cbn [store] in E.
  exists (tab l (fun t => rescale m M (f t) * scale)). split; [exact E|]. pose proof Hm as Hm0. pose proof HM as HM0.
  destruct Hm as [[tm [Htm Em]] Bm]. destruct HM as [[tM [HtM EM]] BM].
  assert (HmM : m <= M) by (pose proof (Bm tM HtM); lra).
  split; [apply tab_length|]. split.
  { intros Hs t Ht. rewrite tab_nth by exact Ht.
    pose proof (rescale_range m M (f t) (Bm t Ht) (BM t Ht)). nra. }
  split.
  { intros Hs Hf s t Hst Ht. rewrite !tab_nth by lia.
    pose proof (rescale_mono m M _ _ HmM (Hf s t Hst Ht)). nra. }
  split.
  { intros Hs Hf s t Hst Ht. rewrite !tab_nth by lia. pose proof (Hf s t Hst Ht) as Q.
    pose proof (rescale_mono m M (f t) (f s) HmM ltac:(lra)). nra. }
  split.
  { intros [s [t [Hs [Ht N]]]].
    assert (m <> M).
    { intros Heq. apply N. pose proof (Bm s Hs). pose proof (Bm t Ht). pose proof (BM s Hs). pose proof (BM t Ht). lra. }
    split.
    - exists tm. split; [exact Htm|]. rewrite tab_nth by exact Htm. rewrite Em, rescale_min. ring.
    - exists tM. split; [exact HtM|]. rewrite tab_nth by exact HtM. rewrite EM, rescale_max by assumption. ring. }
  split; [intros s t Hs Ht E'; rewrite !tab_nth by assumption; now rewrite E'|].
  intros m' M' t Hm' HM' Ht. rewrite tab_nth by exact Ht. now rewrite (min_on_unique f l m m'), (max_on_unique f l M M').
Qed.
Lemma Int_part_unique x z : IZR z <= x < IZR z + 1 -> Int_part x = z.
Proof.
  intros Hx. destruct (base_Int_part x) as [A B]. assert (IZR (Int_part x) < IZR (z + 1)) by (rewrite plus_IZR; lra).
  assert (IZR z < IZR (Int_part x + 1)) by (rewrite plus_IZR; lra).
  repeat match goal with H : IZR _ < IZR _ |- _ => apply lt_IZR in H end. lia.
Qed.
Lemma Rtrunc_IZR z : Rtrunc (IZR z) = IZR z.
Proof.
  assert (P : forall k, Int_part (IZR k) = k). { intros k. apply Int_part_unique. lra. }
  unfold Rtrunc. destruct (Rle_dec 0 (IZR z)); [now rewrite P|]. replace (- IZR z) with (IZR (- z)) by apply opp_IZR. rewrite P, opp_IZR. ring.
Qed.
Lemma Rtrunc_small x : 0 <= x < 1 -> Rtrunc x = 0.
Proof.
  intros Hx. unfold Rtrunc. destruct (Rle_dec 0 x); [|lra]. now rewrite (Int_part_unique x 0) by lra.
Qed.
Lemma nrm_scale_integer scale l (f : nat -> R) : (1 <= l)%nat ->
  exists r, nrm_scale scale (TInt, tab l f) = Ok r /\ integer_lookup_of f l scale r.
Proof.
  intros Hl. destruct (nrm_scale_tab scale TInt l f Hl) as [m [M [Hm [HM E]]]].
  eexists. split; [exact E|]. split; [apply tab_length|]. intros m' M' t Hm' HM' Ht.
  rewrite <- (min_on_unique f l m m' Hm Hm'), <- (max_on_unique f l M M' HM HM'). rewrite !tab_nth by exact Ht. cbn [store ntrunc RNum].
  split.
  - intros N ->. rewrite rescale_max by exact N. rewrite (Rtrunc_IZR 1). apply Rmult_1_l.
  - intros D. replace (Rtrunc (rescale m M (f t))) with 0; [apply Rmult_0_l|]. symmetry. apply Rtrunc_small.
    unfold rescale. destruct (Req_EM_T m M) as [->|N]; [lra|]. destruct D as [D|D]; [contradiction|].
    destruct Hm as [[a [Ha Ea]] Bm]. destruct HM as [[b [Hb Eb]] BM]. pose proof (Bm t Ht). pose proof (BM t Ht).
    assert (m < M). { destruct (Rle_lt_or_eq_dec m M); [pose proof (Bm b Hb); lra|assumption|contradiction]. }
    assert (f t < M) by (destruct (Rle_lt_or_eq_dec (f t) M); [assumption|assumption|contradiction]).
    split; [apply Rmult_le_pos; [lra|left; apply Rinv_0_lt_compat; lra]|].
    apply (Rmult_lt_reg_r (M - m)); [lra|]. unfold Rdiv. rewrite Rmult_assoc, Rinv_l by lra. lra.
Qed.
(** [np.vectorize] on a table. *)
Lemma vectorize_float (g : R -> pynum R) l f : (1 <= l)%nat -> floats_at (Some g) (f 0%nat) ->
  vectorize g (tab l f) = (TFloat, tab l (fun t => apply_tr (Some g) (f t))).
Proof.
  intros Hl F. unfold vectorize. cbn [floats_at] in F. destruct l as [|l]; [lia|]. cbv zeta. set (dt := match tab (S l) f with _ :: _ => _ | [] => _ end).
  assert (E : dt = TFloat) by (unfold dt, tab; cbn [seq map]; now destruct (g (f 0%nat))). clearbody dt. subst dt. cbn [store]. rewrite tab_map. reflexivity.
Qed.
Lemma vectorize_int (g : R -> pynum R) l f : (1 <= l)%nat -> ints_at (Some g) (f 0%nat) ->
  vectorize g (tab l f) = (TInt, tab l (fun t => Rtrunc (apply_tr (Some g) (f t)))).
Proof.
  intros Hl F. unfold vectorize. cbn [ints_at] in F. destruct l as [|l]; [lia|]. cbv zeta. set (dt := match tab (S l) f with _ :: _ => _ | [] => _ end).
  assert (E : dt = TInt) by (unfold dt, tab; cbn [seq map]; now destruct (g (f 0%nat))). clearbody dt. subst dt. cbn [store]. rewrite tab_map. reflexivity.
Qed.
Lemma indices_args (relative : bool) l : (if relative then (TFloat, map (fun v : R => v / nofnat l) (map (fun i => nofnat (S i)) (seq 0 l)))
   else (TInt, map (fun i => nofnat (S i) : R) (seq 0 l))) = (if relative then TFloat else TInt, tab l (index_arg relative l)).
Proof.
  unfold index_arg, tab. destruct relative; f_equal; rewrite ?map_map; apply map_ext; intros t; rewrite !nofnat_INR; reflexivity.
Qed.
Lemma indices_row_float relative tr l : (1 <= l)%nat -> (tr = None -> relative = true) -> floats_at tr (index_arg relative l 0) ->
  indices_row relative tr l = (TFloat, tab l (index_fn relative tr l)).
Proof.
  intros Hl Hr F. unfold indices_row. cbv zeta. change (@ndiv R RNum) with Rdiv.
  pose proof (indices_args relative l) as E. rewrite E. unfold index_fn. destruct tr as [g|]; [now apply vectorize_float|].
  rewrite (Hr eq_refl). reflexivity.
Qed.
Lemma indices_row_int tr l : (1 <= l)%nat -> forall relative, (tr = None /\ relative = false) \/ ints_at tr (index_arg relative l 0) ->
  indices_row relative tr l = (TInt, tab l (match tr with None => index_fn relative tr l | Some _ => fun t => Rtrunc (index_fn relative tr l t) end)).
Proof.
  intros Hl relative D. unfold indices_row. cbv zeta. change (@ndiv R RNum) with Rdiv.
  pose proof (indices_args relative l) as E. rewrite E. unfold index_fn. destruct tr as [g|].
  - apply vectorize_int; [exact Hl|]. destruct D as [[D _]|D]; [discriminate|exact D].
  - destruct D as [[_ ->]|D]; [reflexivity|contradiction].
Qed.
Lemma index_fn_mono relative l : nondecreasing_on (index_fn relative None l) l.
Proof.
  intros s t Hst Ht. unfold index_fn, apply_tr, index_arg. assert (INR (S s) <= INR (S t)) by (apply le_INR; lia).
  destruct relative; [|assumption]. apply Rmult_le_compat_r; [|assumption].
  left. apply Rinv_0_lt_compat. apply lt_0_INR. lia.
Qed.
Lemma lp_args (relative : bool) eps l f : (1 <= l)%nat ->
  (if relative then map (fun v => v / (last (tab l f) 0 + eps)) (tab l f) else tab l f) = tab l (lp_arg relative eps l f).
Proof. intros Hl. rewrite last_tab by exact Hl. unfold lp_arg. destruct relative; rewrite ?tab_map; reflexivity. Qed.
Lemma lp_row_float relative eps tr l f : (1 <= l)%nat -> floats_at tr (lp_arg relative eps l f 0) ->
  lp_row relative eps tr (tab l f) = (TFloat, tab l (lp_fn relative eps tr l f)).
Proof.
  intros Hl F. unfold lp_row. cbv zeta. pose proof (lp_args relative eps l f Hl) as E.
  change (@ndiv R RNum) with Rdiv. change (@nadd R RNum) with Rplus. change (@nzero R RNum) with 0. rewrite E.
  unfold lp_fn. destruct tr as [g|]; [now apply vectorize_float|reflexivity].
Qed.
Lemma lp_row_int relative eps tr l f : (1 <= l)%nat -> ints_at tr (lp_arg relative eps l f 0) ->
  lp_row relative eps tr (tab l f) = (TInt, tab l (fun t => Rtrunc (lp_fn relative eps tr l f t))).
Proof.
  intros Hl F. unfold lp_row. cbv zeta. pose proof (lp_args relative eps l f Hl) as E.
  change (@ndiv R RNum) with Rdiv. change (@nadd R RNum) with Rplus. change (@nzero R RNum) with 0. rewrite E.
  unfold lp_fn. destruct tr as [g|]; [now apply vectorize_int|contradiction].
Qed.
Lemma lp_lookup_rows relative eps tr scale n (S : list (list R)) (P : nat -> list R -> Prop) : length S = n ->
  (forall i, (i < n)%nat -> exists r, nrm_scale scale (lp_row relative eps tr (nth i S [])) = Ok r /\ P i r) ->
  exists R1, lp_lookup relative eps tr scale S = Ok R1 /\ length R1 = n /\ forall i, (i < n)%nat -> P i (nth i R1 []).
Proof.
  unfold lp_lookup. revert n P. induction S as [|y S IH]; intros n P L A.
  - exists []. split; [reflexivity|]. split; [exact L|]. intros i Hi. cbn in L. lia.
  - cbn in L. subst n. destruct (A 0%nat ltac:(lia)) as [r [E Pr]]. cbn [nth] in E.
    destruct (IH (length S) (fun i => P (Datatypes.S i)) eq_refl) as [R1 [E1 [L1 Q]]]; [intros i Hi; apply (A (Datatypes.S i)); lia|].
    exists (r :: R1). cbn [mapM]. rewrite E, E1. split; [reflexivity|]. split; [cbn; lia|].
    intros [|i] Hi; [exact Pr|]. apply Q. lia.
Qed.
Lemma lp_fn_mono relative eps l f : 0 < eps -> (forall t, (t < l)%nat -> 0 <= f t) ->
  nondecreasing_on f l -> nondecreasing_on (lp_fn relative eps None l f) l.
Proof.
  intros He Hp Hf s t Hst Ht. unfold lp_fn, apply_tr, lp_arg. destruct relative; [|now apply Hf].
  pose proof (Hp (l - 1)%nat ltac:(lia)). apply Rmult_le_compat_r; [|now apply Hf].
  left. apply Rinv_0_lt_compat. lra.
Qed.
Lemma plateau_fold (v : nat -> R) step l f m : (1 <= step)%nat ->
  fold_left (fun w i => py_fill_slice (Some (Z.of_nat (i * step))) (Some (Z.of_nat ((i + 1) * step))) (v i) w)
            (seq 0 m) (tab l f)
  = tab l (fun t => if (t <? m * step)%nat then v (t / step)%nat else f t).
Proof.
  intros Hs. induction m as [|m IH].
  - cbn. reflexivity.
  - rewrite seq_S, fold_left_app. cbn [fold_left Nat.add]. rewrite IH, fill_nat_tab. apply tab_ext. intros t Ht.
    destruct (Nat.leb_spec (m * step) t), (Nat.ltb_spec t ((m + 1) * step)); cbn [andb].
    + destruct (Nat.ltb_spec t (S m * step)); [|lia]. f_equal.
      apply (Nat.div_unique t step m (t - m * step)); nia.
    + destruct (Nat.ltb_spec t (S m * step)); [lia|]. destruct (Nat.ltb_spec t (m * step)); [lia|reflexivity].
    + destruct (Nat.ltb_spec t (S m * step)); [|lia]. destruct (Nat.ltb_spec t (m * step)); [reflexivity|lia].
    + lia.
Qed.
Lemma fill_empty_tab {A} a l (f : nat -> A) v :
  py_fill_slice (Some (Z.of_nat a)) (Some (Z.of_nat a)) v (tab l f) = tab l f.
Proof.
  rewrite fill_nat_tab. apply tab_ext. intros t _.
  destruct (Nat.leb_spec a t), (Nat.ltb_spec t a); cbn [andb]; try reflexivity; lia.
Qed.
Lemma plateaus_row_tab n l : (2 <= n)%nat -> plateaus_row n false l = tab l (plateau n (l / n)).
Proof.
  intros Hn. unfold plateaus_row. set (step := (l / n)%nat). rewrite ones_tab.
  cbn [ndiv RNum]. destruct (Nat.eq_dec step 0) as [E|N].
  - rewrite E. unfold plateau. cbn [Nat.eqb].
    assert (H : forall is, fold_left (fun v i => py_fill_slice (Some (Z.of_nat (i * 0))) (Some (Z.of_nat ((i + 1) * 0)))
        (@nofnat R RNum i / nofnat (n - 1)) v) is (tab l (fun _ => @nunit R RNum)) = tab l (fun _ => 1)).
    { induction is as [|i is IH]; [reflexivity|]. cbn [fold_left]. rewrite !Nat.mul_0_r, fill_empty_tab. apply IH. }
    apply H.
  - rewrite (plateau_fold (fun i => @nofnat R RNum i / nofnat (n - 1))) by lia. apply tab_ext. intros t Ht.
    unfold plateau. replace (step =? 0)%nat with false by (symmetry; now apply Nat.eqb_neq).
    rewrite !nofnat_INR. destruct (Nat.ltb_spec t (n * step)).
    + assert (t / step < n)%nat by (apply Nat.div_lt_upper_bound; nia).
      now rewrite Nat.min_l by lia.
    + assert (n <= t / step)%nat by (apply Nat.div_le_lower_bound; nia).
      rewrite Nat.min_r by lia. cbn [nunit RNum]. field. apply not_0_INR. lia.
Qed.
Lemma plateau_mono n step l : (2 <= n)%nat -> nondecreasing_on (plateau n step) l.
Proof.
  intros Hn s t Hst _. unfold plateau. destruct (Nat.eqb_spec step 0); [lra|].
  apply Rmult_le_compat_r.
  - left. apply Rinv_0_lt_compat. apply lt_0_INR. lia.
  - apply le_INR. assert (s / step <= t / step)%nat by (apply Nat.div_le_mono; lia). lia.
Qed.
Lemma rev_tab {A} n (f : nat -> A) : rev (tab n f) = tab n (fun t => f (n - 1 - t)%nat).
Proof.
  induction n as [|n IH]; [reflexivity|]. rewrite tab_snoc, rev_app_distr. cbn [rev app].
  rewrite IH, tab_S. f_equal; [f_equal; lia|]. apply tab_ext. intros t Ht. f_equal. lia.
Qed.
