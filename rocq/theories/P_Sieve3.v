(** * C52, C53, C55, C57: PPV, CPV, wrappers and fitted bins *)
From Coq Require Import Ascii String List Arith ZArith Bool Reals Permutation Sorting Lia Lra.
From Verif Require Import Num Arr M_Str M_Np M_Prep M_Cache M_Sieve S_ISS S_Prep S_Sieve
  L_Arr L_Tuples L_Str L_Np L_Prep L_Prep2 L_Sieve L_Sieve2 L_Quantile L_RComp P_Sieve P_Sieve2.
Import ListNotations.
Open Scope R_scope.

(** ** C57 *)
(** What fitting looks at: the (iterated) increments for an increment sieve,
    the values themselves for every other sieve (also for CUR). *)
Definition fit_view (k : seg_kind) (f : nat -> R) : nat -> R :=
  match k with KNPI i | KMPI i | KXPI i | KLPI i => inc_view i f | _ => f end.
Lemma shape2_eq V n l (g : nat -> nat -> R) : has_shape2 V n l ->
  (forall i t, (i < n)%nat -> (t < l)%nat -> entry2 V i t = g i t) -> V = tab n (fun i => tab l (g i)).
Proof.
  intros [L F] E. apply (list_ext []); [now rewrite tab_length|]. intros i Hi. rewrite tab_nth by lia.
  rewrite Forall_forall in F. assert (Li : length (nth i V []) = l) by (apply F, nth_In, Hi).
  rewrite (tab_eta' 0 l (nth i V []) Li). apply tab_ext. intros t Ht. apply E; lia.
Qed.
Theorem C57_fitted_edges qf sel c st ca X V n l :
  has_shape2 X n l -> has_shape2 V n l ->
  (forall i t, (i < n)%nat -> (t < l)%nat -> entry2 V i t = fit_view (sg_kind c) (entry2 X i) t) ->
  (forall a b, In (QProb a b) (sg_q c) -> (0 < b)%nat) ->
  exists e, sv_fit qf sel (SSeg c st ca) X = (Ok tt, SSeg c (Some e) ca) /\
    edges_sorted e /\
    exists es, Permutation e es /\ Forall2 (is_edge (all_values V)) (sg_q c) es.
Proof.
  intros HX HV E Hb. eexists. split; [reflexivity|]. split; [apply xsort_sorted|].
  exists (map (edge_fit (concat (pre_transform (sg_kind c) X))) (sg_q c)). split; [apply xsort_perm|].
  assert (EV : V = pre_transform (sg_kind c) X).
  { rewrite (shape2_eq V n l _ HV E).
    assert (M : forall (g : list R -> list R) h, (forall f, g (tab l f) = tab l (h f)) ->
       tab n (fun i => tab l (h (entry2 X i))) = map g X).
    { intros g h Hg. transitivity (map g (tab n (fun i => tab l (entry2 X i)))).
      - rewrite tab_map. apply tab_ext. intros i _. now rewrite Hg.
      - f_equal. symmetry. exact (shape2_eq X n l (entry2 X) HX (fun i t _ _ => eq_refl)). }
    destruct (sg_kind c); cbn [fit_view pre_transform is_inc_kind];
      try (symmetry; exact (shape2_eq X n l (entry2 X) HX (fun i t _ _ => eq_refl)));
      apply M; intros f; apply pre1_tab. }
  unfold all_values. rewrite EV. clear E EV HV V. induction (sg_q c) as [|q qs IH]; [constructor|]. cbn [map]. constructor.
  - destruct q as [| | |a b]; cbn; try reflexivity. eexists. split; [reflexivity|]. apply np_quantile_spec.
    apply (Hb a b). now left.
  - apply IH. intros a b Hq. apply (Hb a b). now right.
Qed.
Print Assumptions C57_fitted_edges.

(** The meaning of a quantile edge v for probability a/b on n values: more than
    a/b (n-1) of them are <= v, at least (1 - a/b)(n-1) of them are >= v. *)
Theorem C57_quantile_rank a b data v : is_quantile a b data v -> (0 < b)%nat -> (a <= b)%nat -> data <> [] ->
  (a * (length data - 1) < b * length (filter (fun x => if Rle_dec x v then true else false) data))%nat /\
  ((b - a) * (length data - 1) <= b * length (filter (fun x => if Rle_dec v x then true else false) data))%nat.
Proof. apply quantile_rank. Qed.
Print Assumptions C57_quantile_rank.

Lemma edges_le e i j : edges_sorted e -> (i <= j)%nat -> (j < length e)%nat -> xle (nth i e NInf) (nth j e NInf).
Proof.
  intros He. revert i j. induction He as [|x e Hs IH Hx]; intros i j Hij Hj; cbn [length] in *; [lia|].
  destruct j as [|j].
  - replace i with 0%nat by lia. cbn. destruct x; cbn; lra.
  - destruct i as [|i]; cbn.
    + rewrite Forall_forall in Hx. apply Hx, nth_In. lia.
    + apply IH; lia.
Qed.
Lemma bin_clash lo hi lo' hi' v : bin lo hi v = true -> bin lo' hi' v = true -> xle hi lo' -> False.
Proof.
  unfold bin. rewrite !andb_true_iff. intros [A1 A2] [B1 B2] L.
  destruct hi as [|h|], lo' as [|g|]; cbn in *; try discriminate; try contradiction.
  destruct (Rle_dec v h); [|discriminate]. destruct (Rlt_dec g v); [|discriminate]. lra.
Qed.
(** Sorted edges give disjoint bins, which cover everything between the first
    and the last edge. *)
Theorem C57_bins_disjoint e v q q' : edges_sorted e -> (S q < length e)%nat -> (S q' < length e)%nat ->
  bin (nth q e NInf) (nth (S q) e NInf) v = true -> bin (nth q' e NInf) (nth (S q') e NInf) v = true -> q = q'.
Proof.
  intros He Hq Hq' B B'. destruct (Nat.lt_trichotomy q q') as [L|[E|L]]; [exfalso|exact E|exfalso].
  - apply (bin_clash _ _ _ _ v B B'). apply edges_le; [exact He|lia|lia].
  - apply (bin_clash _ _ _ _ v B' B). apply edges_le; [exact He|lia|lia].
Qed.
Theorem C57_bins_cover e v : (1 <= length e)%nat -> bin (nth 0 e NInf) (last e NInf) v = true ->
  exists q, (S q < length e)%nat /\ bin (nth q e NInf) (nth (S q) e NInf) v = true.
Proof.
  intros He B. unfold bin in B. apply andb_true_iff in B as [B1 B2].
  assert (G : forall m, (m < length e)%nat ->
     (match nth m e NInf with NInf => true | Fin a => if Rlt_dec a v then true else false | PInf => false end) = true \/
     exists q, (S q < length e)%nat /\ bin (nth q e NInf) (nth (S q) e NInf) v = true).
  { induction m as [|m IH]; intros Hm; [now left|]. destruct (IH ltac:(lia)) as [L|R]; [|now right].
    destruct (nth (S m) e NInf) as [|b|] eqn:E; [now left| |].
    - destruct (Rlt_dec b v); [now left|]. right. exists m. split; [exact Hm|]. unfold bin. rewrite L, E. cbn.
      destruct (Rle_dec v b); [reflexivity|lra].
    - right. exists m. split; [exact Hm|]. unfold bin. rewrite L, E. reflexivity. }
  destruct (G (length e - 1)%nat ltac:(lia)) as [L|R]; [exfalso|exact R].
  rewrite <- (last_nth_S e NInf (length e - 1)) in L by lia.
  destruct (last e NInf) as [|b|]; try discriminate. destruct (Rle_dec v b), (Rlt_dec b v); try discriminate. lra.
Qed.
Print Assumptions C57_bins_disjoint.
Print Assumptions C57_bins_cover.

(** Without fitting the edges are used in the order given: q = (1, 0) yields
    the bin (inf, 0], which no value meets. *)
Theorem C57_unsorted_refuted parse inc cut norm st ca X n l :
  has_shape2 X n l -> (1 <= n)%nat -> (1 <= l)%nat -> cache_fits ca n l ->
  good_norm norm -> Forall (good_cut parse l) cut ->
  exists Y s', sv_transform parse (SSeg (seg_new (KNPI inc) cut (Some [QOne; QZero]) norm) st ca) X = (Ok Y, s') /\
    has_shape2 Y n (length cut) /\ forall i j, (i < n)%nat -> (j < length cut)%nat -> entry2 Y i j = 0.
Proof.
  intros HX Hn Hl HC HN Hcut.
  destruct (C49_segment_features parse (seg_new (KNPI inc) cut (Some [QOne; QZero]) norm) st ca [PInf; Fin 0] X n l)
    as [Y [EY [SY VY]]]; try discriminate; auto.
  - split; [|reflexivity]. intros [a [b H]]. cbn in H. intuition discriminate.
  - exists Y. eexists. split; [exact EY|]. cbn [seg_new sg_cut length Nat.sub] in SY, VY.
    rewrite Nat.mul_1_r in SY. split; [exact SY|]. intros i j Hi Hj. destruct (VY i Hi) as [cs [_ [_ V]]].
    specialize (V j 0%nat Hj ltac:(lia)). rewrite Nat.mul_1_r, Nat.add_0_r in V. unfold entry2. rewrite V.
    cbn [nth]. replace (times_in _ _ _ _) with (@nil nat); [reflexivity|]. unfold times_in.
    induction (seq _ _) as [|t s IH]; [reflexivity|]. cbn [filter]. exact IH.
Qed.
Print Assumptions C57_unsorted_refuted.

(** A sieve that asks for a quantile cannot transform before it was fitted. *)
Theorem C57_unfitted parse c ca X n l :
  has_shape2 X n l -> (1 <= n)%nat -> (1 <= l)%nat -> cache_fits ca n l ->
  good_norm (sg_norm c) -> Forall (good_cut parse l) (sg_cut c) ->
  sg_kind c <> KEND -> asks_quantile (sg_q c) ->
  fst (sv_transform parse (SSeg c None ca) X) = Err AttributeError.
Proof.
  intros HX Hn Hl HC HN Hcut NE HA. rewrite sv_seg.
  destruct (input_fits ca X n l HX HC) as [d [HI Hd]]. unfold seg_transform.
  destruct (shape2_pre (sg_kind c) X n l HX Hn) as [-> ->].
  destruct (cuts_of_spec parse (sg_norm c) (input_of ca X) n d l (sg_cut c) HI Hd Hl HN Hcut) as [cs [Ec _]]. rewrite Ec.
  apply requires_asks in HA. rewrite HA. destruct (sg_kind c); try contradiction; reflexivity.
Qed.
Print Assumptions C57_unfitted.

(** ** C52, C53: PPV and CPV *)
(** Value of a PPV / CPV feature for the condition p on f 0, ..., f (l-1). *)
Definition pv_value (components : bool) (p : R -> bool) (f : nat -> R) (l : nat) : R :=
  if components then 2 * INR (later_runs (fun t => p (f t)) l) / INR (if Nat.odd l then S l else l)
  else INR (length (times_in p f 0 l)) / INR l.
Definition at_least (q : R) (v : R) : bool := if Rle_dec q v then true else false.
Definition between (a b : R) (v : R) : bool := at_least a v && negb (at_least b v).

Lemma nltb_neg a b : @nltb R RNum a b = negb (at_least b a).
Proof.
  unfold at_least. destruct (Rle_dec b a) as [L|N]; cbn [negb].
  - destruct (Rltb_spec' a b); [lra|reflexivity].
  - destruct (Rltb_spec' a b); [reflexivity|lra].
Qed.
Lemma nleb_at_least q v : @nleb R RNum q v = at_least q v.
Proof. unfold at_least. destruct (Rleb_spec q v), (Rle_dec q v); tauto || reflexivity. Qed.
Lemma later_runs_ext b b' l : (forall t, (t < l)%nat -> b t = b' t) -> later_runs b l = later_runs b' l.
Proof.
  intros E. unfold later_runs. f_equal. apply filter_ext_in. intros t Ht. apply in_seq in Ht.
  destruct t as [|t]; [reflexivity|]. cbn. rewrite !E by lia. reflexivity.
Qed.
Lemma times_in_ext p q f a b : (forall v, p v = q v) -> times_in p f a b = times_in q f a b.
Proof. intros E. unfold times_in. apply filter_ext. intros t. apply E. Qed.
Lemma pv_value_eq (cmp : bool) p q (x : list R) l : length x = l -> (1 <= l)%nat -> (forall v, p v = q v) ->
  (if cmp then components p x else fraction p x) = pv_value cmp q (fun t => nth t x 0) l.
Proof.
  intros L Hl E. unfold pv_value. destruct cmp; rewrite (tab_eta' 0 l x L) at 1.
  - rewrite components_tab by exact Hl. rewrite (later_runs_ext _ (fun t => q (nth t x 0))); [reflexivity|].
    intros t Ht. apply E.
  - rewrite fraction_tab. rewrite (times_in_ext p q) by exact E. reflexivity.
Qed.

Lemma fit_from_ok qf sel F qc : forall i,
  Forall (fun qb => snd qb = true \/ 0 <= fst qb <= 1) qc ->
  exists thr, ppv_fit_from qf i qc sel F = (Ok tt, thr) /\ length thr = length qc /\
    forall j, (j < length qc)%nat ->
      nth j thr 0 = if snd (nth j qc (0, true)) then fst (nth j qc (0, true))
                    else qf (fst (nth j qc (0, true))) (concat (map (fun s => nth s F []) (sel (i + j)%nat))).
Proof.
  induction qc as [|[q b] qc IH]; intros i HF.
  - exists []. repeat split. intros j Hj. cbn in Hj. lia.
  - inversion HF as [|? ? H1 H2]; subst. destruct (IH (S i) H2) as [thr [E [L V]]].
    assert (W : forall x, exists thr', (Ok tt, x :: thr) = (Ok tt, thr') /\ length thr' = length ((q, b) :: qc) /\
       nth 0 thr' 0 = x /\ forall j, nth (S j) thr' 0 = nth j thr 0).
    { intros x. exists (x :: thr). cbn [length nth]. repeat split. now rewrite L. }
    destruct b; cbn [ppv_fit_from].
    + rewrite E. destruct (W q) as [thr' [E' [L' [V0 VS]]]]. exists thr'. split; [exact E'|]. split; [exact L'|].
      intros [|j] Hj; [rewrite V0; reflexivity|]. rewrite VS. cbn [nth]. rewrite V by (cbn [length] in Hj; lia).
      now replace (i + S j)%nat with (S i + j)%nat by lia.
    + destruct H1 as [H1|H1]; [discriminate|]. cbn [fst] in H1.
      assert (P : is_prob_value q = true).
      { unfold is_prob_value. destruct (Rleb_spec nzero q) as [|N]; [|cbn in N; lra].
        destruct (Rleb_spec q nunit) as [|N]; [reflexivity|cbn in N; lra]. }
      rewrite P, E. destruct (W (qf q (concat (map (fun s => nth s F []) (sel i))))) as [thr' [E' [L' [V0 VS]]]].
      exists thr'. split; [exact E'|]. split; [exact L'|].
      intros [|j] Hj; [rewrite V0, Nat.add_0_r; reflexivity|]. rewrite VS. cbn [nth]. rewrite V by (cbn [length] in Hj; lia).
      now replace (i + S j)%nat with (S i + j)%nat by lia.
Qed.

(** How a threshold list is used. *)
Lemma ppv_rows cmp segs qc thr (X : list (list R)) n l : has_shape2 X n l -> (1 <= l)%nat ->
  let c := {| pv_components := cmp; pv_qc := qc; pv_segments := segs |} in
  exists Y, ppv_transform c (Some thr) X = Ok Y /\
    has_shape2 Y n (if segs then length thr - 1 else length thr) /\
    forall i j, (i < n)%nat ->
      (segs = false -> (j < length thr)%nat -> entry2 Y i j = pv_value cmp (at_least (nth j thr 0)) (entry2 X i) l) /\
      (segs = true -> (S j < length thr)%nat ->
         entry2 Y i j = pv_value cmp (between (nth j thr 0) (nth (S j) thr 0)) (entry2 X i) l).
Proof.
  intros [L F] Hl c. eexists. split; [reflexivity|].
  assert (Lc : length (ppv_conditions c thr) = if segs then (length thr - 1)%nat else length thr).
  { unfold ppv_conditions, c. cbn [pv_segments]. destruct segs; rewrite map_length; [apply pairs_length|reflexivity]. }
  split; [split; [now rewrite map_length|]|].
  - apply Forall_forall. intros r Hr. apply in_map_iff in Hr as [x [<- _]]. now rewrite map_length.
  - intros i j Hi. unfold entry2 at 1 3.
    assert (Er : forall j d, (j < length (ppv_conditions c thr))%nat ->
      nth j (nth i (map (fun x => map (fun p => if pv_components c then components p x else fraction p x) (ppv_conditions c thr)) X) []) 0
      = (if cmp then components (nth j (ppv_conditions c thr) d) (nth i X [])
         else fraction (nth j (ppv_conditions c thr) d) (nth i X []))).
    { intros j' d Hj'. set (h := fun x => map (fun p => if pv_components c then components p x else fraction p x) (ppv_conditions c thr)).
      rewrite (nth_indep _ [] (h [])) by (rewrite map_length; lia). rewrite map_nth. unfold h.
      set (g := fun p => if pv_components c then components p (nth i X []) else fraction p (nth i X [])).
      rewrite (nth_indep _ 0 (g d)) by (rewrite map_length; lia). rewrite map_nth. reflexivity. }
    assert (Li : length (nth i X []) = l) by (rewrite Forall_forall in F; apply F, nth_In; lia).
    split; intros -> Hj.
    + rewrite (Er j (fun v => nleb 0 v)) by (rewrite Lc; exact Hj). unfold ppv_conditions, c. cbn [pv_segments].
      rewrite (map_nth (fun a v => nleb a v) thr 0 j). apply pv_value_eq; auto.
    + set (h := fun ab : R * R => fun v : R => nleb (fst ab) v && nltb v (snd ab)).
      rewrite (Er j (h (0, 0))) by (rewrite Lc; lia). unfold ppv_conditions, c. cbn [pv_segments]. fold h.
      rewrite (map_nth h), (pairs_nth 0) by lia. apply pv_value_eq; auto. intros v. unfold h, between. cbn [fst snd].
      now rewrite nleb_at_least, nltb_neg.
Qed.

Lemma pv_value_range cmp p f l : (1 <= l)%nat -> 0 <= pv_value cmp p f l <= 1.
Proof.
  intros Hl. unfold pv_value. destruct cmp.
  - set (m := if Nat.odd l then S l else l). assert (Hm : (l <= m)%nat) by (unfold m; destruct (Nat.odd l); lia).
    assert (B : (2 * later_runs (fun t => p (f t)) l <= m)%nat).
    { destruct l as [|l]; [lia|]. pose proof (later_runs_bound (fun t => p (f t)) l) as LB. destruct (p (f l)); lia. }
    assert (0 < INR m) by (apply lt_0_INR; lia). pose proof (pos_INR (later_runs (fun t => p (f t)) l)).
    apply le_INR in B. rewrite mult_INR in B. change (INR 2) with 2 in B.
    split; [apply Rmult_le_pos; [lra|left; now apply Rinv_0_lt_compat]|]. apply (Rmult_le_reg_r (INR m)); [lra|].
    unfold Rdiv. rewrite Rmult_assoc, Rinv_l by lra. lra.
  - assert (0 < INR l) by (apply lt_0_INR; lia). pose proof (times_in_le p f 0 l) as B. rewrite Nat.sub_0_r in B.
    apply le_INR in B. pose proof (pos_INR (length (times_in p f 0 l))).
    split; [apply Rmult_le_pos; [lra|left; now apply Rinv_0_lt_compat]|]. apply (Rmult_le_reg_r (INR l)); [lra|].
    unfold Rdiv. rewrite Rmult_assoc, Rinv_l by lra. lra.
Qed.

Lemma ppv_new_flags cmp quantile constant segs order c : ppv_new (T := R) cmp quantile constant segs order = Ok c ->
  length quantile = length constant /\
  Forall (fun qb => snd qb = true \/ 0 <= fst qb <= 1) (combine quantile constant) /\
  c = {| pv_components := cmp; pv_qc := if segs then qc_sort (combine order constant) else combine quantile constant;
         pv_segments := segs |} /\
  (segs = true -> length quantile <> 1%nat).
Proof.
  unfold ppv_new. destruct (Nat.eqb_spec (length quantile) (length constant)) as [E|]; cbn [negb]; [|discriminate].
  destruct (forallb _ _) eqn:F; cbn [negb]; [|discriminate].
  destruct (segs && (length quantile =? 1)%nat) eqn:G; [discriminate|]. intros H. injection H as <-.
  split; [exact E|]. split; [|split; [reflexivity|]].
  - apply Forall_forall. intros qb Hq. rewrite forallb_forall in F. specialize (F qb Hq). apply orb_true_iff in F as [F|F]; [now left|right].
    unfold is_prob_value in F. destruct (Rleb_spec nzero (fst qb)), (Rleb_spec (fst qb) nunit); try discriminate. cbn in *. lra.
  - intros -> E1. rewrite E1 in G. discriminate.
Qed.

(** PPV (components = false) and CPV (components = true) on a list of
    thresholds: fitting succeeds, a threshold is the given number if flagged
    constant and else the quantile of the drawn series, and feature j is the
    fraction of entries >= threshold j (respectively the normalised number of
    later strips of such entries). *)
Theorem C52_C53_thresholds qf parse components quantile constant order c st ca sel F X n l :
  ppv_new components quantile constant false order = Ok c ->
  has_shape2 X n l -> (1 <= l)%nat ->
  exists thr s', sv_fit qf sel (SPpv c st ca) F = (Ok tt, s') /\
    length thr = length quantile /\
    (forall j, (j < length quantile)%nat ->
       nth j thr 0 = if nth j constant true then nth j quantile 0
                     else qf (nth j quantile 0) (concat (map (fun s => nth s F []) (sel j)))) /\
    exists Y, sv_transform parse s' X = (Ok Y, s') /\ has_shape2 Y n (length quantile) /\ sv_nfeatures s' = length quantile /\
      forall i j, (i < n)%nat -> (j < length quantile)%nat ->
        entry2 Y i j = pv_value components (at_least (nth j thr 0)) (entry2 X i) l /\ 0 <= entry2 Y i j <= 1.
Proof.
  intros Hc HX Hl. destruct (ppv_new_flags _ _ _ _ _ _ Hc) as [Lq [HF [-> _]]]. cbn [negb] in *.
  destruct (fit_from_ok qf sel F (combine quantile constant) 0 HF) as [thr [E [L V]]].
  rewrite combine_length, <- Lq, Nat.min_id in L, V.
  set (c := {| pv_components := components; pv_qc := combine quantile constant; pv_segments := false |}).
  exists thr, (SPpv c (Some thr) ca). split.
  { cbn [sv_fit sv_cache]. unfold ppv_fit. cbn [c pv_qc]. rewrite E. reflexivity. }
  split; [exact L|]. split.
  { intros j Hj. rewrite (V j Hj). rewrite combine_nth by exact Lq. reflexivity. }
  destruct (ppv_rows components false (combine quantile constant) thr X n l HX Hl) as [Y [EY [SY VY]]]. fold c in EY.
  exists Y. cbn [sv_transform sv_cache]. rewrite EY. split; [reflexivity|]. rewrite L in SY. split; [exact SY|]. split.
  { cbn. unfold ppv_nfeatures. cbn. now rewrite combine_length, <- Lq, Nat.min_id. }
  intros i j Hi Hj. rewrite (proj1 (VY i j Hi) eq_refl) by lia. split; [reflexivity|]. now apply pv_value_range.
Qed.
Print Assumptions C52_C53_thresholds.

(** PPV is antitone in the threshold. *)
Theorem C52_antitone q q' f l : (1 <= l)%nat -> q <= q' -> pv_value false (at_least q') f l <= pv_value false (at_least q) f l.
Proof.
  intros Hl Hq. unfold pv_value. assert (0 < INR l) by (apply lt_0_INR; lia).
  apply Rmult_le_compat_r; [left; now apply Rinv_0_lt_compat|]. apply le_INR, times_in_mono.
  intros v. unfold at_least. destruct (Rle_dec q' v), (Rle_dec q v); try discriminate; try reflexivity. lra.
Qed.
Print Assumptions C52_antitone.

(** Sorting of the pairs. *)
Lemma qc_insert_perm x l : Permutation (@qc_insert R RNum x l) (x :: l).
Proof.
  induction l as [|y l IH]; cbn [qc_insert]; [reflexivity|]. destruct (nleb _ _); [reflexivity|].
  rewrite IH. apply perm_swap.
Qed.
Lemma qc_sort_perm l : Permutation (@qc_sort R RNum l) l.
Proof. induction l as [|x l IH]; cbn; [reflexivity|]. rewrite qc_insert_perm. now constructor. Qed.
Lemma qc_insert_sorted x l : StronglySorted (fun a b => fst a <= fst b) l -> StronglySorted (fun a b => fst a <= fst b) (@qc_insert R RNum x l).
Proof.
  induction 1 as [|y l Hs IH Hy]; cbn [qc_insert]; [repeat constructor|].
  destruct (Rleb_spec (fst x) (fst y)).
  - constructor; [now constructor|]. constructor; [lra|]. eapply Forall_impl; [|exact Hy]. cbn; intros; lra.
  - constructor; [exact IH|]. eapply Permutation_Forall; [symmetry; apply qc_insert_perm|]. constructor; [lra|exact Hy].
Qed.
Lemma qc_sort_sorted l : StronglySorted (fun a b => fst a <= fst b) (@qc_sort R RNum l).
Proof. induction l as [|x l IH]; cbn; [constructor|]. now apply qc_insert_sorted. Qed.

Lemma sorted_map_fst (l : list (R * bool)) : StronglySorted (fun a b => fst a <= fst b) l -> StronglySorted Rle (map fst l).
Proof.
  induction 1 as [|x l Hs IH Hx]; cbn; constructor; [exact IH|]. apply Forall_forall. intros v Hv.
  apply in_map_iff in Hv as [y [<- Hy]]. rewrite Forall_forall in Hx. now apply Hx.
Qed.
Lemma sorted_lt_of_le l : StronglySorted Rle l -> NoDup l -> StronglySorted Rlt l.
Proof.
  induction 1 as [|x l Hs IH Hx]; intros ND; constructor; inversion ND; subst; [now apply IH|].
  rewrite Forall_forall in *. intros y Hy. destruct (Hx y Hy); [assumption|]. subst. contradiction.
Qed.
Lemma combine_fst {A B} (l : list A) (m : list B) : (length l <= length m)%nat -> map fst (combine l m) = l.
Proof. revert m. induction l as [|x l IH]; intros [|y m] L; cbn in *; try reflexivity; try lia. f_equal. apply IH. lia. Qed.

Lemma at_least_split q0 q1 q2 v : q0 <= q1 -> q1 <= q2 ->
  ((if between q0 q2 v then 1 else 0) = (if between q0 q1 v then 1 else 0) + (if between q1 q2 v then 1 else 0))%nat.
Proof.
  intros H1 H2. unfold between, at_least. destruct (Rle_dec q0 v), (Rle_dec q1 v), (Rle_dec q2 v); cbn; try reflexivity; lra.
Qed.
Lemma between_sum f l thr : StronglySorted Rle thr -> forall m, (m < length thr)%nat ->
  Rsum_upto (fun j => pv_value false (between (nth j thr 0) (nth (S j) thr 0)) f l) m
  = pv_value false (between (nth 0 thr 0) (nth m thr 0)) f l.
Proof.
  intros Hs m. unfold pv_value. induction m as [|m IH]; intros Hm; cbn [Rsum_upto].
  - replace (times_in _ _ _ _) with (@nil nat); [cbn; lra|]. unfold times_in. symmetry.
    induction (seq 0 (l - 0)) as [|t s IHs]; [reflexivity|]. cbn [filter]. unfold between at 1.
    now rewrite andb_negb_r.
  - rewrite IH by lia. unfold Rdiv. rewrite <- Rmult_plus_distr_r, <- plus_INR. f_equal. f_equal. symmetry. unfold times_in.
    apply filter_length_sum. intros t. apply at_least_split; apply sorted_R_nth; auto; lia.
Qed.

(** With segments and all thresholds constant: the thresholds in use are the
    given ones in increasing order without repetitions, and the features are
    the fractions (or normalised strip counts) in [thr_j, thr_{j+1}).  [order]
    is any enumeration of the set of thresholds. *)
Theorem C52_C53_segments qf parse components quantile constant order c st ca sel F X n l :
  ppv_new components quantile constant true order = Ok c ->
  NoDup order -> (forall q, In q order <-> In q quantile) -> (forall b, In b constant -> b = true) ->
  has_shape2 X n l -> (1 <= l)%nat ->
  exists thr s', sv_fit qf sel (SPpv c st ca) F = (Ok tt, s') /\
    StronglySorted Rlt thr /\ (forall q, In q thr <-> In q quantile) /\
    exists Y, sv_transform parse s' X = (Ok Y, s') /\ has_shape2 Y n (length thr - 1) /\ sv_nfeatures s' = (length thr - 1)%nat /\
      forall i, (i < n)%nat ->
        (forall j, (S j < length thr)%nat ->
          entry2 Y i j = pv_value components (between (nth j thr 0) (nth (S j) thr 0)) (entry2 X i) l /\ 0 <= entry2 Y i j <= 1) /\
        (components = false -> thr <> [] ->
           Rsum (nth i Y []) = pv_value false (between (nth 0 thr 0) (last thr 0)) (entry2 X i) l).
Proof.
  intros Hc ND HS HT HX Hl. destruct (ppv_new_flags _ _ _ _ _ _ Hc) as [Lq [HF [-> Hn1]]].
  set (qc := qc_sort (combine order constant)).
  assert (Lo : (length order <= length quantile)%nat).
  { apply NoDup_incl_length; [exact ND|]. intros q Hq. now apply HS. }
  assert (Pq : Permutation (map fst qc) order).
  { unfold qc. rewrite (Permutation_map fst (qc_sort_perm (combine order constant))). rewrite combine_fst by lia. reflexivity. }
  assert (Ft : forall j, (j < length qc)%nat -> snd (nth j qc (0, true)) = true).
  { intros j Hj. assert (K : In (nth j qc (0, true)) (combine order constant)).
    { eapply Permutation_in; [apply qc_sort_perm|]. apply nth_In, Hj. }
    destruct (nth j qc (0, true)) as [a b]. apply in_combine_r in K. cbn. now apply HT. }
  destruct (fit_from_ok qf sel F qc 0) as [thr [E [L V]]].
  { apply Forall_forall. intros qb Hq. apply (In_nth _ _ (0, true)) in Hq as [j [Hj <-]]. left. now apply Ft. }
  assert (Et : thr = map fst qc).
  { apply (list_ext 0); [now rewrite map_length|]. intros j Hj. rewrite L in Hj. rewrite V by exact Hj. rewrite Ft by exact Hj.
    rewrite (nth_indep _ 0 (fst (0, true))) by (rewrite map_length; exact Hj). now rewrite map_nth. }
  assert (SL : StronglySorted Rle thr) by (rewrite Et; apply sorted_map_fst, qc_sort_sorted).
  set (c := {| pv_components := components; pv_qc := qc; pv_segments := true |}).
  exists thr, (SPpv c (Some thr) ca). split.
  { cbn [sv_fit sv_cache]. unfold ppv_fit. cbn [c pv_qc]. rewrite E. reflexivity. }
  split. { apply sorted_lt_of_le; [exact SL|]. rewrite Et. eapply Permutation_NoDup; [symmetry; exact Pq|exact ND]. }
  split. { intros q. rewrite <- HS, Et. split; intros K; (eapply Permutation_in; [|exact K]); [exact Pq|now symmetry]. }
  destruct (ppv_rows components true qc thr X n l HX Hl) as [Y [EY [SY VY]]]. fold c in EY.
  exists Y. cbn [sv_transform sv_cache]. rewrite EY. split; [reflexivity|]. split; [exact SY|]. split.
  { cbn [sv_nfeatures]. unfold ppv_nfeatures. cbn [c pv_segments pv_qc]. now rewrite L. }
  intros i Hi. split.
  { intros j Hj. rewrite (proj2 (VY i j Hi) eq_refl) by lia. split; [reflexivity|]. now apply pv_value_range. }
  intros -> Hne. rewrite Rsum_nth. destruct SY as [LY FY]. rewrite Forall_forall in FY.
  rewrite (FY (nth i Y [])) by (apply nth_In; lia).
  assert (Lt : length thr = S (length thr - 1)) by (destruct thr; [contradiction|cbn; lia]).
  rewrite (last_nth_S thr 0 (length thr - 1) Lt). rewrite <- between_sum by (assumption || lia).
  apply Rsum_upto_ext'. intros j Hj. change (nth j (nth i Y []) 0) with (entry2 Y i j).
  apply (proj2 (VY i j Hi) eq_refl). lia.
Qed.
Print Assumptions C52_C53_segments.

(** A non-trivial instance of the hypotheses: thresholds 2, 1/2, 2 given in
    this order with all flags set. *)
Example C52_segments_instance : exists c,
  ppv_new (T := R) false [2; 1/2; 2] [true; true; true] true [2; 1/2] = Ok c /\
  NoDup [2; 1/2] /\ (forall q, In q [2; 1/2] <-> In q [2; 1/2; 2]).
Proof.
  eexists. split; [reflexivity|]. split.
  - repeat constructor; cbn; intuition lra.
  - intros q. cbn. intuition.
Qed.

(** Flags and thresholds are paired after the thresholds went through a set:
    for the thresholds 2 (constant) and 1/2 (a probability) and the set order
    (1/2, 2) the constructor accepts the arguments, but fitting then asks for
    the quantile of probability 2 and raises. *)
Theorem C52_pairing_refuted : exists c,
  ppv_new (T := R) false [2; 1/2] [true; false] true [1/2; 2] = Ok c /\
  forall qf sel F st ca, fst (sv_fit qf sel (SPpv c st ca) F) = Err ValueError.
Proof.
  exists {| pv_components := false; pv_qc := [(1/2, true); (2, false)]; pv_segments := true |}. split.
  - unfold ppv_new. cbn [length Nat.eqb negb combine forallb snd fst orb andb].
    unfold is_prob_value. destruct (Rleb_spec nzero (1/2)) as [|N]; [|cbn in N; lra].
    destruct (Rleb_spec (1/2) nunit) as [|N]; [|cbn in N; lra]. cbn [andb negb qc_sort fold_right qc_insert fst].
    destruct (Rleb_spec (1/2) 2) as [|N]; [|lra]. reflexivity.
  - intros qf sel F st ca. cbn [sv_fit sv_cache]. unfold ppv_fit. cbn [pv_qc ppv_fit_from].
    unfold is_prob_value. destruct (Rleb_spec 2 nunit) as [L|N]; [cbn in L; lra|]. rewrite andb_false_r. reflexivity.
Qed.
Print Assumptions C52_pairing_refuted.

(** The number of all maximal strips is the number CPV counts, plus one if the
    series starts inside a strip. *)
Theorem C53_strips b n : (1 <= n)%nat -> all_runs b n = (later_runs b n + (if b 0%nat then 1 else 0))%nat.
Proof. apply runs_first. Qed.
Print Assumptions C53_strips.
(** Documented: the number of strips of entries >= quantile.  The series (1, 0)
    has one strip for the threshold 1, CPV returns 0. *)
Theorem C53_documented_refuted : exists c,
  ppv_new_scalar (T := R) true 1 true false = Ok c /\
  (forall qf parse sel F ca, exists s', sv_fit qf sel (SPpv c None ca) F = (Ok tt, s') /\
     fst (sv_transform parse s' [[1; 0]]) = Ok [[0]]) /\
  all_runs (fun t => at_least 1 (nth t [1; 0] 0)) 2 = 1%nat.
Proof.
  eexists. split; [reflexivity|]. split.
  - intros qf parse sel F ca. eexists. split; [reflexivity|]. destruct ca; rcompute.
  - unfold all_runs, at_least. cbn. destruct (Rle_dec 1 1); [|lra]. destruct (Rle_dec 1 0); [lra|]. reflexivity.
Qed.
Print Assumptions C53_documented_refuted.

(** ** C55: wrappers *)
Lemma rows_map (g : list R -> list R) h X V n l : (forall f, g (tab l f) = tab l (h f)) ->
  has_shape2 X n l -> has_shape2 V n l ->
  (forall i t, (i < n)%nat -> (t < l)%nat -> entry2 V i t = h (entry2 X i) t) -> map g X = V.
Proof.
  intros Hg HX HV E. rewrite (shape2_eq V n l _ HV E).
  transitivity (map g (tab n (fun i => tab l (entry2 X i)))).
  - f_equal. exact (shape2_eq X n l (entry2 X) HX (fun i t _ _ => eq_refl)).
  - rewrite tab_map. apply tab_ext. intros i _. apply Hg.
Qed.
(** INT evaluates the wrapped sieve on the cumulative sums. *)
Theorem C55_int qf sel parse s ca X V n l : has_shape2 X n l -> has_shape2 V n l ->
  (forall i t, (i < n)%nat -> (t < l)%nat -> entry2 V i t = Rsum_upto (entry2 X i) (S t)) ->
  fst (sv_transform parse (SInt s ca) X) = fst (sv_transform parse s V) /\
  fst (sv_fit qf sel (SInt s ca) X) = fst (sv_fit qf sel s V) /\
  (forall s1, sv_fit qf sel s V = (Ok tt, s1) -> sv_fit qf sel (SInt s ca) X = (Ok tt, SInt s1 ca)).
Proof.
  intros HX HV E. assert (EV : map cumsum X = V) by (apply (rows_map cumsum running_sum X V n l (cumsum_running l) HX HV); exact E).
  cbn [sv_transform sv_fit sv_cache]. rewrite EV. split; [|split].
  - destruct (sv_transform parse s V) as [[r|e] s']; reflexivity.
  - destruct (sv_fit qf sel s V) as [[r|e] s']; [destruct r|]; reflexivity.
  - intros s1 ->. reflexivity.
Qed.
Print Assumptions C55_int.

Lemma mapM_rows (g : list R -> res (list R)) h X V n l : (forall f, g (tab l f) = Ok (tab l (h f))) ->
  has_shape2 X n l -> has_shape2 V n l ->
  (forall i t, (i < n)%nat -> (t < l)%nat -> entry2 V i t = h (entry2 X i) t) -> mapM g X = Ok V.
Proof.
  intros Hg HX HV E. rewrite (mapM_ok g (fun x => match g x with Ok y => y | Err _ => [] end)).
  - f_equal. apply (rows_map _ h X V n l); auto. intros f. now rewrite Hg.
  - intros x Hx. destruct HX as [_ F]. rewrite Forall_forall in F. rewrite (tab_eta' 0 l x (F x Hx)). now rewrite Hg.
Qed.
(** INC with depth >= 1 evaluates the wrapped sieve on the increments of lag
    [shift] -- once, whatever the depth; with depth 0 on the input itself. *)
Theorem C55_inc qf sel parse s ca depth shift X V n l : has_shape2 X n l -> has_shape2 V n l ->
  (1 <= depth)%nat -> (1 <= shift)%nat ->
  (forall i t, (i < n)%nat -> (t < l)%nat -> entry2 V i t = diff shift (entry2 X i) t) ->
  fst (sv_transform parse (SInc s depth (Z.of_nat shift) ca) X) = fst (sv_transform parse s V) /\
  fst (sv_fit qf sel (SInc s depth (Z.of_nat shift) ca) X) = fst (sv_fit qf sel s V) /\
  (forall s1, sv_fit qf sel s V = (Ok tt, s1) ->
     sv_fit qf sel (SInc s depth (Z.of_nat shift) ca) X = (Ok tt, SInc s1 depth (Z.of_nat shift) ca)).
Proof.
  intros HX HV Hd Hs E. destruct depth as [|depth]; [lia|].
  assert (EV : wrap_inc (S depth) (Z.of_nat shift) X X = Ok V).
  { rewrite wrap_inc_depth. apply (mapM_rows _ (diff shift) X V n l); auto. intros f. now apply increments1_tab. }
  cbn [sv_transform sv_fit sv_cache]. rewrite EV. split; [|split].
  - destruct (sv_transform parse s V) as [[r|e] s']; reflexivity.
  - destruct (sv_fit qf sel s V) as [[r|e] s']; [destruct r|]; reflexivity.
  - intros s1 ->. reflexivity.
Qed.
Print Assumptions C55_inc.
Theorem C55_inc_depth_zero {T} `{Num T} parse (s : sieve T) ca shift X :
  fst (sv_transform parse (SInc s 0 shift ca) X) = fst (sv_transform parse s X).
Proof. cbn [sv_transform wrap_inc]. destruct (sv_transform parse s X) as [[r|e] s']; reflexivity. Qed.
Theorem C55_inc_depth_ineffective {T} `{Num T} parse (s : sieve T) ca depth shift X : (1 <= depth)%nat ->
  fst (sv_transform parse (SInc s depth shift ca) X) = fst (sv_transform parse (SInc s 1 shift ca) X).
Proof.
  intros Hd. destruct depth as [|depth]; [lia|]. cbn [sv_transform].
  change (match sv_cache (SInc s (S depth) shift ca) with Some i => i | None => map (fun x => [x]) X end)
    with (match sv_cache (SInc s 1 shift ca) with Some i => i | None => map (fun x => [x]) X end).
  rewrite (wrap_inc_depth depth), (wrap_inc_depth 0).
  destruct (mapM (increments1 shift) X) as [Y|e]; [|reflexivity].
  destruct (sv_transform parse s Y) as [[r|e] s']; reflexivity.
Qed.
Print Assumptions C55_inc_depth_ineffective.
(** Documented: INC(s, depth=2) is INC(INC(s)).  On (0, 1, 3) with the last
    value as feature the former gives 2, the latter 1. *)
Theorem C55_inc_depth_refuted parse :
  let s := SSeg (seg_new KEND [CutI (-1)] None (str "L2")) None None in
  fst (sv_transform parse (SInc s 2 1 None) [[0; 1; 3]]) = Ok [[2]] /\
  fst (sv_transform parse (SInc (SInc s 1 1 None) 1 1 None) [[0; 1; 3]]) = Ok [[1]].
Proof. split; rcompute. Qed.
Print Assumptions C55_inc_depth_refuted.

(** INT(INC(s)) sees the input with its first value replaced by 0, INC(INT(s))
    the input minus its first value. *)
Theorem C55_int_of_inc parse s ca ca' X V n l : has_shape2 X n l -> has_shape2 V n l ->
  (forall i t, (i < n)%nat -> (t < l)%nat -> entry2 V i t = if (t =? 0)%nat then 0 else entry2 X i t) ->
  fst (sv_transform parse (SInt (SInc s 1 1 ca) ca') X) = fst (sv_transform parse s V).
Proof.
  intros HX HV E. set (W := tab n (fun i => tab l (running_sum (entry2 X i)))).
  assert (HW : has_shape2 W n l).
  { split; [apply tab_length|]. apply Forall_forall. intros r Hr. unfold W, tab in Hr. apply in_map_iff in Hr as [i [<- _]]. apply tab_length. }
  assert (EW : forall i t, (i < n)%nat -> (t < l)%nat -> entry2 W i t = Rsum_upto (entry2 X i) (S t)).
  { intros i t Hi Ht. unfold entry2, W. rewrite !tab_nth by assumption. reflexivity. }
  rewrite (proj1 (C55_int (fun _ _ => 0) (fun _ => []) parse (SInc s 1 1 ca) ca' X W n l HX HW EW)).
  change 1%Z with (Z.of_nat 1).
  apply (proj1 (C55_inc (fun _ _ => 0) (fun _ => []) parse s ca 1 1 W V n l HW HV (le_n _) (le_n _)
    ltac:(intros i t Hi Ht; rewrite (E i t Hi Ht); unfold diff; destruct t as [|t];
          [reflexivity|cbn [Nat.ltb Nat.leb Nat.eqb]; rewrite !EW by lia; rewrite Nat.sub_succ, Nat.sub_0_r; cbn [Rsum_upto]; lra]))).
Qed.
Print Assumptions C55_int_of_inc.
Theorem C55_inc_of_int parse s ca ca' X V n l : has_shape2 X n l -> has_shape2 V n l ->
  (forall i t, (i < n)%nat -> (t < l)%nat -> entry2 V i t = entry2 X i t - entry2 X i 0) ->
  fst (sv_transform parse (SInc (SInt s ca) 1 1 ca') X) = fst (sv_transform parse s V).
Proof.
  intros HX HV E. set (W := tab n (fun i => tab l (diff 1 (entry2 X i)))).
  assert (HW : has_shape2 W n l).
  { split; [apply tab_length|]. apply Forall_forall. intros r Hr. unfold W, tab in Hr. apply in_map_iff in Hr as [i [<- _]]. apply tab_length. }
  assert (EW : forall i t, (i < n)%nat -> (t < l)%nat -> entry2 W i t = diff 1 (entry2 X i) t).
  { intros i t Hi Ht. unfold entry2 at 1, W. rewrite !tab_nth by assumption. reflexivity. }
  change 1%Z with (Z.of_nat 1).
  rewrite (proj1 (C55_inc (fun _ _ => 0) (fun _ => []) parse (SInt s ca) ca' 1 1 X W n l HX HW (le_n _) (le_n _) EW)).
  apply (proj1 (C55_int (fun _ _ => 0) (fun _ => []) parse s ca W V n l HW HV
    ltac:(intros i t Hi Ht; rewrite (E i t Hi Ht); induction t as [|t IH];
          [cbn [Rsum_upto]; rewrite EW by lia; unfold diff; cbn; lra
          |change (Rsum_upto (entry2 W i) (S (S t))) with (Rsum_upto (entry2 W i) (S t) + entry2 W i (S t));
           rewrite <- IH by lia; rewrite EW by lia; unfold diff; cbn [Nat.ltb Nat.leb]; rewrite Nat.sub_succ, Nat.sub_0_r; lra]))).
Qed.
Print Assumptions C55_inc_of_int.

(** requires_fitting says whether the sieve has to be fitted, through any
    number of wrappers: if it is False, fitting does not change what transform
    returns; if it is True, transform raises until fit was called, except for
    END, which accepts quantiles but ignores them. *)
Fixpoint never_fitted {T} (s : sieve T) : Prop :=
  match s with SSeg _ st _ => st = None | SPpv _ st _ => st = None | SInc i _ _ _ => never_fitted i | SInt i _ => never_fitted i end.
Fixpoint wraps_END {T} (s : sieve T) : Prop :=
  match s with SSeg c _ _ => sg_kind c = KEND | SPpv _ _ _ => False | SInc i _ _ _ => wraps_END i | SInt i _ => wraps_END i end.
Theorem C57_not_required {T} `{Num T} qf parse (s s' : sieve T) sel F X :
  sv_requires s = false -> sv_fit qf sel s F = (Ok tt, s') -> fst (sv_transform parse s' X) = fst (sv_transform parse s X).
Proof.
  revert s' F X. induction s as [c st ca|c st ca|i IH d k ca|i IH ca]; intros s' F X Q E; cbn [sv_requires] in Q; cbn [sv_fit sv_cache] in E.
  - injection E as <-. cbn [sv_transform sv_cache]. unfold seg_transform.
    replace (seg_requires c) with false.
    destruct (sg_kind c); try (destruct (let! e := mapM edge_plain (sg_q c) in Ok (Some e)) as [st'|e]); cbn [fst];
      repeat match goal with |- context [match ?x with Ok _ => _ | Err _ => _ end] => destruct x end; reflexivity.
  - discriminate.
  - destruct (wrap_inc d k F F) as [Y|e]; [|discriminate]. destruct (sv_fit qf sel i Y) as [[[]|e] i'] eqn:Ei; [|discriminate].
    injection E as <-. cbn [sv_transform sv_cache]. destruct (wrap_inc d k X X) as [Z|e]; [|reflexivity].
    specialize (IH _ _ Z Q Ei). destruct (sv_transform parse i' Z) as [[r|e] i1], (sv_transform parse i Z) as [[r'|e'] i2]; cbn [fst] in *; congruence.
  - destruct (sv_fit qf sel i (map cumsum F)) as [[[]|e] i'] eqn:Ei; [|discriminate].
    injection E as <-. cbn [sv_transform sv_cache].
    specialize (IH _ _ (map cumsum X) Q Ei). destruct (sv_transform parse i' _) as [[r|e] i1], (sv_transform parse i _) as [[r'|e'] i2]; cbn [fst] in *; congruence.
Qed.
Print Assumptions C57_not_required.
Theorem C57_required {T} `{Num T} parse (s : sieve T) X :
  sv_requires s = true -> never_fitted s -> ~ wraps_END s ->
  (exists e, fst (sv_transform parse s X) = Err e) /\ never_fitted (snd (sv_transform parse s X)).
Proof.
  revert X. induction s as [c st ca|c st ca|i IH d k ca|i IH ca]; intros X Q N E; cbn [sv_requires never_fitted wraps_END] in *.
  - subst st. cbn [sv_transform sv_cache]. unfold seg_transform. rewrite Q.
    destruct (sg_kind c); try contradiction;
      (split; [destruct (cuts_of _ _ _ _ _) as [cs|e]; cbn; eauto|]; destruct (cuts_of _ _ _ _ _) as [cs|e]; reflexivity).
  - subst st. cbn. split; [eexists; reflexivity|reflexivity].
  - cbn [sv_transform sv_cache]. destruct (wrap_inc d k X X) as [Z|e]; [|split; [eexists; reflexivity|exact N]].
    destruct (IH Z Q N E) as [[e He] M]. destruct (sv_transform parse i Z) as [[r|e'] i1]; cbn [fst snd never_fitted] in *; [discriminate|].
    split; [eexists; reflexivity|exact M].
  - cbn [sv_transform sv_cache]. destruct (IH (map cumsum X) Q N E) as [[e He] M].
    destruct (sv_transform parse i _) as [[r|e'] i1]; cbn [fst snd never_fitted] in *; [discriminate|]. split; [eexists; reflexivity|exact M].
Qed.
Print Assumptions C57_required.
(** Both cases occur behind wrappers, and a wrapped sieve that was fitted does transform. *)
Example C57_wrapped_required parse :
  let s := SInt (SInc (SSeg (seg_new (KNPI 0) [CutI (-1)] (Some [QNeg; QProb 1 2]) (str "L2")) None None) 1 1 None) None in
  sv_requires s = true /\ never_fitted s /\ ~ wraps_END s /\
  exists s', sv_fit (fun _ _ => 0) (fun _ => []) s [[0; 1]] = (Ok tt, s') /\ exists R, fst (sv_transform parse s' [[0; 1]]) = Ok R.
Proof. repeat split; try discriminate. eexists. split; [reflexivity|]. eexists. reflexivity. Qed.
Example C57_wrapped_not_required :
  sv_requires (SInc (SSeg (seg_new (KNPI 0) [CutI (-1)] None (str "L2")) None None) 1 1 None : sieve R) = false.
Proof. reflexivity. Qed.
