(** * C50, C51, C57: MAX, MIN, END, AVG, STD and bins *)
From Coq Require Import Ascii String List Arith ZArith Bool Reals Permutation Sorting Lia Lra.
From Verif Require Import Num Arr M_Str M_Np M_Prep M_Cache M_Sieve S_ISS S_Prep S_Sieve
  L_Arr L_Tuples L_Str L_Np L_Prep L_Prep2 L_Sieve L_Sieve2 L_RComp P_Sieve.
Import ListNotations.
Open Scope R_scope.

(** ** The borders are determined by the cuts *)
Lemma stands_for_unique parse norm f l c p p' :
  cut_stands_for parse norm f l c p -> cut_stands_for parse norm f l c p' -> p = p'.
Proof.
  destruct c as [z|r]; cbn [cut_stands_for].
  - lia.
  - intros [B [q [Eq V]]] [B' [q' [Eq' V']]]. assert (q = q') by congruence. subst q'.
    destruct (Nat.lt_trichotomy p p') as [L|[E|L]]; [|exact E|]; exfalso.
    + assert (K : (p < l)%nat) by lia. pose proof (proj1 (V' p K) L) as W. apply (V p K) in W. lia.
    + assert (K : (p' < l)%nat) by lia. pose proof (proj1 (V p' K) L) as W. apply (V' p' K) in W. lia.
Qed.
Lemma nat_sorted_unique l m : StronglySorted le l -> StronglySorted le m -> Permutation l m -> l = m.
Proof.
  revert m. induction l as [|x l IH]; intros m Hl Hm P.
  - now apply Permutation_nil in P.
  - destruct m as [|y m]; [symmetry in P; now apply Permutation_nil_cons in P|].
    inversion Hl as [|? ? Hl1 Hl2]; inversion Hm as [|? ? Hm1 Hm2]; subst.
    assert (x = y).
    { apply Nat.le_antisymm.
      - assert (K : In y (x :: l)) by (eapply Permutation_in; [symmetry; exact P|now left]).
        destruct K as [->|K]; [lia|]. rewrite Forall_forall in Hl2. auto.
      - assert (K : In x (y :: m)) by (eapply Permutation_in; [exact P|now left]).
        destruct K as [->|K]; [lia|]. rewrite Forall_forall in Hm2. auto. }
    subst y. f_equal. apply IH; auto. now apply Permutation_cons_inv in P.
Qed.
Theorem borders_unique parse norm f l cut cs cs' :
  borders parse norm f l cut cs -> borders parse norm f l cut cs' -> cs = cs'.
Proof.
  intros [S1 [_ [ps [P1 F1]]]] [S2 [_ [ps' [P2 F2]]]]. apply nat_sorted_unique; [exact S1|exact S2|].
  assert (E : ps = ps').
  { clear - F1 F2. revert ps' F2. induction F1 as [|c p cut ps H1 F1 IH]; intros ps' F2; inversion F2; subst; [reflexivity|].
    f_equal; [eapply stands_for_unique; eassumption|]. now apply IH. }
  subst ps'. now rewrite P1, P2.
Qed.

(** ** C50: MAX and MIN *)
Theorem C50_max_min parse c st ca e X n l :
  has_shape2 X n l -> (1 <= n)%nat -> (1 <= l)%nat -> cache_fits ca n l ->
  good_norm (sg_norm c) -> Forall (good_cut parse l) (sg_cut c) ->
  sg_kind c = KMAX \/ sg_kind c = KMIN ->
  edges_of (sg_q c) st e -> e <> [] ->
  (** every bin meets every non-empty segment *)
  (forall i cs j q, (i < n)%nat -> borders parse (sg_norm c) (cut_series ca X i) l (sg_cut c) cs ->
     (j < length (sg_cut c))%nat -> (q < length e - 1)%nat -> (nth j cs 0 < nth (S j) cs 0)%nat ->
     times_in (bin (nth q e NInf) (nth (S q) e NInf)) (entry2 X i) (nth j cs 0%nat) (nth (S j) cs 0%nat) <> []) ->
  exists Y, sv_transform parse (SSeg c st ca) X = (Ok Y, SSeg c (Some e) ca) /\
    has_shape2 Y n (length (sg_cut c) * (length e - 1)) /\
    forall i, (i < n)%nat -> exists cs,
      borders parse (sg_norm c) (cut_series ca X i) l (sg_cut c) cs /\ length cs = S (length (sg_cut c)) /\
      forall j q, (j < length (sg_cut c))%nat -> (q < length e - 1)%nat ->
        feature (sg_kind c) (entry2 X i) (nth j cs 0%nat) (nth (S j) cs 0%nat) (nth q e NInf) (nth (S q) e NInf)
          (nth (j * (length e - 1) + q) (nth i Y []) 0).
Proof.
  intros HX Hn Hl HC HN Hcut Hk HE Hne Hb.
  destruct (input_fits ca X n l HX HC) as [d [HI Hd]].
  destruct (seg_transform_spec parse c st e X n l (input_of ca X) d
     (fun i a b lo hi => a = b \/ times_in (bin lo hi) (entry2 X i) a b <> [])) as [Y [EY [SY VY]]]; auto.
  - destruct Hk as [-> | ->]; discriminate.
  - now apply edges_of_used.
  - intros i Hi a b lo hi Hab Hbl HP. destruct Hk as [Ek|Ek]; rewrite Ek; cbn [view].
    + now apply cell_max_spec.
    + now apply cell_min_spec.
  - intros i cs Hi B Lc j q Hj Hq. rewrite input_entry in B.
    destruct (Nat.eq_dec (nth j cs 0%nat) (nth (S j) cs 0%nat)) as [E|N]; [now left|right].
    apply (Hb i cs j q Hi B Hj Hq). destruct B as [Sc _].
    pose proof (sorted_nth_le cs j Sc ltac:(lia)). lia.
  - exists Y. rewrite sv_seg, EY. split; [reflexivity|]. split; [exact SY|]. intros i Hi.
    rewrite <- input_entry. apply VY, Hi.
Qed.
Print Assumptions C50_max_min.

Lemma bin_all f a b : times_in (bin NInf PInf) f a b = seq a (b - a).
Proof.
  unfold times_in. induction (seq a (b - a)) as [|t s IH]; [reflexivity|]. cbn [filter].
  change (bin NInf PInf (f t)) with true. cbv iota. now rewrite IH.
Qed.

(** With the default edges (-inf, inf) nothing is required, and the features
    are the maximum or minimum of each segment. *)
Theorem C50_default_edges parse k cut norm st ca X n l :
  has_shape2 X n l -> (1 <= n)%nat -> (1 <= l)%nat -> cache_fits ca n l ->
  good_norm norm -> Forall (good_cut parse l) cut -> k = KMAX \/ k = KMIN ->
  exists Y s', sv_transform parse (SSeg (seg_new k cut None norm) st ca) X = (Ok Y, s') /\
    has_shape2 Y n (sv_nfeatures s') /\
    forall i, (i < n)%nat -> exists cs,
      borders parse norm (cut_series ca X i) l cut cs /\
      forall j, (j < length cut)%nat ->
        let a := nth j cs 0%nat in let b := nth (S j) cs 0%nat in
        let v := nth j (nth i Y []) 0 in
        (a = b -> v = 0) /\
        (a <> b -> (exists t, (a <= t < b)%nat /\ entry2 X i t = v) /\
           forall t, (a <= t < b)%nat -> match k with KMAX => entry2 X i t <= v | _ => v <= entry2 X i t end).
Proof.
  intros HX Hn Hl HC HN Hcut Hk. set (c := seg_new k cut None norm).
  assert (Ec : sg_kind c = k /\ sg_cut c = cut /\ sg_norm c = norm /\ sg_q c = [QNeg; QOne]).
  { destruct Hk as [-> | ->]; repeat split. }
  destruct Ec as [E1 [E2 [E3 E4]]].
  destruct (C50_max_min parse c st ca [NInf; PInf] X n l) as [Y [EY [SY VY]]]; rewrite ?E1, ?E2, ?E3, ?E4; auto.
  - split; [|reflexivity]. intros [a [b H]]. cbn in H. intuition discriminate.
  - discriminate.
  - intros i cs j q Hi B Hj Hq Hlt. cbn [length] in Hq. replace q with 0%nat by lia. cbn [nth].
    rewrite bin_all. intros E. apply (f_equal (@length nat)) in E. rewrite seq_length in E. cbn in E. lia.
  - exists Y, (SSeg c (Some [NInf; PInf]) ca). split; [exact EY|]. split.
    + cbn [sv_nfeatures]. unfold seg_nfeatures. rewrite E4. exact SY.
    + intros i Hi. destruct (VY i Hi) as [cs [B [Lc V]]]. rewrite E2, E3 in B. exists cs. split; [exact B|].
      rewrite E2 in V. intros j Hj a b v. specialize (V j 0%nat Hj ltac:(cbn; lia)). rewrite E1 in V.
      cbn [length nth] in V. replace (j * (2 - 1) + 0)%nat with j in V by lia. fold v a b in V.
      assert (S1 : forall t, In t (times_in (bin NInf PInf) (entry2 X i) a b) <-> (a <= t < b)%nat).
      { intros t. rewrite bin_all, in_seq. lia. }
      destruct Hk as [-> | ->]; cbn [feature] in V; destruct V as [V1 V2]; (split; [exact V1|]); intros N; destruct (V2 N) as [W1 W2].
      * split; [|intros t Ht; apply W2, S1, Ht]. apply in_map_iff in W1 as [t [Et Ht]]. exists t. split; [now apply S1|exact Et].
      * split; [|intros t Ht; apply W2, S1, Ht]. apply in_map_iff in W1 as [t [Et Ht]]. exists t. split; [now apply S1|exact Et].
Qed.
Print Assumptions C50_default_edges.

(** A non-empty segment without any value in some bin makes MAX and MIN raise. *)
Theorem C50_empty_bin_raises parse c st ca e X n l i cs j q :
  has_shape2 X n l -> (1 <= n)%nat -> (1 <= l)%nat -> cache_fits ca n l ->
  good_norm (sg_norm c) -> Forall (good_cut parse l) (sg_cut c) ->
  sg_kind c = KMAX \/ sg_kind c = KMIN ->
  edges_of (sg_q c) st e ->
  (i < n)%nat -> borders parse (sg_norm c) (cut_series ca X i) l (sg_cut c) cs ->
  (j < length (sg_cut c))%nat -> (q < length e - 1)%nat ->
  (nth j cs 0 < nth (S j) cs 0)%nat ->
  times_in (bin (nth q e NInf) (nth (S q) e NInf)) (entry2 X i) (nth j cs 0%nat) (nth (S j) cs 0%nat) = [] ->
  fst (sv_transform parse (SSeg c st ca) X) = Err ValueError.
Proof.
  intros HX Hn Hl HC HN Hcut Hk HE Hi B Hj Hq Hlt Hempty. rewrite sv_seg.
  destruct (input_fits ca X n l HX HC) as [d [HI Hd]].
  assert (Hne : e <> []) by (intros ->; cbn in Hq; lia).
  rewrite (seg_transform_eq c _ st e X); [|destruct Hk as [-> | ->]; discriminate|now apply edges_of_used|exact Hne].
  destruct (shape2_pre (sg_kind c) X n l HX Hn) as [-> ->].
  destruct (cuts_of_spec parse (sg_norm c) (input_of ca X) n d l (sg_cut c) HI Hd Hl HN Hcut) as [cs' [Ec Bc]].
  rewrite Ec. cbn [bind]. rewrite (backend_rows (sg_kind c) X n l HX).
  assert (Ev : forall f, view (sg_kind c) f = f) by (intros f; destruct Hk as [-> | ->]; reflexivity).
  rewrite map2M_tab_error with (e := ValueError); [reflexivity| |].
  - intros i' Hi'. now apply backend_row_cases.
  - exists i. split; [exact Hi|]. rewrite Ev. destruct (Bc i Hi) as [B' L']. rewrite input_entry in B'.
    rewrite (borders_unique _ _ _ _ _ _ _ B' B) in *.
    apply (backend_row_error (sg_kind c) l (entry2 X i) e cs j q Hk); auto; try lia. apply B.
Qed.
Print Assumptions C50_empty_bin_raises.

(** x = (1, 2), one segment, edges -inf, 0, inf: no value below 0. *)
Example C50_empty_bin_instance parse :
  fst (sv_transform parse (SSeg (seg_new KMAX [CutI (-1)] (Some [QNeg; QZero; QOne]) (str "L2")) None None) [[1; 2]])
  = Err ValueError.
Proof.
  apply (C50_empty_bin_raises parse _ None None [NInf; Fin 0; PInf] [[1; 2]] 1 2 0 [0; 2]%nat 0 0); try lia.
  - split; [reflexivity|repeat constructor].
  - exact I.
  - now right.
  - repeat constructor; cbn; lia.
  - now left.
  - split; [|reflexivity]. intros [a [b H]]. cbn in H. intuition discriminate.
  - split; [repeat constructor|]. split; [intros p [<-|[<-|[]]]; lia|]. exists [2]%nat. split; [reflexivity|].
    constructor; [|constructor]. reflexivity.
  - cbn; lia.
  - cbn; lia.
  - cbn; lia.
  - cbn. unfold times_in, bin, entry2. cbn. destruct (Rle_dec 1 0); [lra|]. destruct (Rle_dec 2 0); [lra|]. reflexivity.
Qed.

(** ** C50: END *)
Theorem C50_end parse cut q norm st ca X n l :
  has_shape2 X n l -> (1 <= n)%nat -> (1 <= l)%nat -> cache_fits ca n l ->
  good_norm norm -> Forall (good_cut parse l) cut ->
  let s := SSeg {| sg_kind := KEND; sg_cut := cut; sg_q := q; sg_norm := norm |} st ca in
  exists Y, sv_transform parse s X = (Ok Y, s) /\ has_shape2 Y n (length cut) /\
    forall i, (i < n)%nat -> exists cs, borders parse norm (cut_series ca X i) l cut cs /\
      forall j, (j < length cut)%nat ->
        nth j (nth i Y []) 0
        = entry2 X i (if (nth (S j) cs 0 =? 0)%nat then l - 1 else nth (S j) cs 0%nat - 1)%nat.
Proof.
  intros HX Hn Hl HC HN Hcut s. unfold s. rewrite sv_seg.
  destruct (input_fits ca X n l HX HC) as [d [HI Hd]].
  unfold seg_transform. cbn [sg_kind sg_cut sg_q sg_norm].
  destruct (shape2_pre KEND X n l HX Hn) as [-> ->].
  destruct (cuts_of_spec parse norm (input_of ca X) n d l cut HI Hd Hl HN Hcut) as [cs [Ec Bc]].
  rewrite Ec. cbn [bind]. pose proof (backend_rows KEND X n l HX) as Er. cbn [backend_input view] in Er. rewrite Er.
  destruct (map2M_tab end_row n (fun i => tab l (entry2 X i)) (fun i => map Z.of_nat (cs i))
    (fun i r => length r = length cut /\ exists cs, borders parse norm (cut_series ca X i) l cut cs /\
      forall j, (j < length cut)%nat ->
        nth j r 0 = entry2 X i (if (nth (S j) cs 0 =? 0)%nat then l - 1 else nth (S j) cs 0%nat - 1)%nat)) as [Y [EY [LY VY]]].
  - intros i Hi. destruct (Bc i Hi) as [B Lc]. rewrite input_entry in B.
    rewrite end_row_spec by (assumption || apply B). eexists; split; [reflexivity|].
    assert (Lt : length (tl (cs i)) = length cut) by (destruct (cs i); cbn in *; lia).
    rewrite map_length. split; [exact Lt|]. exists (cs i). split; [exact B|]. intros j Hj.
    set (g := fun c => if (c =? 0)%nat then entry2 X i (l - 1)%nat else entry2 X i (c - 1)%nat).
    rewrite (nth_indep _ 0 (g 0%nat)) by (rewrite map_length; lia). rewrite map_nth. unfold g.
    replace (nth j (tl (cs i)) 0%nat) with (nth (S j) (cs i) 0%nat) by (destruct (cs i); [now destruct j|reflexivity]).
    destruct (nth (S j) (cs i) 0 =? 0)%nat; reflexivity.
  - exists Y. rewrite EY. split; [reflexivity|]. split; [split; [exact LY|]|].
    + apply Forall_forall. intros r Hr. apply (In_nth _ _ []) in Hr as [i [Hi <-]]. rewrite LY in Hi. apply (VY i [] Hi).
    + intros i Hi. apply (VY i [] Hi).
Qed.
Print Assumptions C50_end.

(** The number of columns END returns is the announced number of features
    exactly for two edges (or without cuts). *)
Theorem C50_end_columns parse cut q norm st ca X n l Y s' :
  has_shape2 X n l -> (1 <= n)%nat -> (1 <= l)%nat -> cache_fits ca n l ->
  good_norm norm -> Forall (good_cut parse l) cut ->
  let s := SSeg {| sg_kind := KEND; sg_cut := cut; sg_q := q; sg_norm := norm |} st ca in
  sv_transform parse s X = (Ok Y, s') ->
  (has_shape2 Y n (sv_nfeatures s) <-> cut = [] \/ length q = 2%nat).
Proof.
  intros HX Hn Hl HC HN Hcut s E.
  destruct (C50_end parse cut q norm st ca X n l HX Hn Hl HC HN Hcut) as [Y' [E' [S1 _]]]. fold s in E'.
  assert (Y = Y') by congruence. subst Y'.
  assert (K : length (nth 0 Y []) = length cut /\ forall m, has_shape2 Y n m -> length (nth 0 Y []) = m).
  { assert (G : forall m, has_shape2 Y n m -> length (nth 0 Y []) = m).
    { intros m [L F]. rewrite Forall_forall in F. apply F, nth_In. lia. }
    split; [now apply G|exact G]. }
  destruct K as [K1 K2]. unfold s. cbn [sv_nfeatures]. unfold seg_nfeatures. cbn [sg_cut sg_q]. split.
  - intros S2. apply K2 in S2. rewrite K1 in S2. destruct cut as [|c cut]; [now left|right]. cbn [length] in S2.
    destruct (length q) as [|[|[|m]]]; cbn in S2; lia.
  - intros [-> |Eq]; [cbn in *; exact S1|]. rewrite Eq. cbn. replace (length cut * 1)%nat with (length cut) by lia. exact S1.
Qed.
Print Assumptions C50_end_columns.

(** ** C51: AVG and STD compute the curvature *)
Theorem C51_avg_std_are_cur {T} `{Num T} parse k cut q norm st ca (X : list (list T)) : k = KAVG \/ k = KSTD ->
  fst (sv_transform parse (SSeg {| sg_kind := k; sg_cut := cut; sg_q := q; sg_norm := norm |} st ca) X)
  = fst (sv_transform parse (SSeg {| sg_kind := KCUR; sg_cut := cut; sg_q := q; sg_norm := norm |} st ca) X).
Proof.
  intros Hk. cbn [sv_transform sv_cache]. set (inp := match ca with Some i => i | None => _ end).
  assert (E : forall k, k = KAVG \/ k = KSTD ->
     seg_transform {| sg_kind := k; sg_cut := cut; sg_q := q; sg_norm := norm |} (get_on parse inp) st X
     = seg_transform {| sg_kind := KCUR; sg_cut := cut; sg_q := q; sg_norm := norm |} (get_on parse inp) st X).
  { intros k' [-> | ->]; reflexivity. }
  rewrite (E k Hk). destruct (seg_transform _ _ _ _) as [[r|e] st']; reflexivity.
Qed.
Print Assumptions C51_avg_std_are_cur.

(** The mean of (1, 2, 4) is 7/3, AVG with its default arguments gives 2. *)
Theorem C51_avg_refuted parse :
  fst (sv_transform parse (SSeg (seg_new KAVG [CutI (-1)] None (str "L2")) None None) [[1; 2; 4]]) = Ok [[2]]
  /\ (1 + 2 + 4) / 3 <> 2.
Proof. split; [rcompute|lra]. Qed.
Print Assumptions C51_avg_refuted.
