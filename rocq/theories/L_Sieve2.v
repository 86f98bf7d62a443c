(** Further lemmas on sieves: order of cuts, additivity, END, PPV, CPV, wrappers. *)
From Coq Require Import Ascii String List Arith ZArith Bool Reals Permutation Sorting Lia Lra.
From Verif Require Import Num Arr M_Str M_Np M_Prep M_Cache M_Sieve S_ISS S_Prep S_Sieve
  L_Arr L_Tuples L_Str L_Np L_Prep L_Prep2 L_Sieve.
Import ListNotations.
Open Scope R_scope.

(** ** Order of the cuts *)
Lemma mapM_perm {A B} (f : A -> res B) l m : Permutation l m ->
  forall r, mapM f l = Ok r -> exists r', mapM f m = Ok r' /\ Permutation r r'.
Proof.
  induction 1 as [|x l m P IH|x y l|l m k P1 IH1 P2 IH2]; intros r E.
  - exists r. split; [exact E|reflexivity].
  - cbn [mapM] in *. destruct (f x) as [b|e]; [|discriminate]. cbn [bind] in *.
    destruct (mapM f l) as [bs|e]; [|discriminate]. cbn [bind] in E. injection E as <-.
    destruct (IH bs eq_refl) as [r' [-> P']]. exists (b :: r'). split; [reflexivity|now constructor].
  - cbn [mapM] in *. destruct (f x) as [b|e]; [|destruct (f y); discriminate]. destruct (f y) as [b'|e]; [|discriminate].
    cbn [bind] in *. destruct (mapM f l) as [bs|e]; [|discriminate]. cbn [bind] in *. injection E as <-.
    eexists; split; [reflexivity|]. apply perm_swap.
  - destruct (IH1 r E) as [r1 [E1 Q1]]. destruct (IH2 r1 E1) as [r2 [E2 Q2]]. exists r2. split; [exact E2|].
    now rewrite Q1.
Qed.
Lemma cuts_of_perm {T} `{Num T} get norm n l cut cut' cs : Permutation cut cut' ->
  cuts_of (T := T) get norm n l cut = Ok cs -> cuts_of (T := T) get norm n l cut' = Ok cs.
Proof.
  intros P E. unfold cuts_of in *. destruct (mapM (cut_column get norm n l) cut) as [cols|e] eqn:Em; [|discriminate].
  destruct (mapM_perm _ _ _ P cols Em) as [cols' [-> Q]]. cbn [bind] in *. injection E as <-. f_equal.
  apply map_ext. intros i. apply (zsort_perm_eq (0%Z :: map (fun col => nth i col 0%Z) cols') (0%Z :: map (fun col => nth i col 0%Z) cols)). constructor. apply Permutation_map. symmetry. exact Q.
Qed.
Lemma seg_transform_perm {T} `{Num T} c cut' get st (X Y : list (list T)) st' : Permutation (sg_cut c) cut' ->
  seg_transform c get st X = (Ok Y, st') ->
  seg_transform {| sg_kind := sg_kind c; sg_cut := cut'; sg_q := sg_q c; sg_norm := sg_norm c |} get st X = (Ok Y, st').
Proof.
  intros P E. unfold seg_transform in *. cbn [sg_kind sg_cut sg_q sg_norm] in *.
  change (seg_requires {| sg_kind := sg_kind c; sg_cut := cut'; sg_q := sg_q c; sg_norm := sg_norm c |}) with (seg_requires c).
  set (Z := pre_transform (sg_kind c) X) in *.
  destruct (cuts_of get (sg_norm c) (length Z) (tlen Z) (sg_cut c)) as [cs|e] eqn:Ec.
  - rewrite (cuts_of_perm get _ _ _ _ _ cs P Ec). exact E.
  - exfalso. cbn [bind] in E. destruct (sg_kind c);
      try (destruct (if seg_requires c then Ok st else _) as [s'|e0] in E; discriminate); discriminate.
Qed.

(** ** Additivity *)
Lemma times_in_app P f a b c : (a <= b)%nat -> (b <= c)%nat -> times_in P f a c = times_in P f a b ++ times_in P f b c.
Proof.
  intros H1 H2. unfold times_in. rewrite <- filter_app. f_equal.
  replace (c - a)%nat with ((b - a) + (c - b))%nat by lia. rewrite seq_app. f_equal. f_equal. lia.
Qed.
Lemma times_in_nil P f a : times_in P f a a = [].
Proof. unfold times_in. now rewrite Nat.sub_diag. Qed.
Lemma sorted_last_ge cs j : StronglySorted le cs -> (j < length cs)%nat -> (nth j cs 0 <= last cs 0)%nat.
Proof.
  intros Hs. revert j. induction Hs as [|x cs Hs IH Hx]; intros j Hj; cbn [length] in *; [lia|].
  destruct cs as [|y cs].
  - replace j with 0%nat by (cbn in Hj; lia). reflexivity.
  - change (last (x :: y :: cs) 0%nat) with (last (y :: cs) 0%nat). destruct j as [|j].
    + cbn [nth]. inversion Hx; subst. pose proof (IH 0%nat ltac:(cbn; lia)). cbn [nth] in H. lia.
    + apply IH. lia.
Qed.
Lemma segments_sum P f cs : StronglySorted le cs -> forall m, (m < length cs)%nat ->
  Rsum_upto (fun j => INR (length (times_in P f (nth j cs 0%nat) (nth (S j) cs 0%nat)))) m
  = INR (length (times_in P f (nth 0 cs 0%nat) (nth m cs 0%nat))).
Proof.
  intros Hs m. induction m as [|m IH]; intros Hm.
  - cbn [Rsum_upto]. rewrite times_in_nil. reflexivity.
  - cbn [Rsum_upto]. rewrite IH by lia.
    assert (M : (nth 0 cs 0 <= nth m cs 0)%nat).
    { clear IH. induction m as [|m IHm]; [lia|]. pose proof (IHm ltac:(lia)). pose proof (sorted_nth_le cs m Hs ltac:(lia)). lia. }
    rewrite (times_in_app P f (nth 0 cs 0%nat) (nth m cs 0%nat) (nth (S m) cs 0%nat) M (sorted_nth_le cs m Hs Hm)).
    now rewrite app_length, plus_INR.
Qed.
Lemma bin_split lo mid hi v : xle lo mid -> xle mid hi ->
  ((if bin lo hi v then 1 else 0) = (if bin lo mid v then 1 else 0) + (if bin mid hi v then 1 else 0))%nat.
Proof.
  intros H1 H2. unfold bin. destruct lo as [|a|], mid as [|b|], hi as [|c|]; cbn in *; try contradiction;
    repeat match goal with |- context [Rlt_dec ?x ?y] => destruct (Rlt_dec x y) | |- context [Rle_dec ?x ?y] => destruct (Rle_dec x y) end;
    cbn; try reflexivity; exfalso; lra.
Qed.
Lemma filter_length_sum {A} (p q r : A -> bool) l :
  (forall x, ((if p x then 1 else 0) = (if q x then 1 else 0) + (if r x then 1 else 0))%nat) ->
  length (filter p l) = (length (filter q l) + length (filter r l))%nat.
Proof.
  intros E. induction l as [|x l IH]; [reflexivity|]. specialize (E x). cbn [filter].
  destruct (p x), (q x), (r x); cbn [length] in *; lia.
Qed.
Lemma bins_sum f a b e : edges_sorted e -> forall m, (m < length e)%nat ->
  Rsum_upto (fun q => INR (length (times_in (bin (nth q e NInf) (nth (S q) e NInf)) f a b))) m
  = INR (length (times_in (bin (nth 0 e NInf) (nth m e NInf)) f a b)).
Proof.
  intros He m.
  assert (LE : forall i j, (i <= j)%nat -> (j < length e)%nat -> xle (nth i e NInf) (nth j e NInf)).
  { clear m. induction He as [|x e Hs IH Hx]; intros i j Hij Hj; cbn [length] in *; [lia|].
    destruct j as [|j].
    - replace i with 0%nat by lia. cbn. destruct x; cbn; lra.
    - destruct i as [|i]; cbn.
      + rewrite Forall_forall in Hx. apply Hx, nth_In. lia.
      + apply IH; lia. }
  induction m as [|m IH]; intros Hm.
  - cbn [Rsum_upto]. unfold times_in.
    assert (E : filter (fun t => bin (nth 0 e NInf) (nth 0 e NInf) (f t)) (seq a (b - a)) = []).
    { induction (seq a (b - a)) as [|t s IHs]; [reflexivity|]. cbn [filter].
      destruct (bin (nth 0 e NInf) (nth 0 e NInf) (f t)) eqn:Eb; [|exact IHs]. exfalso.
      unfold bin in Eb. destruct (nth 0 e NInf) as [|v|]; cbn in Eb; try discriminate.
      destruct (Rlt_dec v (f t)), (Rle_dec (f t) v); cbn in Eb; try discriminate. lra. }
    now rewrite E.
  - cbn [Rsum_upto]. rewrite IH by lia. rewrite <- plus_INR. f_equal. symmetry. unfold times_in.
    apply filter_length_sum. intros t. apply bin_split; apply LE; lia.
Qed.
Lemma Rsum_upto_add f a b : Rsum_upto f (a + b) = Rsum_upto f a + Rsum_upto (fun i => f (a + i)%nat) b.
Proof. induction b as [|b IH]; [rewrite Nat.add_0_r; cbn; lra|]. rewrite Nat.add_succ_r. cbn [Rsum_upto]. rewrite IH. lra. Qed.
Lemma Rsum_upto_mul f J m : Rsum_upto f (J * m) = Rsum_upto (fun j => Rsum_upto (fun q => f (j * m + q)%nat) m) J.
Proof.
  induction J as [|J IH]; [reflexivity|]. cbn [Rsum_upto]. rewrite <- IH.
  replace (S J * m)%nat with (J * m + m)%nat by (cbn; lia). apply Rsum_upto_add.
Qed.
Lemma Rsum_nth (r : list R) : Rsum r = Rsum_upto (fun i => nth i r 0) (length r).
Proof. rewrite <- Rsum_tab. f_equal. apply tab_eta. Qed.

(** ** Errors *)
Lemma mapM_one_error {A B} (f : A -> res B) e l :
  (forall x, In x l -> (exists y, f x = Ok y) \/ f x = Err e) -> (exists x, In x l /\ f x = Err e) -> mapM f l = Err e.
Proof.
  induction l as [|x l IH]; intros Hall [y [Hy Ey]]; [destruct Hy|]. cbn [mapM].
  destruct (Hall x (or_introl eq_refl)) as [[b Eb]|Eb].
  - rewrite Eb. cbn [bind]. rewrite IH; [reflexivity|intros z Hz; apply Hall; now right|].
    destruct Hy as [->|Hy]; [congruence|]. eauto.
  - now rewrite Eb.
Qed.
Lemma map2M_tab_error {A B C} (f : A -> B -> res C) e n (x : nat -> A) (y : nat -> B) :
  (forall i, (i < n)%nat -> (exists z, f (x i) (y i) = Ok z) \/ f (x i) (y i) = Err e) ->
  (exists i, (i < n)%nat /\ f (x i) (y i) = Err e) -> map2M f (tab n x) (tab n y) = Err e.
Proof.
  revert x y. induction n as [|n IH]; intros x y Hall [i [Hi Ei]]; [lia|]. rewrite !tab_S. cbn [map2M].
  destruct (Hall 0%nat ltac:(lia)) as [[z Ez]|Ez].
  - rewrite Ez. cbn [bind]. rewrite IH; [reflexivity| |].
    + intros k Hk. apply (Hall (S k)). lia.
    + destruct i as [|i]; [congruence|]. exists i. split; [lia|exact Ei].
  - now rewrite Ez.
Qed.
Lemma vmax_cases (l : list R) : (exists m, vmax l = Ok m) \/ vmax l = Err ValueError.
Proof. destruct l; [now right|left; eexists; reflexivity]. Qed.
Lemma vmin_cases (l : list R) : (exists m, vmin l = Ok m) \/ vmin l = Err ValueError.
Proof. destruct l; [now right|left; eexists; reflexivity]. Qed.
Lemma cell_maxmin_cases k (x : list R) a b lo hi : k = KMAX \/ k = KMIN ->
  (exists v, cell k x a b lo hi = Ok v) \/ cell k x a b lo hi = Err ValueError.
Proof.
  intros [-> | ->]; unfold cell; destruct (a =? b)%Z; try (left; eexists; reflexivity); [apply vmax_cases|apply vmin_cases].
Qed.
Lemma mapM_cases {A B} (f : A -> res B) e l :
  (forall x, In x l -> (exists y, f x = Ok y) \/ f x = Err e) -> (exists r, mapM f l = Ok r) \/ mapM f l = Err e.
Proof.
  induction l as [|x l IH]; intros Hall; [left; eexists; reflexivity|]. cbn [mapM].
  destruct (Hall x (or_introl eq_refl)) as [[b Eb]|Eb]; rewrite Eb; cbn [bind]; [|now right].
  destruct IH as [[r ->]| ->]; [intros z Hz; apply Hall; now right| |]; cbn; eauto.
Qed.
Lemma backend_row_cases k edges (x : list R) cs : k = KMAX \/ k = KMIN ->
  (exists r, backend_row k edges x cs = Ok r) \/ backend_row k edges x cs = Err ValueError.
Proof.
  intros Hk. unfold backend_row.
  destruct (mapM_cases (fun ab => mapM (fun e => cell k x (fst ab) (snd ab) (fst e) (snd e)) (pairs edges)) ValueError (pairs cs))
    as [[r ->]| ->]; cbn; eauto.
  intros ab _. apply mapM_cases. intros e _. now apply cell_maxmin_cases.
Qed.
Lemma backend_row_error k l f edges cs j q : k = KMAX \/ k = KMIN ->
  (forall p, In p cs -> (p <= l)%nat) -> (S j < length cs)%nat -> (S q < length edges)%nat ->
  (nth j cs 0 < nth (S j) cs 0)%nat ->
  times_in (bin (nth q edges NInf) (nth (S q) edges NInf)) f (nth j cs 0%nat) (nth (S j) cs 0%nat) = [] ->
  backend_row k edges (tab l f) (map Z.of_nat cs) = Err ValueError.
Proof.
  intros Hk Hr Hj Hq Hlt E. unfold backend_row. rewrite mapM_one_error with (e := ValueError); [reflexivity| |].
  - intros ab _. apply mapM_cases. intros e _. now apply cell_maxmin_cases.
  - exists (Z.of_nat (nth j cs 0%nat), Z.of_nat (nth (S j) cs 0%nat)). split.
    + assert (K : nth j (pairs (map Z.of_nat cs)) (0, 0)%Z = (Z.of_nat (nth j cs 0%nat), Z.of_nat (nth (S j) cs 0%nat))).
      { rewrite (pairs_nth 0%Z) by (rewrite map_length; lia). change 0%Z with (Z.of_nat 0). now rewrite !map_nth. }
      rewrite <- K. apply nth_In. rewrite pairs_length, map_length. lia.
    + apply mapM_one_error; [intros e _; now apply cell_maxmin_cases|].
      exists (nth q edges NInf, nth (S q) edges NInf). split.
      * assert (K : nth q (pairs edges) (NInf, NInf) = (nth q edges NInf, nth (S q) edges NInf)) by (apply pairs_nth; lia).
        rewrite <- K. apply nth_In. rewrite pairs_length. lia.
      * cbn [fst snd]. apply cell_empty_bin; auto. apply Hr, nth_In. exact Hj.
Qed.

(** ** END *)
Lemma end_row_spec l (f : nat -> R) cs : (1 <= l)%nat -> (forall p, In p cs -> (p <= l)%nat) ->
  end_row (tab l f) (map Z.of_nat cs) = Ok (map (fun c => if (c =? 0)%nat then f (l - 1)%nat else f (c - 1)%nat) (tl cs)).
Proof.
  intros Hl Hr. unfold end_row. rewrite tab_length.
  assert (E : tl (map Z.of_nat cs) = map Z.of_nat (tl cs)) by (destruct cs; reflexivity). rewrite E.
  assert (G : forall l', (forall p, In p l' -> (p <= l)%nat) ->
    mapM (fun c => let! i := py_index l (c - 1) in Ok (nth i (tab l f) nzero)) (map Z.of_nat l')
    = Ok (map (fun c => if (c =? 0)%nat then f (l - 1)%nat else f (c - 1)%nat) l')).
  { induction l' as [|c l' IH]; intros HB; [reflexivity|]. cbn [map mapM].
    rewrite IH by (intros; apply HB; now right). unfold py_index. pose proof (HB c (or_introl eq_refl)) as Hc.
    destruct (Nat.eqb_spec c 0) as [->|N].
    - change (Z.of_nat 0 - 1 <? 0)%Z with true. cbv iota.
      replace (0 <=? Z.of_nat l + (Z.of_nat 0 - 1))%Z with true by (symmetry; apply Z.leb_le; lia).
      cbn [bind]. rewrite tab_nth by lia. do 3 f_equal. lia.
    - replace (Z.of_nat c - 1 <? 0)%Z with false by (symmetry; apply Z.ltb_ge; lia).
      replace (Z.of_nat c - 1 <? Z.of_nat l)%Z with true by (symmetry; apply Z.ltb_lt; lia).
      cbn [bind]. rewrite tab_nth by lia. do 3 f_equal. lia. }
  apply G. intros p Hp. apply Hr. destruct cs; [destruct Hp|now right].
Qed.

(** ** PPV and CPV *)
Lemma vcount_times p l (f : nat -> R) : vcount p (tab l f) = length (times_in p f 0 l).
Proof. unfold vcount, tab. rewrite filter_map, map_length. unfold times_in. now rewrite Nat.sub_0_r. Qed.
Lemma fraction_tab p l (f : nat -> R) : fraction p (tab l f) = INR (length (times_in p f 0 l)) / INR l.
Proof. unfold fraction. now rewrite vcount_times, tab_length, !nofnat_INR. Qed.
Lemma times_in_le p f a b : (length (times_in p f a b) <= b - a)%nat.
Proof. unfold times_in. rewrite <- (seq_length (b - a) a) at 2. generalize (seq a (b - a)). clear.
  induction l as [|x l IH]; cbn; [lia|]. destruct (p (f x)); cbn; lia. Qed.
Lemma times_in_mono p q f a b : (forall v, p v = true -> q v = true) -> (length (times_in p f a b) <= length (times_in q f a b))%nat.
Proof.
  intros E. unfold times_in. generalize (seq a (b - a)). induction l as [|x l IH]; cbn; [lia|].
  destruct (p (f x)) eqn:Ep; [rewrite (E _ Ep); cbn; lia|]. destruct (q (f x)); cbn; lia.
Qed.
Lemma components_tab p l (f : nat -> R) : (1 <= l)%nat ->
  components p (tab l f) = 2 * INR (later_runs (fun t => p (f t)) l) / INR (if Nat.odd l then S l else l).
Proof.
  intros Hl. unfold components. rewrite tab_map, tab_length, inc1_tab, !nofnat_INR. cbn [ndiv nmul RNum].
  unfold vcount, tab. rewrite filter_map, map_length. unfold later_runs.
  assert (E : filter (fun x => neqb (diff 1 (fun i => if p (f i) then nunit else nzero) x) nunit) (seq 0 l)
              = filter (starts_run (fun t => p (f t))) (seq 0 l)).
  { apply filter_ext. intros [|t]; unfold diff; cbn [Nat.ltb Nat.leb starts_run].
    - destruct (Reqb_spec' 0 nunit) as [E|]; [cbn in E; lra|reflexivity].
    - cbn [Nat.sub]. rewrite Nat.sub_0_r. cbn [nunit nzero RNum].
      destruct (p (f (S t))), (p (f t)); cbn; match goal with |- Reqb' ?a ?b = _ => unfold Reqb'; destruct (Req_EM_T a b); try reflexivity; exfalso; lra end. }
  rewrite E. reflexivity.
Qed.
Lemma later_runs_bound b n : (2 * later_runs b (S n) + (if b n then 0 else 1) <= S n)%nat.
Proof.
  unfold later_runs. induction n as [|n IH]; [cbn; destruct (b 0%nat); lia|].
  rewrite seq_S, filter_app, app_length. cbn [Nat.add filter]. cbn [starts_run] in *.
  destruct (b n) eqn:E1, (b (S n)) eqn:E2; cbn [negb andb length] in *; lia.
Qed.
Lemma runs_first b n : (1 <= n)%nat -> all_runs b n = (later_runs b n + (if b 0%nat then 1 else 0))%nat.
Proof.
  intros Hn. destruct n as [|n]; [lia|]. unfold all_runs, later_runs. cbn [seq filter starts_run].
  rewrite andb_true_r.
  assert (E : filter (fun t => b t && match t with O => true | S u => negb (b u) end) (seq 1 n) = filter (starts_run b) (seq 1 n)).
  { apply filter_ext_in. intros t Ht. apply in_seq in Ht. destruct t as [|t]; [lia|]. cbn. apply andb_comm. }
  rewrite E. destruct (b 0%nat); cbn [length]; lia.
Qed.

(** ** Wrappers *)
Lemma wrap_inc_depth {T} `{Num T} d k (X acc : list (list T)) :
  wrap_inc (S d) k X acc = mapM (increments1 k) X.
Proof.
  revert acc. induction d as [|d IH]; intros acc; cbn [wrap_inc].
  - destruct (mapM (increments1 k) X); reflexivity.
  - destruct (mapM (increments1 k) X) as [Y|e] eqn:E; cbn [bind]; [|reflexivity].
    specialize (IH Y). cbn [wrap_inc] in IH. rewrite E in IH. cbn [bind] in IH. exact IH.
Qed.
