(** Lemmas on the sieves. *)
From Coq Require Import Ascii String List Arith ZArith Bool Reals Permutation Sorting Lia Lra.
From Verif Require Import Num Arr M_Str M_Np M_Prep M_Cache M_Sieve S_ISS S_Prep S_Sieve
  L_Arr L_Tuples L_Str L_Np L_Prep L_Prep2.
Import ListNotations.
Open Scope R_scope.

(** ** Sorting *)
Lemma zinsert_perm x l : Permutation (zinsert x l) (x :: l).
Proof.
  induction l as [|y l IH]; cbn; [reflexivity|]. destruct (x <=? y)%Z; [reflexivity|].
  rewrite IH. apply perm_swap.
Qed.
Lemma zsort_perm l : Permutation (zsort l) l.
Proof. induction l as [|x l IH]; cbn; [reflexivity|]. rewrite zinsert_perm. now constructor. Qed.
Lemma zinsert_sorted x l : StronglySorted Z.le l -> StronglySorted Z.le (zinsert x l).
Proof.
  induction 1 as [|y l Hs IH Hy]; cbn; [repeat constructor|].
  destruct (Z.leb_spec x y).
  - constructor; [now constructor|]. constructor; [lia|]. eapply Forall_impl; [|exact Hy]. cbn; intros; lia.
  - constructor; [exact IH|]. eapply Permutation_Forall; [symmetry; apply zinsert_perm|]. constructor; [lia|exact Hy].
Qed.
Lemma zsort_sorted l : StronglySorted Z.le (zsort l).
Proof. induction l as [|x l IH]; cbn; [constructor|]. now apply zinsert_sorted. Qed.
Lemma zsort_length l : length (zsort l) = length l.
Proof. apply Permutation_length, zsort_perm. Qed.
Lemma sorted_perm_unique l m : StronglySorted Z.le l -> StronglySorted Z.le m -> Permutation l m -> l = m.
Proof.
  revert m. induction l as [|x l IH]; intros m Hl Hm P.
  - now apply Permutation_nil in P.
  - destruct m as [|y m]; [symmetry in P; now apply Permutation_nil_cons in P|].
    inversion Hl as [|? ? Hl1 Hl2]; inversion Hm as [|? ? Hm1 Hm2]; subst.
    assert (x = y).
    { apply Z.le_antisymm.
      - assert (K : In y (x :: l)) by (eapply Permutation_in; [symmetry; exact P|now left]).
        destruct K as [->|K]; [lia|]. rewrite Forall_forall in Hl2. auto.
      - assert (K : In x (y :: m)) by (eapply Permutation_in; [exact P|now left]).
        destruct K as [->|K]; [lia|]. rewrite Forall_forall in Hm2. auto. }
    subst y. f_equal. apply IH; auto. now apply Permutation_cons_inv in P.
Qed.
Lemma zsort_perm_eq l m : Permutation l m -> zsort l = zsort m.
Proof.
  intros P. apply sorted_perm_unique; try apply zsort_sorted.
  rewrite zsort_perm, P. symmetry. apply zsort_perm.
Qed.
Lemma zsort_nat l : exists m, zsort (map Z.of_nat l) = map Z.of_nat m /\ Permutation m l /\ StronglySorted le m.
Proof.
  exists (map Z.to_nat (zsort (map Z.of_nat l))). split; [|split].
  - rewrite map_map. rewrite <- (map_id (zsort _)) at 1. apply map_ext_in. intros z Hz.
    assert (In z (map Z.of_nat l)) by (eapply Permutation_in; [apply zsort_perm|exact Hz]).
    apply in_map_iff in H as [k [<- _]]. lia.
  - rewrite zsort_perm, map_map. rewrite (map_ext _ (fun x => x)) by (intros; lia). now rewrite map_id.
  - assert (F : Forall (fun z => (0 <= z)%Z) (zsort (map Z.of_nat l))).
    { eapply Permutation_Forall; [symmetry; apply zsort_perm|]. apply Forall_forall. intros z Hz.
      apply in_map_iff in Hz as [k [<- _]]. lia. }
    pose proof (zsort_sorted (map Z.of_nat l)) as S1. clear - F S1.
    induction S1 as [|z m Hs IH Hz]; cbn; [constructor|]. inversion F; subst. constructor; [now apply IH|].
    apply Forall_forall. intros k Hk. apply in_map_iff in Hk as [z' [<- Hz']].
    rewrite Forall_forall in Hz. specialize (Hz z' Hz'). lia.
Qed.

(** Sorting of edges. *)
Lemma xleb_spec a b : reflect (xle a b) (@xleb R RNum a b).
Proof. destruct a, b; cbn; try (constructor; tauto). apply Rleb_spec. Qed.
Lemma xle_trans a b c : xle a b -> xle b c -> xle a c.
Proof. destruct a, b, c; cbn; try tauto. lra. Qed.
Lemma xle_total a b : xle a b \/ xle b a.
Proof. destruct a, b; cbn; try tauto. lra. Qed.
Lemma xinsert_perm x l : Permutation (@xinsert R RNum x l) (x :: l).
Proof.
  induction l as [|y l IH]; cbn [xinsert]; [reflexivity|]. destruct (xleb x y); [reflexivity|].
  rewrite IH. apply perm_swap.
Qed.
Lemma xsort_perm l : Permutation (@xsort R RNum l) l.
Proof. induction l as [|x l IH]; cbn; [reflexivity|]. rewrite xinsert_perm. now constructor. Qed.
Lemma xinsert_sorted x l : StronglySorted xle l -> StronglySorted xle (@xinsert R RNum x l).
Proof.
  induction 1 as [|y l Hs IH Hy]; cbn [xinsert]; [repeat constructor|].
  destruct (xleb_spec x y) as [L|N].
  - constructor; [now constructor|]. constructor; [exact L|]. eapply Forall_impl; [|exact Hy].
    intros z Hz. eapply xle_trans; eauto.
  - constructor; [exact IH|]. eapply Permutation_Forall; [symmetry; apply xinsert_perm|]. constructor; [|exact Hy].
    destruct (xle_total x y); tauto.
Qed.
Lemma xsort_sorted l : StronglySorted xle (@xsort R RNum l).
Proof. induction l as [|x l IH]; cbn; [constructor|]. now apply xinsert_sorted. Qed.

(** ** Bins and segments *)
Lemma in_bin_bin lo hi (v : R) : in_bin lo hi v = bin lo hi v.
Proof.
  unfold in_bin, bin. f_equal.
  destruct lo as [|a|]; cbn; try reflexivity. destruct (Rltb_spec' a v), (Rlt_dec a v); tauto || reflexivity.
Qed.
Lemma filter_map {A B} (g : A -> B) p l : filter p (map g l) = map g (filter (fun x => p (g x)) l).
Proof. induction l as [|x l IH]; cbn; [reflexivity|]. destruct (p (g x)); cbn; now rewrite IH. Qed.
Lemma slice_nat {A} a b l (f : nat -> A) : (a <= l)%nat -> (b <= l)%nat ->
  py_slice (Some (Z.of_nat a)) (Some (Z.of_nat b)) (tab l f) = map f (seq a (b - a)).
Proof.
  intros Ha Hb. rewrite py_slice_tab. cbn [lo_bound hi_bound]. rewrite !py_bound_nat.
  rewrite !Nat.min_l by assumption. unfold tab.
  replace (seq a (b - a)) with (map (Nat.add a) (seq 0 (b - a))).
  - now rewrite map_map.
  - generalize (b - a)%nat. clear. intros m. induction m as [|m IH]; [reflexivity|].
    rewrite !seq_S, map_app, IH. cbn. f_equal.
Qed.
Lemma filter_slice lo hi a b l (f : nat -> R) : (a <= l)%nat -> (b <= l)%nat ->
  filter (in_bin lo hi) (py_slice (Some (Z.of_nat a)) (Some (Z.of_nat b)) (tab l f))
  = map f (times_in (bin lo hi) f a b).
Proof.
  intros Ha Hb. rewrite slice_nat by assumption. rewrite filter_map. unfold times_in. f_equal.
  apply filter_ext. intros t. apply in_bin_bin.
Qed.

(** ** Longest run *)
Lemma longest_run_spec (b : list bool) : forall cur best,
  (cur <= best)%nat ->
  let L := longest_run b cur best in
  (best <= L)%nat /\
  (forall k, (k <= length b)%nat -> (forall i, (i < k)%nat -> nth i b false = true) -> (cur + k <= L)%nat) /\
  (forall s k, (s + k <= length b)%nat -> (forall i, (s <= i < s + k)%nat -> nth i b false = true) -> (k <= L)%nat) /\
  (L = best \/ (exists k, (k <= length b)%nat /\ (forall i, (i < k)%nat -> nth i b false = true) /\ L = (cur + k)%nat)
     \/ exists s, (s + L <= length b)%nat /\ forall i, (s <= i < s + L)%nat -> nth i b false = true).
Proof.
  induction b as [|x b IH]; intros cur best Hcb L.
  - subst L. cbn. repeat split; try lia; intros; cbn in *; try lia; try (now left).
  - destruct x.
    + cbn [longest_run] in L. set (best' := if (best <? S cur)%nat then S cur else best) in *.
      assert (Hb' : (S cur <= best')%nat /\ (best <= best')%nat /\ (best' = best \/ best' = S cur)).
      { unfold best'. destruct (Nat.ltb_spec best (S cur)); lia. }
      destruct (IH (S cur) best' ltac:(lia)) as [A1 [A2 [A3 A4]]]. fold L in A1, A2, A3, A4.
      split; [lia|]. split; [|split].
      * intros k Hk HA. destruct k as [|k]; [lia|]. cbn [length] in Hk.
        pose proof (A2 k ltac:(lia) (fun i Hi => HA (S i) ltac:(lia))). lia.
      * intros s k Hk HA. cbn [length] in Hk. destruct s as [|s].
        -- destruct k as [|k]; [lia|]. pose proof (A2 k ltac:(lia) (fun i Hi => HA (S i) ltac:(lia))). lia.
        -- apply (A3 s k); [lia|]. intros i Hi. apply (HA (S i)). lia.
      * destruct A4 as [E|[(k & Hk & HA & E)|(s & Hs & HA)]].
        -- destruct Hb' as [_ [_ [E'|E']]]; [left; congruence|]. right; left. exists 1%nat. cbn [length].
           split; [lia|]. split; [|lia]. intros i Hi. replace i with 0%nat by lia. reflexivity.
        -- right; left. exists (S k). cbn [length]. split; [lia|]. split; [|lia].
           intros [|i] Hi; [reflexivity|]. cbn. apply HA. lia.
        -- right; right. exists (S s). cbn [length]. split; [lia|].
           intros [|i] Hi; [lia|]. cbn. apply HA. lia.
    + cbn [longest_run] in L. destruct (IH 0%nat best ltac:(lia)) as [A1 [A2 [A3 A4]]]. fold L in A1, A2, A3, A4.
      split; [lia|]. split; [|split].
      * intros k Hk HA. destruct k as [|k]; [lia|]. specialize (HA 0%nat ltac:(lia)). discriminate.
      * intros s k Hk HA. cbn [length] in Hk. destruct s as [|s].
        -- destruct k as [|k]; [lia|]. specialize (HA 0%nat ltac:(lia)). discriminate.
        -- apply (A3 s k); [lia|]. intros i Hi. apply (HA (S i)). lia.
      * destruct A4 as [E|[(k & Hk & HA & E)|(s & Hs & HA)]]; [now left| |].
        -- right; right. exists 1%nat. cbn [length]. rewrite E. split; [lia|]. intros [|i] Hi; [lia|]. cbn. apply HA. lia.
        -- right; right. exists (S s). cbn [length]. split; [lia|]. intros [|i] Hi; [lia|]. cbn. apply HA. lia.
Qed.

Lemma longest_run_times (P : nat -> bool) a b :
  is_longest_run P a b (longest_run (map P (seq a (b - a))) 0 0).
Proof.
  destruct (longest_run_spec (map P (seq a (b - a))) 0 0 (Nat.le_refl _)) as [_ [A2 [A3 A4]]].
  set (L := longest_run (map P (seq a (b - a))) 0 0) in *. rewrite map_length, seq_length in *.
  assert (N : forall i, (i < b - a)%nat -> nth i (map P (seq a (b - a))) false = P (a + i)%nat).
  { intros i Hi. rewrite (nth_indep _ false (P 0%nat)) by (rewrite map_length, seq_length; exact Hi).
    rewrite map_nth, seq_nth by exact Hi. reflexivity. }
  split.
  - assert (Q : exists s, (s + L <= b - a)%nat /\ forall i, (s <= i < s + L)%nat -> nth i (map P (seq a (b - a))) false = true).
    { destruct A4 as [E|[(k & Hk & HA & E)|Q]]; [| |exact Q].
      - exists 0%nat. rewrite E. split; [lia|intros; lia].
      - exists 0%nat. rewrite E. cbn. split; [lia|]. intros i Hi. apply HA. lia. }
    destruct Q as [s [Hs HA]]. exists (a + s)%nat. split; [lia|]. split; [lia|]. intros t Ht.
    specialize (HA (t - a)%nat ltac:(lia)). rewrite N in HA by lia. now replace (a + (t - a))%nat with t in HA by lia.
  - intros s K Hs HK HA. apply (A3 (s - a)%nat K); [lia|]. intros i Hi. rewrite N by lia. apply HA. lia.
Qed.

(** ** Views *)
Lemma inc1_tab l (f : nat -> R) : inc1 (tab l f) = tab l (diff 1 f).
Proof. unfold inc1. change 1%Z with (Z.of_nat 1). rewrite increments1_tab by lia. reflexivity. Qed.
Lemma cumsum_running l (f : nat -> R) : cumsum (tab l f) = tab l (running_sum f).
Proof. rewrite cumsum_tab. apply tab_ext. intros t _. apply accum_plus_sum. Qed.
Lemma times_iter (g : list R -> list R) (h : (nat -> R) -> nat -> R) l :
  (forall f, g (tab l f) = tab l (h f)) -> forall m f, times m g (tab l f) = tab l (iterate m h f).
Proof.
  intros E m. induction m as [|m IH]; intros f; [reflexivity|]. cbn [times]. rewrite E, IH.
  now rewrite iterate_S_r.
Qed.
Lemma pre1_tab inc l (f : nat -> R) : pre1 inc (tab l f) = tab l (inc_view inc f).
Proof.
  unfold pre1, inc_view. destruct (0 <? inc)%Z; [|destruct (inc <? 0)%Z]; [| |reflexivity].
  - apply times_iter. intros g. apply inc1_tab.
  - apply times_iter. intros g. apply cumsum_running.
Qed.

(** What the backend of kind k sees of the series f. *)
Definition view (k : seg_kind) (f : nat -> R) : nat -> R :=
  match k with
  | KNPI i | KMPI i | KXPI i | KLPI i => inc_view i f
  | KCUR | KAVG | KSTD => second_diff f
  | _ => f
  end.
Lemma backend_rows k (X : list (list R)) n l : has_shape2 X n l ->
  backend_input k (pre_transform k X) = tab n (fun i => tab l (view k (entry2 X i))).
Proof.
  intros [L F].
  assert (E : X = tab n (fun i => tab l (entry2 X i))).
  { apply (list_ext []); [now rewrite tab_length|]. intros i Hi. rewrite tab_nth by lia.
    apply tab_eta'. rewrite Forall_forall in F. apply F, nth_In, Hi. }
  assert (M : forall (g : list R -> list R) h, (forall f, g (tab l f) = tab l (h f)) ->
     map g X = tab n (fun i => tab l (h (entry2 X i)))).
  { intros g h Hg. rewrite E at 1. rewrite tab_map. apply tab_ext. intros i _. apply Hg. }
  destruct k; cbn [backend_input pre_transform is_inc_kind view]; try exact E;
    try (apply M; intros f; apply pre1_tab);
    apply M; intros f; now rewrite !inc1_tab.
Qed.

(** ** Cells *)
Lemma mean_list (A : Type) (g : A -> R) (l : list A) : l <> [] -> @vmean R RNum (map g l) = Rsum (map g l) / INR (length l).
Proof. intros _. unfold vmean. rewrite vsum_Rsum, nofnat_INR, map_length. reflexivity. Qed.

Lemma where_tab (P : nat -> bool) a b :
  map (fun i => (a + i)%nat) (where_ (map P (seq a (b - a)))) = filter P (seq a (b - a)).
Proof.
  unfold where_. rewrite map_length, seq_length.
  assert (E : seq a (b - a) = map (Nat.add a) (seq 0 (b - a))).
  { generalize (b - a)%nat. intros m. induction m as [|m IH]; [reflexivity|]. rewrite !seq_S, map_app, IH. reflexivity. }
  replace (filter P (seq a (b - a))) with (filter P (map (Nat.add a) (seq 0 (b - a)))) by now rewrite <- E.
  rewrite filter_map. f_equal. apply filter_ext_in. intros i Hi. apply in_seq in Hi.
  rewrite (nth_indep _ false (P 0%nat)) by (rewrite map_length, seq_length; lia).
  rewrite map_nth, seq_nth by lia. reflexivity.
Qed.

Lemma cell_spec k l f a b lo hi : (a <= b)%nat -> (b <= l)%nat -> k <> KMAX -> k <> KMIN -> k <> KEND ->
  exists v, cell k (tab l (view k f)) (Z.of_nat a) (Z.of_nat b) lo hi = Ok v /\ feature k f a b lo hi v.
Proof.
  intros Hab Hb N1 N2 N3.
  assert (FS : filter (in_bin lo hi) (py_slice (Some (Z.of_nat a)) (Some (Z.of_nat b)) (tab l (view k f)))
               = map (view k f) (times_in (bin lo hi) (view k f) a b)) by (apply filter_slice; lia).
  assert (SL : py_slice (Some (Z.of_nat a)) (Some (Z.of_nat b)) (tab l (view k f)) = map (view k f) (seq a (b - a)))
    by (apply slice_nat; lia).
  destruct k; try contradiction; unfold cell; rewrite ?FS; cbn [view feature] in *.
  1,2,3: eexists; split; [reflexivity|]; rewrite vsum_Rsum, map_map; reflexivity.
  - eexists; split; [reflexivity|]. now rewrite map_length, nofnat_INR.
  - eexists; split; [reflexivity|]. cbv zeta. set (T := times_in (bin lo hi) (inc_view inc f) a b). split; intros HT.
    + now rewrite HT.
    + destruct T as [|t T]; [contradiction|]. cbn [map].
      change (inc_view inc f t :: map (inc_view inc f) T) with (map (inc_view inc f) (t :: T)).
      apply mean_list. discriminate.
  - eexists; split; [reflexivity|]. cbv zeta. rewrite SL.
    rewrite map_map. rewrite (map_ext _ (fun t => bin lo hi (inc_view inc f t))) by (intros; apply in_bin_bin).
    pose proof (where_tab (fun t => bin lo hi (inc_view inc f t)) a b) as W.
    change (filter (fun t => bin lo hi (inc_view inc f t)) (seq a (b - a))) with (times_in (bin lo hi) (inc_view inc f) a b) in W.
    set (ind := where_ (map (fun t => bin lo hi (inc_view inc f t)) (seq a (b - a)))) in *.
    rewrite <- W. rewrite map_map, map_length. split; intros HT.
    + destruct ind; [reflexivity|discriminate].
    + destruct ind as [|i ind]; [contradiction|].
      rewrite mean_list by discriminate. f_equal. f_equal. apply map_ext. intros j. rewrite nofnat_INR. f_equal. lia.
  - eexists; split; [reflexivity|]. rewrite SL, map_map.
    rewrite (map_ext _ (fun t => bin lo hi (inc_view inc f t))) by (intros; apply in_bin_bin).
    rewrite nofnat_INR. eexists; split; [reflexivity|]. apply longest_run_times.
Qed.

Lemma cell_max_spec l f a b lo hi : (a <= b)%nat -> (b <= l)%nat ->
  (a = b \/ times_in (bin lo hi) f a b <> []) ->
  exists v, cell KMAX (tab l f) (Z.of_nat a) (Z.of_nat b) lo hi = Ok v /\ feature KMAX f a b lo hi v.
Proof.
  intros Hab Hb Hne. unfold cell. rewrite filter_slice by lia. destruct (Z.eqb_spec (Z.of_nat a) (Z.of_nat b)) as [E|N].
  - exists 0. split; [reflexivity|]. cbn. split; [reflexivity|lia].
  - destruct Hne as [|Hne]; [lia|]. destruct (vmax_spec (map f (times_in (bin lo hi) f a b))) as [m [E [I B]]].
    { destruct (times_in _ _ _ _); [contradiction|discriminate]. }
    exists m. split; [exact E|]. cbn. split; [lia|]. intros _. split; [exact I|]. intros t Ht. apply B. now apply in_map.
Qed.
Lemma cell_min_spec l f a b lo hi : (a <= b)%nat -> (b <= l)%nat ->
  (a = b \/ times_in (bin lo hi) f a b <> []) ->
  exists v, cell KMIN (tab l f) (Z.of_nat a) (Z.of_nat b) lo hi = Ok v /\ feature KMIN f a b lo hi v.
Proof.
  intros Hab Hb Hne. unfold cell. rewrite filter_slice by lia. destruct (Z.eqb_spec (Z.of_nat a) (Z.of_nat b)) as [E|N].
  - exists 0. split; [reflexivity|]. cbn. split; [reflexivity|lia].
  - destruct Hne as [|Hne]; [lia|]. destruct (vmin_spec (map f (times_in (bin lo hi) f a b))) as [m [E [I B]]].
    { destruct (times_in _ _ _ _); [contradiction|discriminate]. }
    exists m. split; [exact E|]. cbn. split; [lia|]. intros _. split; [exact I|]. intros t Ht. apply B. now apply in_map.
Qed.
Lemma cell_empty_bin k l f a b lo hi : k = KMAX \/ k = KMIN -> (a < b)%nat -> (b <= l)%nat ->
  times_in (bin lo hi) f a b = [] -> cell k (tab l f) (Z.of_nat a) (Z.of_nat b) lo hi = Err ValueError.
Proof.
  intros Hk Hab Hb E. unfold cell. rewrite filter_slice, E by lia.
  destruct (Z.eqb_spec (Z.of_nat a) (Z.of_nat b)) as [|N]; [lia|]. destruct Hk; subst; reflexivity.
Qed.

(** ** Rows *)
Lemma pairs_length {A} (l : list A) : length (pairs l) = (length l - 1)%nat.
Proof. induction l as [|x [|y l] IH]; cbn in *; lia. Qed.
Lemma pairs_nth {A} (d : A) l j dp : (S j < length l)%nat -> nth j (pairs l) dp = (nth j l d, nth (S j) l d).
Proof.
  revert j. induction l as [|x [|y l] IH]; intros j Hj; cbn [length] in *; [lia|lia|].
  destruct j as [|j]; [reflexivity|]. change (pairs (x :: y :: l)) with ((x, y) :: pairs (y :: l)). cbn [nth].
  apply IH. cbn [length]. lia.
Qed.
Lemma concat_nth {A} (d : A) rows m : Forall (fun r => length r = m) rows ->
  forall j k, (j < length rows)%nat -> (k < m)%nat -> nth (j * m + k) (concat rows) d = nth k (nth j rows []) d.
Proof.
  induction 1 as [|r rows Hr HF IH]; intros j k Hj Hk; cbn [length] in *; [lia|].
  destruct j as [|j]; cbn [concat nth].
  - rewrite app_nth1 by lia. reflexivity.
  - rewrite app_nth2 by (rewrite Hr; cbn; lia). rewrite Hr. replace (S j * m + k - m)%nat with (j * m + k)%nat by (cbn; lia).
    apply IH; lia.
Qed.
Lemma concat_uniform_length {A} (rows : list (list A)) m : Forall (fun r => length r = m) rows ->
  length (concat rows) = (length rows * m)%nat.
Proof. induction 1 as [|r rows Hr HF IH]; [reflexivity|]. cbn [concat length]. rewrite app_length, IH, Hr. cbn. lia. Qed.

Definition cell_ok (k : seg_kind) (l : nat) (f : nat -> R) (P : nat -> nat -> xnum R -> xnum R -> Prop) : Prop :=
  forall a b lo hi, (a <= b)%nat -> (b <= l)%nat -> P a b lo hi ->
    exists v, cell k (tab l (view k f)) (Z.of_nat a) (Z.of_nat b) lo hi = Ok v /\ feature k f a b lo hi v.

Lemma sorted_nth_le cs j : StronglySorted le cs -> (S j < length cs)%nat -> (nth j cs 0 <= nth (S j) cs 0)%nat.
Proof.
  intros H. revert j. induction H as [|x cs Hs IH Hx]; intros j Hj; cbn [length] in *; [lia|].
  destruct j as [|j].
  - cbn. destruct cs as [|y cs]; [cbn in Hj; lia|]. inversion Hx; subst. exact H1.
  - cbn. apply IH. lia.
Qed.

Lemma backend_row_spec k l f edges cs P :
  cell_ok k l f P -> StronglySorted le cs -> (forall p, In p cs -> (p <= l)%nat) ->
  let m := (length edges - 1)%nat in
  (forall j e, (S j < length cs)%nat -> (e < m)%nat ->
     P (nth j cs 0%nat) (nth (S j) cs 0%nat) (nth e edges NInf) (nth (S e) edges NInf)) ->
  exists r, backend_row k edges (tab l (view k f)) (map Z.of_nat cs) = Ok r /\
    length r = ((length cs - 1) * m)%nat /\
    forall j e, (S j < length cs)%nat -> (e < m)%nat ->
      feature k f (nth j cs 0%nat) (nth (S j) cs 0%nat) (nth e edges NInf) (nth (S e) edges NInf) (nth (j * m + e) r 0).
Proof.
  intros HC Hs Hr m HP. unfold backend_row.
  set (Q := fun (ab : Z * Z) (row : list R) => length row = m /\ forall a b j, ab = (Z.of_nat a, Z.of_nat b) ->
      (S j < length cs)%nat -> a = nth j cs 0%nat -> b = nth (S j) cs 0%nat -> forall e, (e < m)%nat ->
      feature k f a b (nth e edges NInf) (nth (S e) edges NInf) (nth e row 0)).
  destruct (mapM_exists (fun ab => mapM (fun e => cell k (tab l (view k f)) (fst ab) (snd ab) (fst e) (snd e)) (pairs edges)) Q
     (pairs (map Z.of_nat cs))) as [rows [E F]].
  - intros ab Hab. apply (In_nth _ _ (0, 0)%Z) in Hab as [j [Hj <-]]. rewrite pairs_length, map_length in Hj.
    rewrite (pairs_nth 0%Z) by (rewrite map_length; lia).
    change 0%Z with (Z.of_nat 0). rewrite !map_nth. cbn [fst snd].
    assert (Hle : (nth j cs 0 <= nth (S j) cs 0)%nat) by (apply sorted_nth_le; [exact Hs|lia]).
    assert (Hl2 : (nth (S j) cs 0 <= l)%nat) by (apply Hr, nth_In; lia).
    destruct (mapM_exists (fun e => cell k (tab l (view k f)) (Z.of_nat (nth j cs 0%nat)) (Z.of_nat (nth (S j) cs 0%nat)) (fst e) (snd e))
       (fun e v => (exists q, (q < m)%nat /\ e = (nth q edges NInf, nth (S q) edges NInf)) ->
                   feature k f (nth j cs 0%nat) (nth (S j) cs 0%nat) (fst e) (snd e) v) (pairs edges)) as [row [Er Fr]].
    + intros e He. apply (In_nth _ _ (NInf, NInf)) in He as [q [Hq <-]]. rewrite pairs_length in Hq.
      rewrite (pairs_nth NInf) by lia. cbn [fst snd].
      destruct (HC (nth j cs 0%nat) (nth (S j) cs 0%nat) (nth q edges NInf) (nth (S q) edges NInf) Hle Hl2) as [v [Ev Fv]].
      { apply HP; unfold m; lia. }
      exists v. split; [exact Ev|]. intros _. exact Fv.
    + exists row. split; [exact Er|]. split; [rewrite (mapM_length _ _ _ Er); apply pairs_length|].
      intros a b j' Eab Hj' Ea Eb e He. injection Eab as Ea' Eb'.
      apply Nat2Z.inj in Ea'. apply Nat2Z.inj in Eb'. rewrite <- Ea', <- Eb'.
      pose proof (Forall2_nth' _ _ _ e (NInf, NInf) 0 Fr) as G. rewrite pairs_length in G. specialize (G He).
      rewrite (pairs_nth NInf) in G by (unfold m in He; lia). cbn [fst snd] in G. apply G. exists e. auto.
  - rewrite E. cbn [bind]. exists (concat rows). split; [reflexivity|].
    assert (LR : length rows = (length cs - 1)%nat).
    { rewrite (mapM_length _ _ _ E), pairs_length, map_length. reflexivity. }
    assert (FR : Forall (fun r => length r = m) rows).
    { clear - F. induction F as [|x y l1 l2 [H _] F IH]; constructor; assumption. }
    split; [rewrite (concat_uniform_length _ m FR), LR; reflexivity|].
    intros j e Hj He. rewrite (concat_nth 0 rows m FR) by lia.
    pose proof (Forall2_nth' _ _ _ j (0, 0)%Z [] F) as G. rewrite pairs_length, map_length in G.
    specialize (G ltac:(lia)). destruct G as [_ G]. rewrite (pairs_nth 0%Z) in G by (rewrite map_length; lia).
    apply (G (nth j cs 0%nat) (nth (S j) cs 0%nat) j); auto.
    change 0%Z with (Z.of_nat 0). now rewrite !map_nth.
Qed.

(** ** Cuts *)
Lemma eqs_refl s : eqs s s = true.
Proof. unfold eqs. destruct (list_eq_dec ascii_dec s s); congruence. Qed.
Lemma get_on_good parse (inp : list (list (list R))) r norm q :
  ~ In ":"%char r -> good_norm norm -> parse r = Ok q ->
  get_on parse inp (r ++ [colon] ++ norm)
  = Ok (VCoq (coquantile q (if eqs norm (str "L1") then L1_sum inp else L2_sum inp))).
Proof.
  intros Hr Hn Hq. unfold get_on, cache_fresh, compute. change ([colon] ++ norm) with (colon :: norm).
  rewrite split_on_sep by exact Hr.
  destruct Hn as [-> | ->].
  - change (split_on colon (str "L1")) with [str "L1"]. cbv beta iota. rewrite eqs_refl, Hq. reflexivity.
  - change (split_on colon (str "L2")) with [str "L2"]. cbv beta iota. change (eqs (str "L2") (str "L1")) with false.
    cbv iota. rewrite eqs_refl, Hq. reflexivity.
Qed.
Lemma norm_fn_nonneg norm v : 0 <= norm_fn norm v.
Proof. unfold norm_fn. destruct (eqs norm (str "L1")); [apply Rabs_pos|apply Rle_0_sqr]. Qed.

Lemma coq_column parse norm inp n d l r q :
  has_shape inp n d l -> (1 <= d)%nat -> (1 <= l)%nat -> ~ In ":"%char r -> good_norm norm -> parse r = Ok q ->
  exists p : nat -> nat,
    get_on parse inp (r ++ [colon] ++ norm) = Ok (VCoq (tab n p)) /\
    forall i, (i < n)%nat -> (p i <= l)%nat /\
      forall t, (t < l)%nat -> ((t < p i)%nat <-> variation (norm_fn norm) (entry inp i 0) t
                                                 <= q * variation (norm_fn norm) (entry inp i 0) (l - 1)).
Proof.
  intros HI Hd Hl Hr Hn Hq. rewrite (get_on_good parse inp r norm q Hr Hn Hq).
  set (Y := if eqs norm (str "L1") then L1_sum inp else L2_sum inp).
  assert (HY : length Y = n /\ forall i, (i < n)%nat -> nth i Y [] = tab l (variation (norm_fn norm) (entry inp i 0))).
  { unfold Y, norm_fn. destruct (eqs norm (str "L1")).
    - apply (L1_sum_spec inp n d l HI Hd).
    - apply (L2_sum_spec inp n d l HI Hd). }
  destruct HY as [LY NY]. exists (fun i => coquantile1 q (nth i Y [])). split.
  - unfold coquantile. f_equal. f_equal. apply (list_ext 0%nat); [now rewrite map_length, tab_length|].
    rewrite map_length, LY. intros i Hi. rewrite tab_nth by exact Hi.
    rewrite (nth_indep _ 0%nat (coquantile1 q [])) by (rewrite map_length; lia). now rewrite map_nth.
  - intros i Hi. rewrite NY by exact Hi.
    destruct (coquantile1_spec q l (variation (norm_fn norm) (entry inp i 0)) Hl) as [c [-> [Hc Hc2]]].
    { apply variation_mono, norm_fn_nonneg. }
    auto.
Qed.

Lemma cut_column_spec parse norm inp n d l c :
  has_shape inp n d l -> (1 <= d)%nat -> (1 <= l)%nat -> good_norm norm -> good_cut parse l c ->
  exists p : nat -> nat,
    cut_column (get_on parse inp) norm n l c = Ok (tab n (fun i => Z.of_nat (p i))) /\
    forall i, (i < n)%nat -> (p i <= l)%nat /\ cut_stands_for parse norm (entry inp i 0) l c (p i).
Proof.
  intros HI Hd Hl Hn Hc. destruct c as [z|r]; cbn [cut_column cut_stands_for good_cut] in *.
  - exists (fun _ => Z.to_nat (if (0 <=? z)%Z then z else (Z.of_nat l + z + 1)%Z)).
    split; [rewrite tab_repeat; f_equal; apply tab_ext; intros; destruct (Z.leb_spec 0 z); lia|].
    intros i Hi. destruct (Z.leb_spec 0 z); lia.
  - destruct Hc as [Hr [q Hq]]. destruct (coq_column parse norm inp n d l r q HI Hd Hl Hr Hn Hq) as [p [E S1]].
    exists p. rewrite E. cbn [bind]. split.
    + rewrite tab_map, tab_repeat. rewrite py_set_slice_tab by (cbn; lia). f_equal. apply tab_ext. intros i Hi.
      cbn [lo_bound hi_bound]. replace (i <? n)%nat with true by (symmetry; now apply Nat.ltb_lt). cbn [Nat.leb andb].
      now rewrite Nat.sub_0_r.
    + intros i Hi. destruct (S1 i Hi) as [B V]. split; [exact B|]. split; [exact B|]. exists q. auto.
Qed.

Lemma Forall2_length {A B} (P : A -> B -> Prop) l m : Forall2 P l m -> length l = length m.
Proof. induction 1; cbn; congruence. Qed.
Lemma cuts_of_spec parse norm inp n d l cut :
  has_shape inp n d l -> (1 <= d)%nat -> (1 <= l)%nat -> good_norm norm -> Forall (good_cut parse l) cut ->
  exists cs : nat -> list nat,
    cuts_of (get_on parse inp) norm n l cut = Ok (tab n (fun i => map Z.of_nat (cs i))) /\
    forall i, (i < n)%nat -> borders parse norm (entry inp i 0) l cut (cs i) /\ length (cs i) = S (length cut).
Proof.
  intros HI Hd Hl Hn Hc. unfold cuts_of.
  assert (E : exists ps : nat -> list nat,
     mapM (cut_column (get_on parse inp) norm n l) cut
       = Ok (map (fun j => tab n (fun i => Z.of_nat (nth j (ps i) 0%nat))) (seq 0 (length cut))) /\
     forall i, (i < n)%nat -> Forall2 (cut_stands_for parse norm (entry inp i 0) l) cut (ps i) /\
                              forall p, In p (ps i) -> (p <= l)%nat).
  { induction Hc as [|c cut Hc1 Hc IH].
    - exists (fun _ => []). split; [reflexivity|]. intros i Hi. split; [constructor|intros p []].
    - destruct IH as [ps [E P]]. destruct (cut_column_spec parse norm inp n d l c HI Hd Hl Hn Hc1) as [p [E1 P1]].
      exists (fun i => p i :: ps i). split.
      + cbn [mapM]. rewrite E1, E. cbn [bind length seq map nth]. rewrite <- seq_shift, map_map. reflexivity.
      + intros i Hi. destruct (P i Hi) as [Q1 Q2]. destruct (P1 i Hi) as [Q3 Q4]. split; [now constructor|].
        intros x [<-|Hx]; auto. }
  destruct E as [ps [E P]]. rewrite E. cbn [bind].
  exists (fun i => map Z.to_nat (zsort (0%Z :: map Z.of_nat (ps i)))).
  assert (SN : forall i, zsort (0%Z :: map Z.of_nat (ps i)) = map Z.of_nat (map Z.to_nat (zsort (0%Z :: map Z.of_nat (ps i))))
     /\ Permutation (map Z.to_nat (zsort (0%Z :: map Z.of_nat (ps i)))) (0%nat :: ps i)
     /\ StronglySorted le (map Z.to_nat (zsort (0%Z :: map Z.of_nat (ps i))))).
  { intros i. destruct (zsort_nat (0%nat :: ps i)) as [m [Em [Pm Sm]]]. cbn [map] in Em.
    change (Z.of_nat 0) with 0%Z in Em. rewrite Em.
    assert (Ei : map Z.to_nat (map Z.of_nat m) = m).
    { rewrite map_map. rewrite (map_ext _ (fun x : nat => x)) by (intros; lia). apply map_id. }
    rewrite Ei. auto. }
  split.
  - f_equal. apply map_ext_in. intros i Hi. apply in_seq in Hi. destruct (SN i) as [<- _]. f_equal. f_equal.
    rewrite map_map. destruct (P i ltac:(lia)) as [F _]. pose proof (Forall2_length _ _ _ F) as LF.
    rewrite <- (map_id (map Z.of_nat (ps i))). apply (list_ext 0%Z); [now rewrite !map_length, seq_length|].
    rewrite map_length, seq_length. intros j Hj. rewrite map_id.
    rewrite (nth_indep _ 0%Z ((fun x => nth i (tab n (fun i0 => Z.of_nat (nth x (ps i0) 0%nat))) 0%Z) 0%nat))
      by (rewrite map_length, seq_length; exact Hj).
    rewrite (map_nth (fun x => nth i (tab n (fun i0 => Z.of_nat (nth x (ps i0) 0%nat))) 0%Z)).
    rewrite seq_nth by exact Hj. rewrite tab_nth by lia. cbn [Nat.add].
    change 0%Z with (Z.of_nat 0). now rewrite map_nth.
  - intros i Hi. destruct (SN i) as [_ [Pm Sm]]. destruct (P i Hi) as [F B]. split.
    + split; [exact Sm|]. split.
      * intros p Hp. apply (Permutation_in _ Pm) in Hp as [<-|Hp]; [lia|auto].
      * exists (ps i). auto.
    + rewrite (Permutation_length Pm). cbn. f_equal. symmetry. apply (Forall2_length _ _ _ F).
Qed.

(** ** The whole transform *)
Lemma map2M_tab {A B C} (f : A -> B -> res C) n (x : nat -> A) (y : nat -> B) (Q : nat -> C -> Prop) :
  (forall i, (i < n)%nat -> exists z, f (x i) (y i) = Ok z /\ Q i z) ->
  exists z, map2M f (tab n x) (tab n y) = Ok z /\ length z = n /\ forall i d, (i < n)%nat -> Q i (nth i z d).
Proof.
  revert x y Q. induction n as [|n IH]; intros x y Q HQ.
  - exists []. repeat split. intros; lia.
  - destruct (HQ 0%nat ltac:(lia)) as [z0 [E0 Q0]].
    destruct (IH (fun i => x (S i)) (fun i => y (S i)) (fun i => Q (S i))) as [z [E [L V]]].
    { intros i Hi. apply HQ. lia. }
    exists (z0 :: z). rewrite !tab_S. cbn [map2M]. rewrite E0, E. cbn [bind length]. split; [reflexivity|].
    split; [lia|]. intros [|i] d Hi; [exact Q0|]. cbn. apply V. lia.
Qed.

Definition edges_used (c : seg_cfg) (st : option (list (xnum R))) (e : list (xnum R)) : Prop :=
  if seg_requires c then st = Some e else e = map plain_edge (sg_q c).
Lemma edges_plain_ok c : seg_requires c = false -> mapM (edge_plain (T := R)) (sg_q c) = Ok (map plain_edge (sg_q c)).
Proof.
  intros E. apply mapM_ok. intros q Hq. destruct q; try reflexivity. exfalso.
  unfold seg_requires in E. assert (K : existsb is_prob (sg_q c) = true); [|congruence].
  apply existsb_exists. eauto.
Qed.

Lemma seg_transform_eq c get st e (X : list (list R)) : sg_kind c <> KEND -> edges_used c st e -> e <> [] ->
  seg_transform c get st X
  = ((let! cs := cuts_of get (sg_norm c) (length (pre_transform (sg_kind c) X)) (tlen (pre_transform (sg_kind c) X)) (sg_cut c) in
      map2M (backend_row (sg_kind c) e) (backend_input (sg_kind c) (pre_transform (sg_kind c) X)) cs), Some e).
Proof.
  intros NE HE Hne. unfold seg_transform, edges_used in *.
  destruct (seg_requires c) eqn:Er.
  - subst st. destruct e; [contradiction|]. destruct (sg_kind c); try contradiction; reflexivity.
  - rewrite edges_plain_ok by exact Er. rewrite <- HE. cbn [bind]. destruct e; [contradiction|].
    destruct (sg_kind c); try contradiction; reflexivity.
Qed.

Lemma shape2_pre k (X : list (list R)) n l : has_shape2 X n l -> (1 <= n)%nat ->
  length (pre_transform k X) = n /\ tlen (pre_transform k X) = l.
Proof.
  intros [L F] Hn. unfold pre_transform.
  assert (B : length X = n /\ tlen X = l).
  { split; [exact L|]. destruct X as [|x X]; [cbn in L; lia|]. cbn. now inversion F. }
  destruct (is_inc_kind k) as [i|]; [|exact B]. rewrite map_length. split; [exact L|].
  destruct X as [|x X]; [cbn in L; lia|]. cbn. inversion F as [|? ? Hx _]; subst.
  rewrite (tab_eta' 0 (length x) x eq_refl) at 1. rewrite pre1_tab. apply tab_length.
Qed.

Lemma seg_transform_spec parse c st e X n l inp d P :
  has_shape2 X n l -> (1 <= n)%nat -> (1 <= l)%nat -> has_shape inp n d l -> (1 <= d)%nat ->
  good_norm (sg_norm c) -> Forall (good_cut parse l) (sg_cut c) ->
  sg_kind c <> KEND -> edges_used c st e -> e <> [] ->
  (forall i, (i < n)%nat -> cell_ok (sg_kind c) l (entry2 X i) (P i)) ->
  (forall i cs, (i < n)%nat -> borders parse (sg_norm c) (entry inp i 0) l (sg_cut c) cs ->
     length cs = S (length (sg_cut c)) ->
     forall j q, (j < length (sg_cut c))%nat -> (q < length e - 1)%nat ->
       P i (nth j cs 0%nat) (nth (S j) cs 0%nat) (nth q e NInf) (nth (S q) e NInf)) ->
  exists Y, seg_transform c (get_on parse inp) st X = (Ok Y, Some e) /\
    has_shape2 Y n (length (sg_cut c) * (length e - 1)) /\
    forall i, (i < n)%nat -> exists cs, borders parse (sg_norm c) (entry inp i 0) l (sg_cut c) cs /\
      length cs = S (length (sg_cut c)) /\
      forall j q, (j < length (sg_cut c))%nat -> (q < length e - 1)%nat ->
        feature (sg_kind c) (entry2 X i) (nth j cs 0%nat) (nth (S j) cs 0%nat) (nth q e NInf) (nth (S q) e NInf)
          (nth (j * (length e - 1) + q) (nth i Y []) 0).
Proof.
  intros HX Hn Hl HI Hd HN HC NE HE Hne Hcell HP.
  rewrite (seg_transform_eq c _ st e X NE HE Hne).
  destruct (shape2_pre (sg_kind c) X n l HX Hn) as [-> ->].
  destruct (cuts_of_spec parse (sg_norm c) inp n d l (sg_cut c) HI Hd Hl HN HC) as [cs [Ec Bc]].
  rewrite Ec. cbn [bind]. rewrite (backend_rows (sg_kind c) X n l HX).
  destruct (map2M_tab (backend_row (sg_kind c) e) n (fun i => tab l (view (sg_kind c) (entry2 X i))) (fun i => map Z.of_nat (cs i))
    (fun i r => length r = (length (sg_cut c) * (length e - 1))%nat /\
       exists cs, borders parse (sg_norm c) (entry inp i 0) l (sg_cut c) cs /\ length cs = S (length (sg_cut c)) /\
       forall j q, (j < length (sg_cut c))%nat -> (q < length e - 1)%nat ->
        feature (sg_kind c) (entry2 X i) (nth j cs 0%nat) (nth (S j) cs 0%nat) (nth q e NInf) (nth (S q) e NInf)
          (nth (j * (length e - 1) + q) r 0))) as [Y [EY [LY VY]]].
  - intros i Hi. destruct (Bc i Hi) as [B1 B2]. destruct B1 as [S1 [S2 S3]].
    destruct (backend_row_spec (sg_kind c) l (entry2 X i) e (cs i) (P i) (Hcell i Hi) S1 S2) as [r [Er [Lr Vr]]].
    { intros j q Hj Hq. apply (HP i (cs i) Hi); [now repeat split|exact B2|lia|exact Hq]. }
    exists r. split; [exact Er|]. rewrite B2 in Lr. replace (S (length (sg_cut c)) - 1)%nat with (length (sg_cut c)) in Lr by lia.
    split; [exact Lr|]. exists (cs i). split; [now repeat split|]. split; [exact B2|].
    intros j q Hj Hq. apply Vr; [lia|exact Hq].
  - exists Y. rewrite EY. split; [reflexivity|]. split.
    + split; [exact LY|]. apply Forall_forall. intros r Hr. apply (In_nth _ _ []) in Hr as [i [Hi <-]].
      rewrite LY in Hi. apply (VY i [] Hi).
    + intros i Hi. apply (VY i [] Hi).
Qed.
