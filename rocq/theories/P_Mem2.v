(** C92, C93: what [Fruit.transform] does to arrays in memory. *)
From Coq Require Import Ascii String List Arith ZArith Bool Lia.
From Verif Require Import Num Arr M_Str M_Semiring M_Words M_ISS M_Np M_Prep M_Cache M_Sieve M_PrepObj M_Cos M_Fruit M_Seeds M_Mem M_Mem2
  S_ISS S_Prep S_Sieve S_Fruit L_Arr L_Np L_Fruit L_Fruit3 L_Fruit4 L_Fruit8 L_Seeds S_Mem S_Mem2 L_Mem L_Mem4 L_Mem5 L_Mem6 P_Mem.
Import ListNotations.

Lemma observes_overwrites {T} (cb : arr -> mem (T := T) unit) : observes cb -> overwrites cb (fun Z => Z).
Proof.
  intros Ho a m V. split; [reflexivity|]. destruct (Ho a m) as [E [new U]]. exists new. rewrite put_load_same by exact V.
  rewrite (surjective_pairing (cb a m)), E, U. reflexivity.
Qed.
Definition ids {T} (cbs : list (arr -> mem (T := T) unit)) {A} : list (A -> A) := map (fun _ => fun x => x) cbs.
Lemma observes_all {T} (cbs : list (arr -> mem (T := T) unit)) : Forall observes cbs ->
  Forall2 overwrites cbs (ids cbs) /\ Forall2 (fun cb g => overwrites cb (map g)) cbs (ids cbs).
Proof.
  induction 1 as [|cb cbs Hc F IH]; [split; constructor|]. destruct IH as [I1 I2]. split; (constructor; [|assumption]).
  - now apply observes_overwrites.
  - intros a m V. destruct (observes_overwrites cb Hc a m V) as [E G]. rewrite map_id. auto.
Qed.
Lemma ids_fold {T} (cbs : list (arr -> mem (T := T) unit)) {A} (x : A) : applied (ids cbs) x = x.
Proof. unfold ids, applied. induction cbs; cbn; auto. Qed.

Section C92.
Context {T : Type} `{N : Num T}.
Notation memory := (memory (T := T)).
Variable K : kit T.
Notation slice := (parts (prepT K) (issT K) (sieveT K)).
Definition to_view (p : slice) : sview K := {| v_fit := t_fit p; v_p := t_p p; v_i := t_i p; v_s := t_s p; v_e := t_e p |}.
Lemma mapr_id {A} (r : res A) (g : A -> A) : (forall x, g x = x) -> mapr g r = r.
Proof. intros Hg. destruct r; cbn; [now rewrite Hg|reflexivity]. Qed.
Lemma slice_val_view gs gs2 c X p : (forall Y, applied gs Y = Y) -> (forall Z, applied gs2 Z = Z) ->
  slice_val K gs gs2 c X p = mapr block2 (vfst (ev_view K c X (to_view p))).
Proof.
  intros H1 H2. unfold slice_val, ev_view, ev_slice, to_view. cbn [v_fit v_p v_i v_s v_e]. destruct (t_fit p); cbn [negb]; [|reflexivity].
  destruct (ev_preps K c (t_p p) X) as [[Y e1]|e]; cbn [vfst bind fst]; [|reflexivity].
  unfold parts_nfeatures, ev_ns. destruct (mapM (i_n K) (t_i p)) as [ns|e]; cbn [bind]; [|reflexivity].
  assert (E : map (mapr (applied gs)) (iterate_iss K (map (i_attach K c) (t_i p)) Y) = iterate_iss K (map (i_attach K c) (t_i p)) Y).
  { rewrite <- map_id. apply map_ext. intros r. now apply mapr_id. }
  rewrite E. unfold nsieves. destruct (ev_itsums K c _ 0 _ _) as [[kA e2]|e]; cbn [value mapr bind vfst fst]; [|reflexivity]. now rewrite H2.
Qed.
Lemma fruit_val_view gs gs2 X ps : (forall Y, applied gs Y = Y) -> (forall Z, applied gs2 Z = Z) ->
  fruit_val K gs gs2 X ps = mapr block2 (vfst (ev_fruit K X X (map to_view ps))).
Proof.
  intros H1 H2. unfold fruit_val, ev_fruit.
  assert (En : mapM (v_nf K) (map to_view ps) = mapM (parts_nfeatures K) ps).
  { clear. induction ps as [|p ps IH]; [reflexivity|]. cbn [map mapM]. rewrite IH. reflexivity. }
  rewrite En. destruct (mapM (parts_nfeatures K) ps) as [ns|e]; cbn [bind]; [|reflexivity].
  assert (Es : forall ps index A, slices_val K gs gs2 X X ps index A = vfst (ev_slices K X X (map to_view ps) index A)).
  { clear - H1 H2. induction ps as [|p ps IH]; intros index A; [reflexivity|]. cbn [slices_val map ev_slices].
    change (v_nf K (to_view p)) with (parts_nfeatures K p). destruct (parts_nfeatures K p) as [k|e]; cbn [bind]; [|reflexivity].
    rewrite slice_val_view by assumption. destruct (ev_view K X X (to_view p)) as [[R e1]|e]; cbn [vfst mapr bind fst]; [|reflexivity].
    rewrite unblock_block. destruct (set_cols index k R A) as [A'|e]; cbn [bind]; [|reflexivity]. rewrite IH.
    destruct (ev_slices K X X (map to_view ps) (index + k) A') as [[B e2]|e]; reflexivity. }
  rewrite Es. destruct (ev_slices K X X (map to_view ps) 0 _) as [[A e]|e]; reflexivity.
Qed.
(** [Fruit.transform] of a fitted fruit, called with an array [x] and callbacks
    that only observe: its statements, executed in memory, give what the model of
    fruits says (M_Fruit, C25), change no array that existed - in particular not
    the caller's - and return a new array, whether or not it raises. *)
Theorem C92_transform : forall (W : lawful K) pmem hk h f fr ps x m cbs,
  pure_preparateurs K pmem -> all_observe hk -> valid m x ->
  nth_error (h_fr K h) f = Some fr -> f_fitted fr = true -> Forall2 (consists K h) (f_slices fr) ps ->
  Forall (fun p => (t_fit p = true -> t_i p <> []) /\ all_boxes K (load m x) (t_p p) (load m x)) ps ->
  computes (fruit_mem K pmem hk ps x) m (mapr block2 (fst (fruit_transform K f (load m x) cbs None h))) /\
  returns_new_array (fruit_mem K pmem hk ps x) m.
Proof.
  intros W pmem hk h f fr ps x m cbs Hp (H1 & H2 & H3 & H4 & H5 & H6) V Ef Hf F B.
  assert (Hnf : forall c s, s_nf K (s_attach K c s) = s_nf K s) by (intros c s; apply (eqS_nf K W), (eqS_attach K W)).
  pose proof (fruit_makes K pmem Hp Hnf hk (ids (on_iterated_sum hk)) (ids (on_sieving_end hk)) H1 H2 H3 (proj2 (observes_all _ H4)) H5 (proj1 (observes_all _ H6)) x ps m V B) as M.
  rewrite fruit_val_view in M; [|intros Y; apply ids_fold|intros Z; apply ids_fold].
  assert (Vs : Forall2 (L_Fruit8.sees K W h) (f_slices fr) (map to_view ps)).
  { clear - F. induction F as [|sl p sls ps Hc F IH]; [constructor|]. cbn [map]. constructor; [|exact IH].
    destruct Hc as (s & E1 & E2 & E3 & E4 & E5 & E6). exists s. cbn [to_view v_fit v_p v_i v_s v_e].
    split; [exact E1|]. split; [exact E2|]. split; [exact (@objs_refs _ _ (eqP_equiv K W) _ _ _ E3)|].
    split; [exact (@objs_refs _ _ (eqI_equiv K W) _ _ _ E4)|]. split; [exact (@objs_refs _ _ (eqS_equiv K W) _ _ _ E5)|].
    revert E6. apply Forall2_impl. intros a b E6. exact (@objs_refs _ _ (eqS_equiv K W) _ _ _ E6). }
  pose proof (fruit_transform_evals K W h f fr (map to_view ps) (load m x) cbs None Ef Hf Vs) as Ev. cbn in Ev.
  assert (Eq : fst (fruit_transform K f (load m x) cbs None h) = vfst (ev_fruit K (load m x) (load m x) (map to_view ps))).
  { unfold evals in Ev. destruct (ev_fruit K (load m x) (load m x) (map to_view ps)) as [[A e]|e]; destruct Ev as (h' & E); [destruct E as [E _]|]; rewrite E; reflexivity. }
  rewrite Eq. exact (makes_computes _ _ _ M).
Qed.

(** A callback that overwrites the iterated sums it gets acts exactly as if every
    sieve applied the same function first. *)
Lemma nf_before g : (forall c s, s_nf K (s_attach K c s) = s_nf K s) ->
  forall c s, s_nf (before_sieves K g) (s_attach (before_sieves K g) c s) = s_nf (before_sieves K g) s.
Proof. intros E. exact E. Qed.
Lemma ev_sieves_before g c (l : list (sieveT K)) Y : forall kA,
  value (ev_sieves (before_sieves K g) c l Y kA) = value (ev_sieves K c l (g Y) kA).
Proof.
  induction l as [|s l IH]; intros [k A]; [reflexivity|]. cbn [ev_sieves before_sieves s_transform s_nf s_attach sieveT].
  destruct (fst (s_transform K (g Y) (s_attach K c s))) as [R|e]; [|reflexivity].
  destruct (set_cols k (s_nf K s) R A) as [A'|e]; [|reflexivity]. specialize (IH (k + s_nf K s, A')).
  destruct (ev_sieves (before_sieves K g) c l Y (k + s_nf K s, A')) as [[x1 e1]|e1], (ev_sieves K c l (g Y) (k + s_nf K s, A')) as [[x2 e2]|e2];
    cbn in *; congruence.
Qed.
Lemma ev_itsums_before g c (get : nat -> res (list (sieveT K))) its : forall i kA,
  value (ev_itsums (before_sieves K g) c get i its kA) = value (ev_itsums K c get i (map (mapr g) its) kA).
Proof.
  induction its as [|[Y|e] its IH]; intros i kA; [reflexivity| |reflexivity]. cbn [ev_itsums map mapr].
  destruct (get i) as [l|e]; [|reflexivity]. pose proof (ev_sieves_before g c l Y kA) as E.
  destruct (ev_sieves (before_sieves K g) c l Y kA) as [[kA1 e1]|e1], (ev_sieves K c l (g Y) kA) as [[kA2 e2]|e2]; cbn [value] in E; [|discriminate|discriminate|congruence].
  injection E as ->. specialize (IH (S i) kA2).
  destruct (ev_itsums (before_sieves K g) c get (S i) its kA2) as [[x1 f1]|f1], (ev_itsums K c get (S i) (map (mapr g) its) kA2) as [[x2 f2]|f2];
    cbn in *; congruence.
Qed.
Lemma iterate_before g is : forall X, iterate_iss (before_sieves K g) is X = iterate_iss K is X.
Proof. reflexivity. Qed.
Lemma slice_val_before gs gs2 c X p : slice_val K gs gs2 c X p = slice_val (before_sieves K (applied gs)) [] gs2 c X p.
Proof.
  transitivity (if negb (t_fit p) then Err RuntimeError else
    let! Y := vfst (ev_preps K c (t_p p) X) in
    let! nf := parts_nfeatures K p in
    let! A := mapr snd (value (ev_itsums (before_sieves K (applied gs)) c (getter K (t_s p) (t_e p)) 0
                (map (mapr (applied (A := mts T) [])) (iterate_iss K (map (i_attach K c) (t_i p)) Y)) (0, repeat (repeat nzero nf) (length Y)))) in
    Ok (applied gs2 (block2 A))); [|reflexivity].
  unfold slice_val. destruct (negb (t_fit p)); [reflexivity|].
  destruct (vfst (ev_preps K c (t_p p) X)) as [Y|e]; cbn [bind]; [|reflexivity].
  destruct (parts_nfeatures K p) as [nf|e]; cbn [bind]; [|reflexivity].
  set (its := iterate_iss K _ Y).
  assert (Ei : map (mapr (applied (A := mts T) [])) its = its).
  { rewrite <- map_id. apply map_ext. intros [Z|e]; reflexivity. }
  rewrite Ei, ev_itsums_before. reflexivity.
Qed.
Lemma fruit_val_before gs gs2 X ps : fruit_val K gs gs2 X ps = fruit_val (before_sieves K (applied gs)) [] gs2 X ps.
Proof.
  transitivity (let! ns := mapM (parts_nfeatures K) ps in
    let! A := slices_val (before_sieves K (applied gs)) [] gs2 X X ps 0 (repeat (repeat nzero (list_sum ns)) (length X)) in
    Ok (block2 (nan_to_num A))); [|reflexivity].
  unfold fruit_val. destruct (mapM (parts_nfeatures K) ps) as [ns|e]; cbn [bind]; [|reflexivity].
  assert (Es : forall ps index A, slices_val K gs gs2 X X ps index A = slices_val (before_sieves K (applied gs)) [] gs2 X X ps index A).
  { clear. induction ps as [|p ps IH]; intros index A; [reflexivity|].
    transitivity (let! k := parts_nfeatures K p in let! F := slice_val (before_sieves K (applied gs)) [] gs2 X X p in
      let! A' := set_cols index k (unblock2 F) A in slices_val (before_sieves K (applied gs)) [] gs2 X X ps (index + k) A'); [|reflexivity].
    cbn [slices_val]. destruct (parts_nfeatures K p) as [k|e]; cbn [bind]; [|reflexivity].
    rewrite <- slice_val_before. destruct (slice_val K gs gs2 X X p) as [R|e]; cbn [bind]; [|reflexivity].
    destruct (set_cols index k (unblock2 R) A) as [A'|e]; cbn [bind]; [|reflexivity]. apply IH. }
  rewrite Es. reflexivity.
Qed.
Lemma computes_fun (c : mem arr) (m : memory) r r' : computes c m r -> computes c m r' -> r = r'.
Proof.
  unfold computes. destruct (c m) as [[a|e] m']; intros [_ A] [_ B]; destruct r, r'; try contradiction; [|congruence].
  destruct A as [_ A], B as [_ B]. congruence.
Qed.
Lemma boxes_before g I ps : forall X, all_boxes K I ps X -> all_boxes (before_sieves K g) I ps X.
Proof.
  induction ps as [|q r IH]; intros X [Bz Br]; (split; [exact Bz|]); [exact Logic.I|]. intros Y E. apply IH. exact (Br Y E).
Qed.
Theorem C93_on_iterated_sum : forall (W : lawful K) pmem hk gs ps x m,
  pure_preparateurs K pmem -> all_observe (with_on_iterated_sum hk []) ->
  Forall2 (fun cb g => overwrites cb (map g)) (on_iterated_sum hk) gs -> valid m x ->
  Forall (fun p => (t_fit p = true -> t_i p <> []) /\ all_boxes K (load m x) (t_p p) (load m x)) ps ->
  forall r, computes (fruit_mem K pmem hk ps x) m r <->
            computes (fruit_mem (before_sieves K (applied gs)) pmem (with_on_iterated_sum hk []) ps x) m r.
Proof.
  intros W pmem hk gs ps x m Hp (H1 & H2 & H3 & H4 & H5 & H6) Ho V B r. cbn in H1, H2, H3, H4, H5, H6.
  assert (Hnf : forall c s, s_nf K (s_attach K c s) = s_nf K s) by (intros c s; apply (eqS_nf K W), (eqS_attach K W)).
  pose proof (fruit_makes K pmem Hp Hnf hk gs (ids (on_sieving_end hk)) H1 H2 H3 Ho H5 (proj1 (observes_all _ H6)) x ps m V B) as M1.
  assert (B' : Forall (fun p => (t_fit p = true -> t_i p <> []) /\ all_boxes (before_sieves K (applied gs)) (load m x) (t_p p) (load m x)) ps).
  { revert B. apply Forall_impl. intros p [I1 I2]. split; [exact I1|]. apply boxes_before. exact I2. }
  pose proof (fruit_makes (before_sieves K (applied gs)) pmem Hp Hnf (with_on_iterated_sum hk []) [] (ids (on_sieving_end hk)) H1 H2 H3 (Forall2_nil _) H5 (proj1 (observes_all _ H6)) x ps m V B') as M2.
  apply makes_computes in M1, M2. rewrite <- fruit_val_before in M2.
  split; intros C; [rewrite (computes_fun _ _ _ _ C (proj1 M1)); apply M2|rewrite (computes_fun _ _ _ _ C (proj1 M2)); apply M1].
Qed.
(** A callback that overwrites the features of a slice changes the features that
    [FruitSlice.transform] returns, and nothing else. *)
Theorem C93_on_sieving_end : forall (W : lawful K) pmem hk gs p x m,
  pure_preparateurs K pmem -> all_observe (with_on_sieving_end hk []) ->
  Forall2 overwrites (on_sieving_end hk) gs -> valid m x -> (t_fit p = true -> t_i p <> []) -> all_boxes K (load m x) (t_p p) (load m x) ->
  forall r, computes (slice_mem K pmem (with_on_sieving_end hk []) (CRef x) p x) m r ->
            computes (slice_mem K pmem hk (CRef x) p x) m (mapr (applied gs) r).
Proof.
  intros W pmem hk gs p x m Hp (H1 & H2 & H3 & H4 & H5 & H6) Ho V Hi B r C. cbn in H1, H2, H3, H4, H5, H6.
  assert (Hnf : forall c s, s_nf K (s_attach K c s) = s_nf K s) by (intros c s; apply (eqS_nf K W), (eqS_attach K W)).
  pose proof (slice_makes K pmem Hp Hnf hk (ids (on_iterated_sum hk)) gs H2 H3 (proj2 (observes_all _ H4)) H5 Ho m x p m V (untouched_refl m) Hi B) as M1.
  pose proof (slice_makes K pmem Hp Hnf (with_on_sieving_end hk []) (ids (on_iterated_sum hk)) [] H2 H3 (proj2 (observes_all _ H4)) H5 (Forall2_nil _) m x p m V (untouched_refl m) Hi B) as M2.
  apply makes_computes in M1, M2. rewrite (computes_fun _ _ _ _ C (proj1 M2)).
  refine (eq_ind _ (computes _ m) (proj1 M1) _ _). unfold slice_val. destruct (t_fit p); cbn [negb]; [|reflexivity].
  destruct (vfst (ev_preps K (load m x) (t_p p) (load m x))) as [Y|e]; cbn [bind]; [|reflexivity].
  destruct (parts_nfeatures K p) as [nf|e]; cbn [bind]; [|reflexivity]. match goal with |- bind ?t _ = _ => destruct t as [A|e] end; reflexivity.
Qed.
(** No callback and no user function can change the caller's data, if every slice
    starts with a preparateur that allocates its result (or has no preparateurs
    and there is nobody to hand the data to before the first iterated sum); this
    holds whether or not the computation raises. *)
Section Keep.
Variable pmem : source (T := T) -> prepT K -> arr -> mem (T := T) arr.
Variable hk : hooks T.
Hypothesis Hc : all_confined hk.
Lemma keeps_fold {A S} k (l : list A) (body : S -> A -> mem (T := T) S) : (forall s a, keeps k (body s a) (fun _ => True)) ->
  forall s, keeps k (fold_each l body s) (fun _ => True).
Proof.
  intros Hb. induction l as [|a l IH]; intros s; cbn [fold_each]; [now apply keeps_ret|].
  apply (keeps_seq k _ _ (fun _ => True)); [apply Hb|]. intros s' _. apply IH.
Qed.
Lemma preps_keep k src : forall ps y, Forall (confining K pmem) ps -> k <= base y -> keeps k (preps_mem K pmem hk src ps y) (fun a => k <= base a).
Proof.
  destruct Hc as (_ & C2 & _). induction ps as [|p ps IH]; intros y F Hy; cbn [preps_mem]; [now apply keeps_ret|].
  apply (keeps_seq k _ _ (fun a => k <= base a)); [exact (Forall_inv F src y k Hy)|]. intros z Hz.
  apply (keeps_seq k _ _ (fun _ => True)); [now apply callbacks_keep|]. intros _ _. apply IH; [exact (Forall_inv_tail F)|exact Hz].
Qed.
Lemma argument_keeps k (top : bool) x : keeps (T := T) k (argument top x) (fun _ => True).
Proof. unfold argument. apply (keeps_seq k _ _ (fun _ => True)); [apply keeps_contents|]. intros Z _. now apply keeps_ret. Qed.
Lemma iterate_keeps k src {S} (body : S -> arr -> mem (T := T) S) : (forall s a, k <= base a -> keeps k (body s a) (fun _ => True)) ->
  forall is (top : bool) x s, is <> [] \/ k <= base x -> keeps k (iterate_mem K src body is top x s) (fun _ => True).
Proof.
  intros Hb. induction is as [|i is IH]; intros top x s Hx; cbn [iterate_mem]; [destruct Hx; [congruence|now apply Hb]|].
  apply (keeps_seq k _ _ (fun _ => True)); [apply keeps_look|]. intros c _.
  apply (keeps_seq k _ _ (fun _ => True)); [apply argument_keeps|]. intros X _. apply keeps_fold. intros s1 b.
  apply (keeps_seq k _ _ (fun _ => True)); [apply keeps_look|]. intros c' _.
  apply (keeps_seq k _ _ (fun _ => True)); [apply argument_keeps|]. intros X' _.
  apply (keeps_seq k _ _ (fun _ => True)); [apply keeps_eval|]. intros Y _.
  apply (keeps_seq k _ _ (fun a => k <= base a)); [apply keeps_new|]. intros r Hr. apply keeps_fold. intros s2 j. apply IH. right. exact Hr.
Qed.
Lemma sieves_keep k src itsum feats : k <= base feats -> forall l n, keeps k (sieves_mem K hk src l itsum feats n) (fun _ => True).
Proof.
  destruct Hc as (_ & _ & _ & _ & C5 & _). intros Hf. induction l as [|s l IH]; intros n; cbn [sieves_mem]; [now apply keeps_ret|].
  apply (keeps_seq k _ _ (fun _ => True)); [apply keeps_look|]. intros c _.
  apply (keeps_seq k _ _ (fun _ => True)); [apply keeps_contents|]. intros Y _.
  apply (keeps_seq k _ _ (fun _ => True)); [apply keeps_eval|]. intros R _.
  apply (keeps_seq k _ _ (fun _ => True)); [now apply keeps_assign|]. intros _ _.
  apply (keeps_seq k _ _ (fun _ => True)); [now apply callbacks_keep|]. intros _ _. apply IH.
Qed.
Lemma slice_keeps k src p x : guarded K pmem hk p -> keeps k (slice_mem K pmem hk src p x) (fun a => k <= base a).
Proof.
  pose proof Hc as (_ & C2 & C3 & C4 & C5 & C6). intros [Hi Hg]. unfold slice_mem. destruct (negb (t_fit p)); [apply keeps_fail|].
  assert (Rest : forall y, keeps k (seqm (contents y) (fun Y => seqm (eval (parts_nfeatures K p)) (fun nf =>
     seqm (new_array (block2 (repeat (repeat nzero nf) (length Y)))) (fun feats =>
     seqm (iterate_mem K src (itsum_mem K hk src (t_s p) (t_e p) feats) (t_i p) true y (0, 0)) (fun _ =>
     seqm (call (on_sieving_end hk) feats) (fun _ => ret feats)))))) (fun a => k <= base a)).
  { intros y. apply (keeps_seq k _ _ (fun _ => True)); [apply keeps_contents|]. intros Y _.
    apply (keeps_seq k _ _ (fun _ => True)); [apply keeps_eval|]. intros nf _.
    apply (keeps_seq k _ _ (fun a => k <= base a)); [apply keeps_new|]. intros feats Hf.
    apply (keeps_seq k _ _ (fun _ => True)).
    - apply iterate_keeps; [|now left]. intros [i n] a Ha. unfold itsum_mem.
      apply (keeps_seq k _ _ (fun _ => True)); [now apply callbacks_keep|]. intros _ _.
      apply (keeps_seq k _ _ (fun _ => True)); [apply keeps_eval|]. intros l _.
      apply (keeps_seq k _ _ (fun _ => True)); [now apply sieves_keep|]. intros n' _. now apply keeps_ret.
    - intros _ _. apply (keeps_seq k _ _ (fun _ => True)); [now apply callbacks_keep|]. intros _ _. now apply keeps_ret. }
  destruct (t_p p) as [|q r].
  - cbn [preps_mem]. apply (keeps_seq k _ _ (fun _ => True)); [now apply keeps_ret|]. intros y _. rewrite Hg.
    apply (keeps_seq k _ _ (fun _ => True)); [now apply keeps_ret|]. intros _ _. apply Rest.
  - destruct Hg as [Hq Hr]. cbn [preps_mem]. apply (keeps_seq k _ _ (fun a => k <= base a)).
    + apply (keeps_seq k _ _ (fun a => k <= base a)); [apply Hq|]. intros y Hy.
      apply (keeps_seq k _ _ (fun _ => True)); [now apply callbacks_keep|]. intros _ _. now apply preps_keep.
    + intros y Hy. apply (keeps_seq k _ _ (fun _ => True)); [now apply callbacks_keep|]. intros _ _. apply Rest.
Qed.
Lemma slices_keep k src x result : k <= base result -> forall ps index, Forall (guarded K pmem hk) ps ->
  keeps k (slices_mem K pmem hk src ps x result index) (fun _ => True).
Proof.
  pose proof Hc as (C1 & _). intros Hr. induction ps as [|p ps IH]; intros index F; cbn [slices_mem]; [now apply keeps_ret|].
  apply (keeps_seq k _ _ (fun _ => True)).
  { clear - C1. induction C1 as [|cb l Hcb C1 IH]; cbn [for_each]; [now apply keeps_ret|].
    apply (keeps_seq k _ _ (fun _ => True)); [apply Hcb|]. intros _ _. exact IH. }
  intros _ _. apply (keeps_seq k _ _ (fun _ => True)); [apply keeps_eval|]. intros n _.
  apply (keeps_seq k _ _ (fun a => k <= base a)); [apply slice_keeps; exact (Forall_inv F)|]. intros f Hf.
  apply (keeps_seq k _ _ (fun _ => True)); [apply keeps_contents|]. intros Fv _.
  apply (keeps_seq k _ _ (fun _ => True)); [now apply keeps_assign|]. intros _ _. apply IH. exact (Forall_inv_tail F).
Qed.
Lemma keeps_unchanged {A} (c : mem (T := T) A) m Q : keeps (length m) c Q -> leaves_unchanged c m.
Proof.
  intros Kp. unfold leaves_unchanged. specialize (Kp m (le_n _)). destruct (c m) as [r m']. cbn [snd]. rewrite (proj1 (proj2 Kp)). apply firstn_all.
Qed.
Lemma isolated_slice p src x m : guarded K pmem hk p -> leaves_unchanged (slice_mem K pmem hk src p x) m.
Proof. intros G. eapply keeps_unchanged. now apply slice_keeps. Qed.
Lemma isolated_fruit ps x m : Forall (guarded K pmem hk) ps -> leaves_unchanged (fruit_mem K pmem hk ps x) m.
Proof.
  intros F. apply (keeps_unchanged _ _ (fun _ => True)). unfold fruit_mem. set (k := length m).
  apply (keeps_seq k _ _ (fun _ => True)); [apply keeps_contents|]. intros X _.
  apply (keeps_seq k _ _ (fun _ => True)); [apply keeps_eval|]. intros ns _.
  apply (keeps_seq k _ _ (fun a => k <= base a)); [apply keeps_new|]. intros result Hr.
  apply (keeps_seq k _ _ (fun _ => True)); [now apply slices_keep|]. intros _ _.
  apply (keeps_seq k _ _ (fun _ => True)); [now apply keeps_assign|]. intros _ _. now apply keeps_ret.
Qed.
End Keep.
Theorem C93_caller_isolated : forall pmem hk ps x m, all_confined hk -> Forall (guarded K pmem hk) ps ->
  leaves_unchanged (fruit_mem K pmem hk ps x) m.
Proof. intros pmem hk ps x m Hc F. now apply isolated_fruit. Qed.
(** In particular a slice cannot change the features of the slices before it. *)
Theorem C93_slice_isolated : forall pmem hk p src x m, all_confined hk -> guarded K pmem hk p ->
  leaves_unchanged (slice_mem K pmem hk src p x) m.
Proof. intros pmem hk p src x m Hc G. now apply isolated_slice. Qed.
(** The hypotheses of C92 about objects are those of every state of the
    interpreter that a program can reach: the slices of a fruit consist of
    objects, and fitted slices have an ISS. *)
Theorem C92_reachable : forall (W : lawful K) h f fr, reachable K h -> nth_error (h_fr K h) f = Some fr ->
  exists ps, Forall2 (consists K h) (f_slices fr) ps /\ Forall (fun p => t_fit p = true -> t_i p <> []) ps.
Proof.
  intros W h f fr Hr Ef. pose proof (reachable_wf K W h Hr) as Hw. pose proof (proj1 (proj2 Hw f fr Ef)) as Hs. revert Hs.
  induction (f_slices fr) as [|sl sls IH]; intros Hs; [exists []; split; constructor|].
  destruct IH as (ps & F1 & F2); [intros sl' Hin; apply Hs; now right|].
  destruct (nth_error (h_sl K h) sl) as [s|] eqn:Es; [|apply nth_error_None in Es; specialize (Hs sl (or_introl eq_refl)); lia].
  destruct (sees_exists K W h sl s Hw Es) as (v & _ & E1 & E2 & E3 & E4 & E5).
  exists ({| t_fit := v_fit K v; t_p := v_p K v; t_i := v_i K v; t_s := v_s K v; t_e := v_e K v |} :: ps).
  split; constructor; try assumption; [exists s; cbn; auto 10|]. cbn. rewrite E5. intros Ht. destruct (proj1 Hw sl s Es) as (_ & _ & Hi).
  destruct (Hi Ht) as (Hne & _). intros Q. apply Hne. destruct E2; [reflexivity|discriminate].
Qed.
End C92.

(** The seeds of the library. *)
Section Library.
Context {T : Type} `{N : Num T}.
Variable W : oracles T.
Variable parse : pystr -> res T.
Variable powf : T -> T -> T.
Variable qf : T -> list T -> T.
Variable eps5 : T.
Variable order : list T -> list T.
Variable show_prep : prep T -> pystr.
Variable show_cut : cut_arg -> pystr.
Variable show_q : q_arg -> pystr.
Variable show_num : T -> pystr.
Variable show_ppv : ppv_cfg T -> pystr.
Variable ufun : (dataset T -> res (dataset T)) -> arr -> mem (T := T) arr.
Notation lib := (library W parse powf qf eps5 order show_prep show_cut show_q show_num show_ppv).
Definition lib_mem (s : source (T := T)) (p : prepT lib) (x : arr) : mem (T := T) arr := prep_mem parse powf ufun (Some s) p x.
Lemma library_pure : reads_only ufun -> pure_preparateurs lib lib_mem.
Proof.
  intros Hr a p x m n d l Va Vx B. unfold lib_mem. cbn [library p_transform p_attach].
  assert (E : pr_cache (pr_set_cache p (Some (load m a))) = Some (load m a)) by (destruct p; reflexivity).
  assert (Hs : src_ok m (Some (CRef a)) (pr_set_cache p (Some (load m a))) (load m x)).
  { cbn. rewrite E. split; [exact Va|reflexivity]. }
  pose proof (proj1 (prep_computes parse powf ufun (pr_set_cache p (Some (load m a))) (Some (CRef a)) x (load m x) m n d l Hr Vx eq_refl B Hs)) as C.
  rewrite set_cache_mem in C. exact C.
Qed.
(** [Fruit.transform] with the preparateurs, ISS and sieves of the library (user
    functions that only read, callbacks that only observe): the caller's data
    and everything else is left as it was, the result is a new array with the
    features of the model. *)
Theorem C92_library : forall hk h f fr ps x m cbs,
  reads_only ufun -> all_observe hk -> valid m x ->
  nth_error (h_fr lib h) f = Some fr -> f_fitted fr = true -> Forall2 (consists lib h) (f_slices fr) ps ->
  Forall (fun p => (t_fit p = true -> t_i p <> []) /\ all_boxes lib (load m x) (t_p p) (load m x)) ps ->
  computes (fruit_mem lib lib_mem hk ps x) m (mapr block2 (fst (fruit_transform lib f (load m x) cbs None h))) /\
  returns_new_array (fruit_mem lib lib_mem hk ps x) m.
Proof.
  intros hk h f fr ps x m cbs Hr. apply (C92_transform lib (library_lawful W parse powf qf eps5 order show_prep show_cut show_q show_num show_ppv)).
  now apply library_pure.
Qed.
(** With user functions and callbacks that write at most to the arrays they are
    given: if the first preparateur of every slice allocates and is no FUN (or
    NEW(FUN)), nothing of this reaches the caller's data. *)
Theorem C93_library : forall hk ps x m, confined ufun -> all_confined hk ->
  Forall (fun p => t_i p <> [] /\ match t_p p with [] => on_preparation_end hk = []
                                  | q :: _ => allocates q = true /\ no_user_code q = true end) ps ->
  leaves_unchanged (fruit_mem lib lib_mem hk ps x) m.
Proof.
  intros hk ps x m Hu Hc F. apply (C93_caller_isolated lib lib_mem hk ps x m Hc).
  assert (G : forall L : list (prep T), match L with [] => on_preparation_end hk = [] | q :: _ => allocates q = true /\ no_user_code q = true end ->
    match L with [] => on_preparation_end hk = [] | q :: r => isolating lib lib_mem q /\ Forall (confining lib lib_mem) r end).
  { intros [|q r] Hq; [exact Hq|]. destruct Hq as [Ha Hn]. split.
    - intros src y k. unfold lib_mem. apply (keeps_weak k _ (fun a => k <= base a \/ (a = y /\ allocates q = false))); [intros a [Hb|[_ Hb]]; [exact Hb|congruence]|].
      apply prep_keeps; auto.
    - apply Forall_forall. intros q' _ src y k Hk. unfold lib_mem.
      apply (keeps_weak k _ (fun a => k <= base a \/ (a = y /\ allocates q' = false))); [intros a [Hb|[-> _]]; auto|]. apply prep_keeps; auto. }
  revert F. apply Forall_impl. intros p [Hi Hq]. exact (conj Hi (G _ Hq)).
Qed.
End Library.

(** A witness: one ISS that returns the first dimension, and the sieve END. *)
From Coq Require Import Reals Lra.
Section W.
Local Open Scope R_scope.
Let toy : kit R := {|
  rng := unit; k_randint := fun g _ => (0%nat, g); k_choice := fun g _ _ => ([], g); prepT := unit; issT := unit; sieveT := unit;
  p_attach := fun _ p => p; i_attach := fun _ i => i; s_attach := fun _ s => s;
  p_fit := fun g _ p => (Ok tt, p, g); i_fit := fun g _ i => (Ok tt, i, g); s_fit := fun g _ s => (Ok tt, s, g);
  i_requires := fun _ => false; s_requires := fun _ => false;
  p_transform := fun X p => (Ok (map (map (map (fun v => v + v))) X), p);
  s_transform := fun Y s => (Ok (map (fun r => [last r 0]) Y), s);
  i_batches := fun _ X => [Ok [map (hd []) X]];
  p_copy := Ok; i_copy := Ok; s_copy := Ok; i_n := fun _ => Ok 1%nat; s_nf := fun _ => 1%nat;
  p_label := fun _ => []; i_label := fun _ _ => Ok []; s_label := fun _ _ => Ok [] |}.
Let toy_mem (_ : source (T := R)) (p : prepT toy) (x : arr) : mem (T := R) arr :=
  seqm (contents x) (fun X => new_array (map (map (map (fun v => v + v))) X)).
Let toy_lawful : lawful toy.
Proof.
  refine {| eqP := eq; eqI := eq; eqS := eq |}; try exact eq_equivalence; intros; cbn; try reflexivity;
    repeat match goal with u : unit |- _ => destruct u | u : prepT toy |- _ => destruct u | u : issT toy |- _ => destruct u | u : sieveT toy |- _ => destruct u end; reflexivity.
Qed.
Let quiet : hooks R := {| on_next_slice := []; on_preparateur := []; on_preparation_end := []; on_iterated_sum := []; on_sieve := []; on_sieving_end := [] |}.
Let clear_cb (x : arr) : mem (T := R) unit := assign x (fun X => Ok (zeros_like X)).
Let noisy : hooks R := {| on_next_slice := []; on_preparateur := []; on_preparation_end := []; on_iterated_sum := []; on_sieve := [clear_cb]; on_sieving_end := [] |}.
Let two : memory (T := R) := [[[[1; 2]]; [[3; 5]]]].
Let all2 : arr := {| base := 0; rows := [0%nat; 1%nat] |}.
Let part (pre : list unit) (svs : list unit) : parts (prepT toy) (issT toy) (sieveT toy) := {| t_fit := true; t_p := pre; t_i := [tt]; t_s := svs; t_e := [] |}.

(** [on_sieve] is not given the features of the sieve that was just used (its
    columns, for all series): it gets the ROWS with the numbers of these columns.
    Clearing what it gets, the first sieve's feature of the second series stays,
    and after the second sieve the first series' feature is left. *)
Theorem C93_on_sieve_refuted :
  (exists a m', slice_mem toy toy_mem quiet (CRef all2) (part [] [tt; tt]) all2 two = (Ok a, m') /\ load m' a = [[[2; 2]]; [[5; 5]]]) /\
  (exists a m', slice_mem toy toy_mem noisy (CRef all2) (part [] [tt]) all2 two = (Ok a, m') /\ load m' a = [[[0]]; [[5]]]) /\
  (exists a m', slice_mem toy toy_mem noisy (CRef all2) (part [] [tt; tt]) all2 two = (Ok a, m') /\ load m' a = [[[0; 2]]; [[0; 0]]]).
Proof. repeat split; eexists; eexists; (split; reflexivity). Qed.

Let toy_history : exists h, reachable toy h /\
  nth_error (h_fr toy h) 0 = Some {| f_name := []; f_slices := [0; 1]%nat; f_idx := 1; f_fitted := true |} /\
  nth_error (h_sl toy h) 0 = Some {| sl_p := []; sl_i := [0%nat]; sl_s := [0%nat]; sl_ext := []; sl_fitted := true; sl_sample := SOne |} /\
  nth_error (h_sl toy h) 1 = Some {| sl_p := [0%nat]; sl_i := [1%nat]; sl_s := [1; 2]%nat; sl_ext := []; sl_fitted := true; sl_sample := SOne |} /\
  h_p toy h = [tt] /\ h_i toy h = [tt; tt] /\ h_s toy h = [tt; tt; tt].
Proof.
  exists (run toy (heap0 toy tt) [ONewFruit toy []; FAdd toy 0 [ClsI toy (Ok tt); ClsS toy (Ok tt)]; FCut toy 0 None;
     FAdd toy 0 [ClsP toy (Ok tt); ClsI toy (Ok tt); ClsS toy (Ok tt); ClsS toy (Ok tt)]; FFit toy 0 [[[1; 2]]; [[3; 5]]] None]).
  split; [eexists; eexists; reflexivity|]. repeat split.
Qed.
Example C92_hypotheses : pure_preparateurs toy toy_mem /\ all_observe quiet /\ all_confined noisy /\ valid two all2 /\
  Forall (fun p => (t_fit p = true -> t_i p <> []) /\ all_boxes toy (load two all2) (t_p p) (load two all2)) [part [] [tt]; part [tt; tt] [tt; tt]] /\
  Forall (guarded toy toy_mem noisy) [part [] [tt]; part [tt; tt] [tt; tt]] /\
  (exists h fr, reachable toy h /\ nth_error (h_fr toy h) 0 = Some fr /\ f_fitted fr = true /\
     Forall2 (consists toy h) (f_slices fr) [part [] [tt]; part [tt] [tt; tt]]) /\
  (let run := fruit_mem toy toy_mem noisy [part [] [tt]; part [tt] [tt; tt]] all2 two in
   fst run = Ok {| base := 1; rows := [0%nat; 1%nat] |} /\ firstn 1 (snd run) = two /\ nth 1 (snd run) [] = [[[0; 0; 2 + 2]]; [[5; 0; 0]]]).
Proof.
  split.
  { intros a p x m n d l Va Vx B. refine (proj1 (makes_computes m (toy_mem (CRef a) p x) _ _)). unfold toy_mem.
    apply (makes_contents _ _ _ _ _ _ eq_refl). apply makes_new, untouched_refl. }
  split; [repeat split; constructor|].
  split; [repeat split; try constructor; [|constructor]; intros a k Hk; now apply keeps_assign|].
  split; [split; [cbn; lia|split; [repeat constructor; cbn; intuition discriminate|repeat constructor]]|].
  assert (Bx : forall a b c d : R, exists n k l, box [[[a; b]]; [[c; d]]] n k l) by (intros; exists 2%nat, 1%nat, 2%nat; split; [reflexivity|repeat constructor]).
  split.
  { constructor; [|constructor; [|constructor]]; (split; [discriminate|]).
    - split; [apply Bx|exact Logic.I].
    - split; [apply Bx|]. intros Y1 E1. injection E1 as <-. split; [apply Bx|]. intros Y2 E2. injection E2 as <-. split; [apply Bx|exact Logic.I]. }
  split.
  { assert (Ci : isolating toy toy_mem tt).
    { intros src x k. unfold toy_mem. apply (keeps_seq k _ _ (fun _ => True)); [apply keeps_contents|]. intros X _. apply keeps_new. }
    assert (Cc : confining toy toy_mem tt) by (intros src x k _; apply Ci).
    constructor; [|constructor; [|constructor]]; (split; [discriminate|]); cbn; [reflexivity|].
    split; [exact Ci|]. constructor; [exact Cc|constructor]. }
  split.
  { destruct toy_history as (h & R & E1 & E2 & E3 & E4 & E5 & E6). eexists h, _. split; [exact R|]. split; [exact E1|]. split; [reflexivity|].
    assert (F0 : forall {A B} (P : A -> B -> Prop), Forall2 P [] []) by constructor. cbn [f_slices].
    apply Forall2_cons; [|apply Forall2_cons; [|apply F0]].
    - eexists. split; [exact E2|]. cbn. rewrite E4, E5, E6. repeat (split; [reflexivity || (repeat (apply Forall2_cons; [reflexivity|]); apply F0)|]). apply F0.
    - eexists. split; [exact E3|]. cbn. rewrite E4, E5, E6. repeat (split; [reflexivity || (repeat (apply Forall2_cons; [reflexivity|]); apply F0)|]). apply F0. }
  cbv zeta. split; [vm_compute; reflexivity|]. split; vm_compute; reflexivity.
Qed.
End W.
Print Assumptions C92_transform.
Print Assumptions C92_reachable.
Print Assumptions C92_library.
Print Assumptions C93_caller_isolated.
Print Assumptions C93_slice_isolated.
Print Assumptions C93_library.
Print Assumptions C93_on_iterated_sum.
Print Assumptions C93_on_sieving_end.
Print Assumptions C93_on_sieve_refuted.
