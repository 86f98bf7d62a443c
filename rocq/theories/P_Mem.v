(** C89, C90: what the preparation stage does to arrays in memory. *)
From Coq Require Import Ascii String List Arith ZArith Bool Lia.
From Verif Require Import Num Arr M_Str M_Np M_Prep M_Cache M_PrepObj M_Mem S_Mem L_Arr L_Np L_Mem L_Mem2 L_Mem3 L_Mem4.
Import ListNotations.

Section C89.
Context {T : Type} `{N : Num T}.
Notation memory := (memory (T := T)).
Variable parse : pystr -> res T.
Variable powf : T -> T -> T.
Variable ufun : (dataset T -> res (dataset T)) -> arr -> mem (T := T) arr.

(** [transform] of any preparateur, called with an array [x]: its statements,
    executed in memory, give what the function says (M_PrepObj), change no array
    that existed, and return a new array (unless the preparateur is a FUN, whose
    function may return its argument, or INC(depth=0)). *)
Theorem C89_transform : forall p x m n d l,
  reads_only ufun -> valid m x -> box (load m x) n d l ->
  computes (prep_mem parse powf ufun None p x) m (fst (pr_transform parse powf p (load m x))) /\
  (allocates p = true -> returns_new_array (prep_mem parse powf ufun None p x) m).
Proof. intros p x m n d l R Vx B. exact (prep_computes parse powf ufun p None x (load m x) m n d l R Vx eq_refl B Logic.I). Qed.

Lemma set_cache_mem s p ca x : prep_mem parse powf ufun (Some s) (pr_set_cache p ca) x = prep_mem parse powf ufun (Some s) p x.
Proof. destruct p; reflexivity. Qed.
Lemma for_each_observes cbs y : Forall observes cbs -> forall m : memory, exists m', for_each cbs (fun cb => cb y) m = (Ok tt, m') /\ untouched m m'.
Proof.
  induction cbs as [|cb cbs IH]; intros Hc m; [exists m; split; [reflexivity|apply untouched_refl]|].
  cbn [for_each]. unfold seqm. pose proof (Forall_inv Hc y m) as [E U]. destruct (cb y m) as [r m1]. cbn [fst snd] in *. subst r.
  destruct (IH (Forall_inv_tail Hc) m1) as (m2 & E2 & U2). exists m2. split; [exact E2|]. exact (untouched_trans _ _ _ U U2).
Qed.
Lemma prepare_computes on_prep src I m0 : reads_only ufun -> Forall observes on_prep -> L_Mem4.sees m0 src I ->
  forall ps x m, untouched m0 m -> valid m x -> rectangular parse powf I ps (load m x) ->
  computes (prepare_mem parse powf ufun on_prep src ps x) m (prepared parse powf I ps (load m x)).
Proof.
  intros R Hc Hs ps. induction ps as [|p ps IH]; intros x m U Vx Rect.
  - cbn. unfold computes, ret. split; [apply untouched_refl|]. auto.
  - cbn [prepare_mem prepared rectangular] in *. destruct Rect as ((n & d & l & B) & Rect).
    assert (Hs' : src_ok m (Some src) (pr_set_cache p (Some I)) (load m x)).
    { cbn. destruct src as [a|Q]; cbn in *.
      - destruct Hs as [V L]. assert (E : pr_cache (pr_set_cache p (Some I)) = Some I) by (destruct p; reflexivity). rewrite E.
        split; [exact (untouched_valid _ _ _ U V)|]. now rewrite (untouched_load _ _ _ U V).
      - assert (E : pr_cache (pr_set_cache p (Some I)) = Some I) by (destruct p; reflexivity). now rewrite E. }
    destruct (prep_computes parse powf ufun (pr_set_cache p (Some I)) (Some src) x (load m x) m n d l R Vx eq_refl B Hs') as [C _].
    rewrite set_cache_mem in C. unfold computes in *. unfold seqm at 1. destruct (prep_mem parse powf ufun (Some src) p x m) as [[y|e] m1].
    + destruct C as [U1 C]. destruct (fst (pr_transform parse powf (pr_set_cache p (Some I)) (load m x))) as [Y|e]; [|contradiction]. destruct C as [Vy Ly].
      cbn [bind]. unfold seqm. destruct (for_each_observes on_prep y Hc m1) as (m2 & E2 & U2). rewrite E2.
      assert (Ly2 : load m2 y = Y) by (rewrite <- Ly; now apply untouched_load).
      assert (U02 : untouched m m2) by exact (untouched_trans _ _ _ U1 U2).
      pose proof (IH y m2 (untouched_trans _ _ _ U U02) (untouched_valid _ _ _ U2 Vy)) as IH'. rewrite Ly2 in IH'. specialize (IH' (Rect Y eq_refl)).
      destruct (prepare_mem parse powf ufun on_prep src ps y m2) as [r m3]. destruct IH' as [U3 IH']. split; [exact (untouched_trans _ _ _ U02 U3)|exact IH'].
    + destruct C as [U1 C]. destruct (fst (pr_transform parse powf (pr_set_cache p (Some I)) (load m x))) as [Y|e']; [contradiction|]. cbn [bind]. auto.
Qed.
(** The preparation stage of [FruitSlice.transform] with user functions that do
    not write and callbacks that only observe: the caller's array and everything
    else in memory is left as it was, and the prepared data is what the
    preparateurs compute, one after the other. *)
Theorem C89_preparation : forall ps on_preparateur on_preparation_end x m,
  reads_only ufun -> Forall observes on_preparateur -> Forall observes on_preparation_end ->
  valid m x -> rectangular parse powf (load m x) ps (load m x) ->
  computes (preparation parse powf ufun on_preparateur on_preparation_end ps x) m (prepared parse powf (load m x) ps (load m x)).
Proof.
  intros ps cp ce x m R Hp He Vx Rect. unfold preparation.
  pose proof (prepare_computes cp (CRef x) (load m x) m R Hp (conj Vx eq_refl) ps x m (untouched_refl m) Vx Rect) as C.
  unfold computes in *. unfold seqm at 1. destruct (prepare_mem parse powf ufun cp (CRef x) ps x m) as [[y|e] m1]; [|exact C].
  destruct C as [U C]. destruct (prepared parse powf (load m x) ps (load m x)) as [Y|]; [|contradiction]. destruct C as [V L].
  unfold seqm. destruct (for_each_observes ce y He m1) as (m2 & E2 & U2). rewrite E2. unfold ret.
  split; [exact (untouched_trans _ _ _ U U2)|]. split; [exact (untouched_valid _ _ _ U2 V)|]. rewrite <- L. now apply untouched_load.
Qed.

Lemma load_view (m : memory) x ind : ind < length (rows x) -> load m (view_sample ind x) = [nth ind (load m x) []].
Proof.
  intros Hi. unfold load, view_sample. cbn [rows base map]. f_equal.
  rewrite (nth_indep (map (fun i => nth i (nth (base x) m []) []) (rows x)) [] (nth 0 (nth (base x) m []) [])) by now rewrite map_length.
  now rewrite (map_nth (fun i => nth i (nth (base x) m []) [])).
Qed.
Lemma valid_view (m : memory) x ind : valid m x -> ind < length (rows x) -> valid m (view_sample ind x).
Proof.
  intros (Hb & _ & Hr) Hi. split; [exact Hb|]. cbn [rows view_sample base]. split; [repeat constructor; cbn; tauto|].
  constructor; [|constructor]. rewrite Forall_forall in Hr. apply Hr. now apply nth_In.
Qed.
(** The same in [fit], whether the fit sample is a view of one series of the
    caller's array or a copy of several: nothing is written to the caller's
    array, and the preparateurs see the selected series and the cache of all
    data. *)
Theorem C89_fit : forall ps x m,
  reads_only ufun -> valid m x ->
  (forall ind, ind < length (load m x) -> rectangular parse powf (load m x) ps [nth ind (load m x) []] ->
     computes (fit_one parse powf ufun ind ps x) m (prepared parse powf (load m x) ps [nth ind (load m x) []])) /\
  (forall inds, rectangular parse powf (load m x) ps (map (fun i => nth i (load m x) []) inds) ->
     computes (fit_many parse powf ufun inds ps x) m (prepared parse powf (load m x) ps (map (fun i => nth i (load m x) []) inds))).
Proof.
  intros ps x m R Vx. split.
  - intros ind Hi Rect. assert (Hi' : ind < length (rows x)) by (unfold load in Hi; now rewrite map_length in Hi).
    unfold fit_one. rewrite <- (load_view m x ind Hi') in *.
    exact (prepare_computes [] (CRef x) (load m x) m R (Forall_nil _) (conj Vx eq_refl) ps _ m (untouched_refl m) (valid_view m x ind Vx Hi') Rect).
  - intros inds Rect. unfold fit_many, copy_sample. set (S := map (fun i => nth i (load m x) []) inds) in *.
    destruct (owns_new m m S (untouched_refl m)) as (z & m1 & E & O & U).
    assert (E1 : seqm (seqm (contents x) (fun X => new_array (map (fun i => nth i X []) inds))) (fun z => prepare_mem parse powf ufun [] (CRef x) ps z) m =
                 prepare_mem parse powf ufun [] (CRef x) ps z m1).
    { rewrite seqm_assoc. unfold seqm at 1, contents. unfold seqm. fold S. now rewrite E. }
    unfold computes. rewrite E1. pose proof (owns_load _ _ _ _ O) as Lz. rewrite <- Lz in Rect.
    pose proof (prepare_computes [] (CRef x) (load m x) m R (Forall_nil _) (conj Vx eq_refl) ps z m1 U (owns_valid _ _ _ _ O) Rect) as C.
    unfold computes in C. rewrite Lz in C. destruct (prepare_mem parse powf ufun [] (CRef x) ps z m1) as [r m2]. destruct C as [U2 C].
    split; [exact (untouched_trans _ _ _ U U2)|exact C].
Qed.

(** ** C90: functions and callbacks that write to the array they are given *)
Lemma keeps_ret {A} k (a : A) (Q : A -> Prop) : Q a -> keeps (T := T) k (ret a) Q.
Proof. intros HQ m Hm. cbn. auto. Qed.
Lemma keeps_fail {A} k e (Q : A -> Prop) : keeps (T := T) k (fail e) Q.
Proof. intros m Hm. cbn. auto. Qed.
Lemma keeps_eval {A} k (r : res A) : keeps (T := T) k (eval r) (fun _ => True).
Proof. intros m Hm. cbn. destruct r; auto. Qed.
Lemma keeps_contents k a : keeps (T := T) k (contents a) (fun _ => True).
Proof. intros m Hm. cbn. auto. Qed.
Lemma keeps_look k s : keeps (T := T) k (look s) (fun _ => True).
Proof. destruct s; [apply keeps_contents|now apply keeps_ret]. Qed.
Lemma keeps_new k Y : keeps (T := T) k (new_array Y) (fun a => k <= base a).
Proof.
  intros m Hm. cbn. rewrite app_length. split; [lia|]. split; [|exact Hm]. rewrite firstn_app. replace (k - length m) with 0 by lia. cbn. now rewrite app_nil_r.
Qed.
Lemma firstn_upd {A} k i (v : A) l : k <= i -> firstn k (upd i v l) = firstn k l.
Proof. revert i l. induction k as [|k IH]; intros i l Hi; [reflexivity|]. destruct l as [|x l]; destruct i as [|i]; try lia; [reflexivity|]. cbn. now rewrite IH by lia. Qed.
Lemma keeps_assign k a f : k <= base a -> keeps (T := T) k (assign a f) (fun _ => True).
Proof.
  intros Ha m Hm. unfold assign. destruct (f (load m a)); [|auto]. unfold put. rewrite upd_length. split; [exact Hm|]. split; [|exact Logic.I].
  now apply firstn_upd.
Qed.
Lemma keeps_seq {A B} k (c : mem A) (f : A -> mem B) P Q : keeps (T := T) k c P -> (forall a, P a -> keeps k (f a) Q) -> keeps k (seqm c f) Q.
Proof.
  intros Hc Hf m Hm. unfold seqm. specialize (Hc m Hm). destruct (c m) as [[a|e] m1]; [|tauto]. destruct Hc as (H1 & H2 & H3).
  specialize (Hf a H3 m1 H1). destruct (f a m1) as [r m2]. destruct Hf as (G1 & G2 & G3). split; [exact G1|]. split; [congruence|exact G3].
Qed.
Lemma keeps_weak {A} k (c : mem A) (P Q : A -> Prop) : (forall a, P a -> Q a) -> keeps (T := T) k c P -> keeps k c Q.
Proof. intros HPQ Hc m Hm. specialize (Hc m Hm). destruct (c m) as [[a|e] m1]; intuition. Qed.
Lemma keeps_for {A} k (l : list A) (b : A -> mem unit) : (forall x, keeps (T := T) k (b x) (fun _ => True)) -> keeps k (for_each l b) (fun _ => True).
Proof. intros Hb. induction l as [|x l IH]; cbn [for_each]; [now apply keeps_ret|]. apply (keeps_seq k _ _ (fun _ => True)); auto. Qed.
Ltac kp := repeat first
  [ apply keeps_fail | apply keeps_ret; solve [auto]
  | apply (keeps_seq _ (contents _) _ (fun _ => True)); [apply keeps_contents|intros ? _]
  | apply (keeps_seq _ (look _) _ (fun _ => True)); [apply keeps_look|intros ? _]
  | apply (keeps_seq _ (eval _) _ (fun _ => True)); [apply keeps_eval|intros ? _]
  | apply (keeps_seq _ (assign _ _) _ (fun _ => True)); [apply keeps_assign; solve [auto]|intros ? _]
  | match goal with |- keeps ?k (seqm (new_array _) _) _ => apply (keeps_seq k _ _ (fun a => k <= base a)); [apply keeps_new|intros ? ?] end
  | apply keeps_new | apply keeps_assign; solve [auto] ].
Lemma inc_keeps k c z x : forall n out, (1 <= n \/ k <= base out \/ out = x) ->
  keeps k (inc_mem c z x n out) (fun a => k <= base a \/ (n = 0 /\ a = out)).
Proof.
  induction n as [|n IH]; intros out Hn; cbn [inc_mem].
  - apply keeps_ret. auto.
  - do 2 (apply (keeps_seq k _ _ (fun _ => True)); [apply keeps_contents || apply keeps_eval|intros ? _]).
    apply (keeps_seq k _ _ (fun a => k <= base a)); [apply keeps_new|intros o Ho]. apply (keeps_seq k _ _ (fun _ => True)).
    + destruct (inc_zp c); [now apply keeps_ret|]. destruct (inc_shift c); [|apply keeps_fail]. kp.
    + intros _ _. apply (keeps_weak k _ (fun b => k <= base b \/ n = 0 /\ b = o)); [|apply IH; auto].
      intros b [Hb|[_ ->]]; auto.
Qed.
Lemma leaf_keeps k s f x : confined ufun -> (k <= base x \/ no_user_code (PLeaf f None) = true) ->
  keeps k (leaf_mem parse powf ufun s f x) (fun a => k <= base a \/ (a = x /\ allocates (PLeaf f None) = false)).
Proof.
  intros Hu Hx.
  assert (Ex : forall g, keeps k (seqm (look s) (fun I => seqm (contents x) (fun X => seqm (eval (leaf_transform parse powf I g X)) (fun Y => new_array Y))))
      (fun a => k <= base a \/ (a = x /\ allocates (PLeaf f None) = false))).
  { intros g. kp. apply (keeps_weak k _ (fun a => k <= base a)); [auto|]. apply keeps_new. }
  assert (W : forall c, keeps k c (fun a => k <= base a) -> keeps k c (fun a => k <= base a \/ (a = x /\ allocates (PLeaf f None) = false)))
    by (intros c; apply keeps_weak; auto).
  destruct f; try exact (Ex _); cbn [leaf_mem].
  - kp. destruct (inc_depth c) as [|n] eqn:Ed.
    + cbn [inc_mem]. apply keeps_ret. right. split; [reflexivity|]. unfold allocates. now rewrite Ed.
    + apply (keeps_weak k _ (fun a => k <= base a \/ (S n = 0 /\ a = x))); [|apply inc_keeps; left; lia]. intros b [Hb|[Hb _]]; [auto|lia].
  - apply W. unfold nrm_mem. kp. destruct scale_dim; kp.
  - apply W. unfold lag_mem. kp. destruct (_ =? _); kp. apply (keeps_seq k _ _ (fun _ => True)); [apply keeps_for; intros i; kp|intros _ _]. now apply keeps_ret.
  - apply W. unfold cts_mem. kp. apply (keeps_seq k _ _ (fun _ => True)); [|intros _ _; now apply keeps_ret]. destruct pseudo; kp.
  - destruct Hx as [Hx|Hx]; [|discriminate]. apply W. now apply Hu.
  - apply W. destruct st; [|apply keeps_fail]. unfold strips_mem. kp. apply (keeps_seq k _ _ (fun _ => True)); [apply keeps_for; intros; kp|intros _ _; now apply keeps_ret].
  - apply W. kp. match goal with |- keeps _ (match ?v with _ => _ end) _ => destruct v end; kp.
    match goal with |- keeps _ (match ?v with _ => _ end) _ => destruct v end; kp.
    match goal with |- keeps _ (if ?v then _ else _) _ => destruct v end; kp. unfold win_mem. kp.
    apply (keeps_seq k _ _ (fun _ => True)); [apply keeps_for; intros i; apply keeps_for; intros j; kp|intros _ _; now apply keeps_ret].
  - apply W. destruct st as [[? ?]|]; [|apply keeps_fail]. unfold dot_mem. kp.
  - apply W. destruct st; [|apply keeps_fail]. unfold strips_mem. kp. apply (keeps_seq k _ _ (fun _ => True)); [apply keeps_for; intros; kp|intros _ _; now apply keeps_ret].
Qed.

Lemma prep_keeps k p : forall inp x, confined ufun -> (k <= base x \/ no_user_code p = true) ->
  keeps k (prep_mem parse powf ufun inp p x) (fun a => k <= base a \/ (a = x /\ allocates p = false)).
Proof.
  induction p as [f ca|q IH ds ca|ca|q IH ca]; intros inp x Hu Hx; cbn [prep_mem].
  - apply leaf_keeps; [exact Hu|]. destruct Hx as [Hx|Hx]; [now left|right]. exact Hx.
  - do 2 (apply (keeps_seq k _ _ (fun _ => True)); [apply keeps_contents || apply keeps_eval|intros ? _]).
    apply (keeps_seq k _ _ (fun a => k <= base a)); [apply keeps_new|intros z Hz].
    apply (keeps_seq k _ _ (fun _ => True)); [|intros t _].
    { apply (keeps_weak k _ (fun a => k <= base a \/ (a = z /\ allocates q = false))); [auto|]. apply IH; [exact Hu|now left]. }
    kp. match goal with |- keeps _ (if ?v then _ else _) _ => destruct v end; [|apply keeps_fail].
    apply (keeps_weak k _ (fun a => k <= base a)); [auto|apply keeps_new].
  - apply (keeps_weak k _ (fun a => k <= base a)); [auto|]. kp.
  - apply (keeps_weak k _ (fun a => k <= base a)); [auto|].
    apply (keeps_seq k _ _ (fun _ => True)); [|intros t _].
    { apply (keeps_weak k _ (fun a => k <= base a \/ (a = x /\ allocates q = false))); [auto|]. apply IH; [exact Hu|]. destruct Hx as [Hx|Hx]; [now left|right]. exact Hx. }
    kp. apply (keeps_seq k _ _ (fun _ => True)); [|intros _ _; now apply keeps_ret].
    match goal with |- keeps _ (if ?v then _ else _) _ => destruct v end; [|apply keeps_fail]. kp.
Qed.
Lemma callbacks_keep k cbs y : Forall confined_callback cbs -> k <= base y -> keeps (T := T) k (for_each cbs (fun cb => cb y)) (fun _ => True).
Proof.
  intros Hc Hy. induction cbs as [|cb cbs IH]; cbn [for_each]; [now apply keeps_ret|].
  apply (keeps_seq k _ _ (fun _ => True)); [|intros _ _; exact (IH (Forall_inv_tail Hc))]. now apply (Forall_inv Hc).
Qed.
Lemma prepare_keeps k cbs src ps : forall y, confined ufun -> Forall confined_callback cbs -> k <= base y ->
  keeps k (prepare_mem parse powf ufun cbs src ps y) (fun a => k <= base a).
Proof.
  induction ps as [|p ps IH]; intros y Hu Hc Hy; cbn [prepare_mem]; [now apply keeps_ret|].
  apply (keeps_seq k _ _ (fun a => k <= base a)).
  - apply (keeps_weak k _ (fun a => k <= base a \/ (a = y /\ allocates p = false))); [intros a [Ha|[-> _]]; auto|]. apply prep_keeps; auto.
  - intros z Hz. apply (keeps_seq k _ _ (fun _ => True)); [now apply callbacks_keep|]. intros _ _. now apply IH.
Qed.
(** If the first preparateur allocates its result and passes its argument to no
    user function, then whatever the callbacks and the functions of the FUNs do
    to the arrays they get, and whether or not an exception is raised, the
    caller's array and everything else in memory keeps its contents. *)
Theorem C90_caller_isolated : forall p ps on_preparateur on_preparation_end x m,
  confined ufun -> Forall confined_callback on_preparateur -> Forall confined_callback on_preparation_end ->
  allocates p = true -> no_user_code p = true ->
  leaves_unchanged (preparation parse powf ufun on_preparateur on_preparation_end (p :: ps) x) m.
Proof.
  intros p ps cp ce x m Hu Hp He Ha Hn.
  assert (K : keeps (length m) (preparation parse powf ufun cp ce (p :: ps) x) (fun _ => True)).
  { unfold preparation. apply (keeps_seq _ _ _ (fun a => length m <= base a)).
    - cbn [prepare_mem]. apply (keeps_seq _ _ _ (fun a => length m <= base a)).
      + apply (keeps_weak _ _ (fun a => length m <= base a \/ (a = x /\ allocates p = false))); [intros a [Hb|[_ Hb]]; [exact Hb|congruence]|].
        apply prep_keeps; auto.
      + intros y Hy. apply (keeps_seq _ _ _ (fun _ => True)); [now apply callbacks_keep|]. intros _ _. now apply prepare_keeps.
    - intros y Hy. apply (keeps_seq _ _ _ (fun _ => True)); [now apply callbacks_keep|]. intros _ _. now apply keeps_ret. }
  unfold leaves_unchanged. specialize (K m (le_n _)). destruct (preparation parse powf ufun cp ce (p :: ps) x m) as [r m']. cbn [snd].
  rewrite (proj1 (proj2 K)). apply firstn_all.
Qed.
(** With several series in the fit sample (a copy), [fit] never changes the
    caller's data, whatever the functions of the FUNs do. *)
Theorem C90_fit_copy_isolated : forall ps inds x m, confined ufun -> leaves_unchanged (fit_many parse powf ufun inds ps x) m.
Proof.
  intros ps inds x m Hu.
  assert (K : keeps (length m) (fit_many parse powf ufun inds ps x) (fun _ => True)).
  { unfold fit_many, copy_sample. apply (keeps_seq _ _ _ (fun a => length m <= base a)).
    - apply (keeps_seq _ _ _ (fun _ => True)); [apply keeps_contents|]. intros X _. apply keeps_new.
    - intros z Hz. apply (keeps_weak _ _ (fun a => length m <= base a)); [auto|]. apply prepare_keeps; auto. }
  unfold leaves_unchanged. specialize (K m (le_n _)). destruct (fit_many parse powf ufun inds ps x m) as [r m']. cbn [snd].
  rewrite (proj1 (proj2 K)). apply firstn_all.
Qed.

(** Callbacks are not mere observers: a callback acts exactly like a FUN with
    the same function behind every preparateur. *)
Theorem C90_callback_is_a_stage : forall cb g src ps x m,
  (forall y m, ufun g y m = seqm (cb y) (fun _ => ret y) m) ->
  prepare_mem parse powf ufun [cb] src ps x m = prepare_mem parse powf ufun [] src (flat_map (fun p => [p; PLeaf (LFUN g) None]) ps) x m.
Proof.
  intros cb g src ps. induction ps as [|p ps IH]; intros x m Hg; [reflexivity|].
  cbn [flat_map app prepare_mem for_each prep_mem leaf_mem].
  assert (E : forall {A B} (c : mem (T := T) A) (f f' : A -> mem (T := T) B) m, (forall a m, f a m = f' a m) -> seqm c f m = seqm c f' m).
  { intros A B c f f' m0 E. unfold seqm. destruct (c m0) as [[a|e] m1]; [apply E|reflexivity]. }
  apply E. intros y m1. unfold seqm, ret. rewrite Hg. unfold seqm, ret. destruct (cb y m1) as [[u|e] m2]; [|reflexivity]. now apply IH.
Qed.
(** Without preparateurs the callbacks get the caller's own array. *)
Theorem C90_no_preparateurs : forall on_preparateur cb x m,
  preparation parse powf ufun on_preparateur [cb] [] x m = seqm (cb x) (fun _ => ret x) m.
Proof. intros cp cb x m. unfold preparation, prepare_mem. cbn [for_each]. unfold seqm, ret. destruct (cb x m) as [[u|e] m1]; reflexivity. Qed.
End C89.

(** Witnesses: the array [[[1]]], and a function that sets its argument to zero
    and returns it. *)
From Coq Require Import Reals Lra.
Section W.
Local Open Scope R_scope.
Let parse (_ : pystr) : res R := Err ValueError.
Let powf (x _ : R) : R := x.
Let here : arr := {| base := 0; rows := [0%nat] |}.
Let m0 : memory (T := R) := [[[[1]]]].
Let clear_it (_ : dataset R -> res (dataset R)) (x : arr) : mem (T := R) arr := seqm (assign x (fun X => Ok (zeros_like X))) (fun _ => ret x).
Let clear_cb (x : arr) : mem (T := R) unit := assign x (fun X => Ok (zeros_like X)).
Let zero_fun : dataset R -> res (dataset R) := fun X => Ok (zeros_like X).
Let FUN : prep R := PLeaf (LFUN zero_fun) None.
Let INC1 : prep R := PLeaf (LINC {| inc_shift := ShInt 1; inc_depth := 1; inc_zp := true |}) None.

Lemma clear_it_confined : confined clear_it.
Proof. intros g x k Hk. apply (keeps_seq _ _ _ (fun _ => True)); [now apply keeps_assign|]. intros _ _. now apply keeps_ret. Qed.
Lemma clear_cb_confined : confined_callback clear_cb.
Proof. intros x k Hk. now apply keeps_assign. Qed.

(** The documentation promises no copy, but nothing in it says that [transform]
    may change its argument: it does, if a FUN is the first preparateur, directly
    or inside NEW (inside DIM it gets a copy), if a callback writes to the data of
    a slice without preparateurs, and in [fit] with one series. *)
Theorem C90_argument_changed_refuted :
  ~ (forall ps x m, confined clear_it -> valid m x -> leaves_unchanged (preparation parse powf clear_it [] [] ps x) m) /\
  leaves_unchanged (preparation parse powf clear_it [] [] [PDim FUN [0%Z] None] here) m0 /\
  ~ leaves_unchanged (preparation parse powf clear_it [] [] [FUN] here) m0 /\
  ~ leaves_unchanged (preparation parse powf clear_it [] [] [PNew FUN None] here) m0 /\
  ~ leaves_unchanged (preparation parse powf clear_it [] [clear_cb] [] here) m0 /\
  ~ leaves_unchanged (fit_one parse powf clear_it 0 [FUN] here) m0 /\
  leaves_unchanged (fit_many parse powf clear_it [0%nat] [FUN] here) m0.
Proof.
  assert (V : valid m0 here) by (split; [cbn; lia|split; [repeat constructor; cbn; tauto|repeat constructor]]).
  assert (F : ~ leaves_unchanged (preparation parse powf clear_it [] [] [FUN] here) m0).
  { intros E. injection E as E. lra. }
  split; [intros Q; apply F; apply Q; [apply clear_it_confined|exact V]|].
  split; [reflexivity|]. split; [exact F|].
  split; [intros E; injection E as E; lra|]. split; [intros E; injection E as E; lra|]. split; [intros E; injection E as E; lra|reflexivity].
Qed.

(** The hypotheses of C89 are met: a function that computes a new array reads
    only, a callback that does nothing observes, and the pipeline NEW(CTS(1)),
    FUN, INC on two series is rectangular. *)
Definition pure_fun (g : dataset R -> res (dataset R)) (x : arr) : mem (T := R) arr :=
  seqm (contents x) (fun X => seqm (eval (g X)) (fun Y => new_array Y)).
Example pure_reads_only : reads_only pure_fun.
Proof.
  intros g x m V. refine (proj1 (makes_computes m (pure_fun g x) (g (load m x)) _)). unfold pure_fun.
  apply (makes_contents _ _ _ _ _ _ eq_refl). replace (g (load m x)) with (let! Y := g (load m x) in Ok Y) at 2 by now destruct (g (load m x)).
  apply makes_eval; [apply untouched_refl|]. intros Y _. apply makes_new, untouched_refl.
Qed.
Let two : memory (T := R) := [[[[1; 2]]; [[3; 5]]]].
Let all2 : arr := {| base := 0; rows := [0%nat; 1%nat] |}.
Let pipe : list (prep R) := [PNew (PLeaf (LCTS (CInt 1) false) None) None; FUN; INC1].
Example C89_hypotheses : reads_only pure_fun /\ Forall (observes (T := R)) [fun _ => ret tt] /\ valid two all2 /\
  rectangular parse powf (load two all2) pipe (load two all2) /\
  prepared parse powf (load two all2) pipe (load two all2) = Ok [[[0; 0 - 0]; [0; 0 - 0]]; [[0; 0 - 0]; [0; 0 - 0]]].
Proof.
  split; [exact pure_reads_only|]. split; [repeat constructor; cbn; apply untouched_refl|].
  split; [split; [cbn; lia|split; [repeat constructor; cbn; intuition discriminate|repeat constructor]]|].
  split; [|reflexivity].
  assert (Bx : forall a b c d : R, exists n k l, box [[[a; b]]; [[c; d]]] n k l) by (intros; exists 2%nat, 1%nat, 2%nat; split; [reflexivity|repeat constructor]).
  assert (B2 : forall a b c d e f g h : R, exists n k l, box [[[a; b]; [c; d]]; [[e; f]; [g; h]]] n k l)
    by (intros; exists 2%nat, 2%nat, 2%nat; split; [reflexivity|repeat constructor]).
  split; [apply Bx|]. intros Y E. injection E as <-. split; [apply B2|]. intros Y E. injection E as <-. split; [apply B2|].
  intros Y E. injection E as <-. split; [apply B2|exact Logic.I].
Qed.
(** INC, then a FUN that overwrites its argument: the caller keeps the data, the
    result is zero.  The same with a callback instead of the FUN. *)
Example C90_isolated_run :
  let run1 := preparation parse powf clear_it [] [] [INC1; FUN] all2 two in
  let run2 := preparation parse powf clear_it [clear_cb] [] [INC1] all2 two in
  firstn 1 (snd run1) = two /\ firstn 1 (snd run2) = two /\
  (exists a, fst run1 = Ok a /\ load (snd run1) a = [[[0; 0]]; [[0; 0]]]) /\
  (exists a, fst run2 = Ok a /\ load (snd run2) a = [[[0; 0]]; [[0; 0]]]) /\
  prepared parse powf (load two all2) [INC1] (load two all2) = Ok [[[0; 2 - 1]]; [[0; 5 - 3]]].
Proof. cbv zeta. repeat split; try reflexivity; eexists; split; reflexivity. Qed.
End W.
Print Assumptions C89_transform.
Print Assumptions C89_preparation.
Print Assumptions C89_fit.
Print Assumptions C90_caller_isolated.
Print Assumptions C90_fit_copy_isolated.
Print Assumptions C90_callback_is_a_stage.
Print Assumptions C90_no_preparateurs.
Print Assumptions C90_argument_changed_refuted.
