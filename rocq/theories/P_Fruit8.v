(** C34: fitting on a sample of the series with a cache made of all series. *)
From Coq Require Import Ascii String List Arith ZArith Bool RelationClasses Lia.
From Verif Require Import Num Arr M_Str M_Semiring M_Words M_ISS M_Np M_Prep M_Cache M_Sieve M_PrepObj M_Cos M_Fruit M_Seeds
  S_Fruit L_Arr L_Fruit L_Fruit3 L_Fruit4 L_Fruit8 L_Fruit10 L_Fruit11 P_Copy L_Seeds L_Seeds2 L_Seeds3 P_Seeds P_Fruit4.
Import ListNotations.

(** No slice and no fruit can tell the two states apart. *)
Definition same_features {T} `{Num T} (K : kit T) (h h' : heap K) : Prop :=
  (forall sl X cbs cache, sl < length (h_sl K h) -> fst (slice_transform K sl X cbs cache h) = fst (slice_transform K sl X cbs cache h')) /\
  (forall f X cbs cache, f < length (h_fr K h) -> fst (fruit_transform K f X cbs cache h) = fst (fruit_transform K f X cbs cache h')).

Lemma heq_same_features {T} `{Num T} (K : kit T) (W : lawful K) h h' : wf K h -> heq K W h h' -> same_features K h h'.
Proof.
  intros Wf E. split.
  - intros sl X cbs cache L. apply (slice_transform_same K W h h' sl X cbs cbs cache); auto. intros v. now apply sees_heq.
  - intros f X cbs cache L. destruct (nth_error (h_fr K h) f) as [x|] eqn:Ex; [|apply nth_error_None in Ex; lia].
    apply (fruit_transform_same K W h h' f x x X cbs cbs cache Wf Ex); auto.
    + now rewrite <- (proj1 (proj2 E)).
    + intros sl v _. now apply sees_heq.
Qed.

Section Lib.
Context {T : Type} `{N : Num T}.
Variable W : oracles T.
Variable parse : pystr -> res T.
Variable powf : T -> T -> T.
Variable qf : T -> list T -> T.
Variable eps5 : T.
Variable order : list T -> list T.
Variable show_prep : prep T -> pystr.
Variable show_cut : cut_arg -> pystr.
Variable show_q : q_arg -> pystr.
Variable show_num : T -> pystr.
Variable show_ppv : ppv_cfg T -> pystr.
Notation lib := (library W parse powf qf eps5 order show_prep show_cut show_q show_num show_ppv).
Notation law := (library_lawful W parse powf qf eps5 order show_prep show_cut show_q show_num show_ppv).
(** Histories in which FUN preparateurs and custom weightings keep the number
    of series, and SPE preparateurs do not take their steps from the cache. *)
Notation ok_op := (brings lib (local_prep : prepT lib -> Prop) (covers_rows : issT lib -> Prop) (fun _ => True)).

(** Two fits of the same slice on the same data with different caches: if the
    caches have the same series at the first k positions, where k is the number
    of selected series, the fits have the same outcome and lead to the same
    features.  Which series were selected plays no role. *)
Theorem C34_rows_by_position g ops sl s X c c' idx h1 :
  let h := run lib (heap0 lib g) ops in
  Forall ok_op ops -> nth_error (h_sl lib h) sl = Some s ->
  select_sample lib (sl_sample s) (length X) h = (Ok idx, h1) ->
  firstn (length idx) c = firstn (length idx) c' -> length idx <= length c -> length idx <= length c' -> full c -> full c' ->
  let r := slice_fit lib sl X (Some c) h in let r' := slice_fit lib sl X (Some c') h in
  fst r = fst r' /\ same_features lib (snd r) (snd r').
Proof.
  intros h Ho Es Esel Ea L L' Fc Fc'. cbn zeta.
  destruct (two_fits lib law _ _ (local_closed W parse powf qf eps5 order show_prep show_cut show_q show_num show_ppv) (length idx) c c'
    (local_library W parse powf qf eps5 order show_prep show_cut show_q show_num show_ppv (length idx) c c' (conj Ea (conj L L')) Fc Fc') h sl X) as (E1 & E2).
  - exact (run_all lib _ _ _ (local_closed W parse powf qf eps5 order show_prep show_cut show_q show_num show_ppv) ops Ho (heap0 lib g) (all_heap0 lib _ _ _ g)).
  - intros s0 idx0 h0 E0 F0. rewrite Es in E0. injection E0 as <-. rewrite Esel in F0. now injection F0 as <-.
  - split; [exact E1|]. apply (heq_same_features lib law); [|exact E2].
    apply (reachable_wf lib law). exists g, (ops ++ [OFit lib sl X (Some c)]). rewrite run_app. reflexivity.
Qed.
(** fit(X) without a cache is the fit with the cache of the first k series of
    X: whatever series were selected, the cache rows of the first k are used. *)
Theorem C34_fit_reads_first_series g ops sl s X idx h1 :
  let h := run lib (heap0 lib g) ops in
  Forall ok_op ops -> nth_error (h_sl lib h) sl = Some s ->
  select_sample lib (sl_sample s) (length X) h = (Ok idx, h1) -> length idx <= length X -> full X ->
  let r := slice_fit lib sl X None h in let r' := slice_fit lib sl X (Some (firstn (length idx) X)) h in
  fst r = fst r' /\ same_features lib (snd r) (snd r').
Proof.
  intros h Ho Es Esel L F. apply (C34_rows_by_position g ops sl s X X (firstn (length idx) X) idx h1 Ho Es Esel).
  - rewrite firstn_firstn. f_equal. lia.
  - exact L.
  - rewrite firstn_length. lia.
  - exact F.
  - intros x Hx. apply F. rewrite <- (firstn_skipn (length idx) X). apply in_or_app. now left.
Qed.
(** If the first k series are selected, in order, fit(X) is the fit with the
    cache of the sample itself. *)
Theorem C34_prefix_sample g ops sl s X idx h1 :
  let h := run lib (heap0 lib g) ops in
  Forall ok_op ops -> nth_error (h_sl lib h) sl = Some s ->
  select_sample lib (sl_sample s) (length X) h = (Ok idx, h1) ->
  idx = seq 0 (length idx) -> length idx <= length X -> full X ->
  let r := slice_fit lib sl X None h in let r' := slice_fit lib sl X (Some (map (fun i => nth i X []) idx)) h in
  fst r = fst r' /\ same_features lib (snd r) (snd r').
Proof.
  intros h Ho Es Esel Ei L F. cbn zeta.
  assert (E : map (fun i => nth i X []) idx = firstn (length idx) X).
  { rewrite Ei at 1. clear - L. revert L. generalize (length idx). intros k. revert X. induction k as [|k IH]; intros X L; [reflexivity|].
    destruct X as [|x X]; [cbn in L; lia|]. cbn [seq map firstn nth]. f_equal. rewrite <- seq_shift, map_map. cbn [nth]. apply IH. cbn in L. lia. }
  rewrite E. exact (C34_fit_reads_first_series g ops sl s X idx h1 Ho Es Esel L F).
Qed.
End Lib.
Print Assumptions C34_rows_by_position.
Print Assumptions C34_fit_reads_first_series.
Print Assumptions C34_prefix_sample.
