(** The fruit theorems for the seeds of the library (C25, C26, C33, C60): in
    every history whose FUN preparateurs and custom weightings keep the number
    of series, no further hypothesis about the seeds is needed. *)
From Coq Require Import Ascii String List Arith ZArith Bool RelationClasses Lia.
From Verif Require Import Num Arr M_Str M_Semiring M_Words M_ISS M_Np M_Prep M_Cache M_Sieve M_PrepObj M_Cos M_Fruit M_Seeds
  S_Fruit S_Trace L_Arr L_Fruit L_Fruit10 P_Copy L_Seeds L_Seeds2 P_Fruit2 P_Fruit5 P_Fruit6 P_Fruit7.
Import ListNotations.

Section Lib.
Context {T : Type} `{N : Num T}.
Variable W : oracles T.
Variable parse : pystr -> res T.
Variable powf : T -> T -> T.
Variable qf : T -> list T -> T.
Variable eps5 : T.
Variable order : list T -> list T.
Variable show_prep : prep T -> pystr.
Variable show_cut : cut_arg -> pystr.
Variable show_q : q_arg -> pystr.
Variable show_num : T -> pystr.
Variable show_ppv : ppv_cfg T -> pystr.
Notation lib := (library W parse powf qf eps5 order show_prep show_cut show_q show_num show_ppv).
Notation ok_op := (brings lib (keeps_rows : prepT lib -> Prop) (covers_rows : issT lib -> Prop) (fun _ => True)).

Lemma leaf_fit_fun r f X f' : leaf_fit eps5 r f X = Ok f' ->
  (match f with LFUN g => forall X Z, g X = Ok Z -> length Z = length X | _ => True end) ->
  (match f' with LFUN g => forall (X Z : dataset T), g X = Ok Z -> length Z = length X | _ => True end).
Proof.
  intros E Hk. destruct f as [| | | | | |? ? ? ? [k|]| | | | | | | | | | |]; cbn in E; try (injection E as <-; exact Hk || exact Logic.I).
  all: match type of E with (let! _ := ?m in _) = _ => destruct m; [|discriminate] end; injection E as <-; exact Logic.I.
Qed.
Lemma library_closed : closed lib (keeps_rows : prepT lib -> Prop) (covers_rows : issT lib -> Prop) (fun _ => True).
Proof.
  constructor; cbn.
  - intros c p Hp. now destruct p.
  - intros g X p Hp. destruct p as [f ca|q d ca|ca|q ca]; cbn [pr_fit pr_cache].
    + destruct (leaf_fit eps5 (o_rand W g) f X) as [f'|e] eqn:E; [|exact Hp]. cbn. exact (leaf_fit_fun _ f X f' E Hp).
    + destruct (mapM _ d); [|exact Logic.I]. destruct (pr_fit eps5 _ q _) as [[u|e] q']; exact Logic.I.
    + exact Logic.I.
    + destruct (pr_fit eps5 _ q X) as [[u|e] q']; exact Logic.I.
  - intros X p Hp. destruct p as [f ca|q d ca|ca|q ca]; cbn [pr_transform pr_cache].
    + destruct (leaf_transform parse powf _ f X); exact Hp.
    + destruct (mapM _ d); [|exact Logic.I]. destruct (pr_transform parse powf q _) as [r q']. destruct (dim_transform _ _ _); exact Logic.I.
    + destruct (new_transform _ X); exact Logic.I.
    + destruct (pr_transform parse powf q X) as [r q']. destruct (new_transform _ _); exact Logic.I.
  - intros p q Hp E. injection E as <-. destruct p as [f ca|q d ca|ca|q ca]; cbn [pr_copy]; try exact Logic.I. destruct f; try exact Logic.I. exact Hp.
  - intros c i Hi. now destruct i.
  - intros g X i Hi. destruct i as [c ca|c st ca]; cbn [iss_fit]; [exact Hi|]. destruct (cos_fit _ _ _ X st) as [[u|e] st']; exact Logic.I.
  - intros i j Hi E. injection E as <-. destruct i as [c ca|c st ca]; [exact Hi|exact Logic.I].
  - auto. - auto. - auto. - auto.
Qed.

(** Shapes of the library's seeds. *)
Theorem library_sieve_shaped (s : sieveT lib) : sieve_shaped lib s.
Proof.
  intros c Y R Lc E. cbn in *. unfold sieve_transform in E. cbn [fst sieve_attach so proj1_sig] in E.
  pose proof (sv_transform_shape parse order (sv_set_cache (so order s) (Some c)) (regular_set_cache order _ _ (proj2_sig s)) Y R E) as G.
  assert (Ec : forall (v : sieve T) ca, sv_nfeatures (sv_set_cache v ca) = sv_nfeatures v) by (intros v ca; now destruct v). rewrite Ec in G. exact G.
Qed.
Theorem library_prep_rows (p : prepT lib) : keeps_rows (p : prep T) -> prep_rows lib p.
Proof. intros Hk c X Z Lc E. cbn in E. refine (pr_transform_rows parse powf p c X Z Hk _ E). destruct p as [f ca| | |]; try exact Logic.I. destruct f as [| | | | | | | | |? ? ? [k|] ?| | | | | | | |]; exact Lc || exact Logic.I. Qed.
Theorem library_iss_exact (i : issT lib) : covers_rows (i : issO T) -> iss_exact lib i.
Proof.
  intros Hc c X L n Lc (bs & Eb & ->) En. cbn in Eb, En.
  refine (iss_shape eps5 c i X bs n _ Hc Eb _); [lia|]. destruct i; exact En.
Qed.
(** Every slice of every history has seeds of the right shapes. *)
Theorem library_shaped g ops sl s : Forall ok_op ops ->
  nth_error (h_sl lib (run lib (heap0 lib g) ops)) sl = Some s -> shaped lib (run lib (heap0 lib g) ops) s.
Proof.
  intros Hops Es. destruct (run_all lib _ _ _ library_closed ops Hops (heap0 lib g) (all_heap0 lib _ _ _ g)) as (A1 & A2 & A3).
  split; [|split].
  - intros id p _ Ep. apply library_prep_rows. exact (nth_Forall _ _ _ _ A1 Ep).
  - intros id i _ Ei. apply library_iss_exact. exact (nth_Forall _ _ _ _ A2 Ei).
  - intros id v _ _. apply library_sieve_shaped.
Qed.
End Lib.

(** ** The theorems for the library *)
Section Corollaries.
Context {T : Type} `{N : Num T}.
Variable W : oracles T.
Variable parse : pystr -> res T.
Variable powf : T -> T -> T.
Variable qf : T -> list T -> T.
Variable eps5 : T.
Variable order : list T -> list T.
Variable show_prep : prep T -> pystr.
Variable show_cut : cut_arg -> pystr.
Variable show_q : q_arg -> pystr.
Variable show_num : T -> pystr.
Variable show_ppv : ppv_cfg T -> pystr.
Notation lib := (library W parse powf qf eps5 order show_prep show_cut show_q show_num show_ppv).
Notation ok_op := (brings lib (keeps_rows : prepT lib -> Prop) (covers_rows : issT lib -> Prop) (fun _ => True)).
Notation law := (library_lawful W parse powf qf eps5 order show_prep show_cut show_q show_num show_ppv).

(** C25 for slices and fruits of library seeds. *)
Theorem library_slice_features g ops sl s X cbs cache A h' ps is svs :
  let h := run lib (heap0 lib g) ops in
  Forall ok_op ops -> nth_error (h_sl lib h) sl = Some s -> cache_rows cache X ->
  objs (h_p lib h) (sl_p s) ps -> objs (h_i lib h) (sl_i s) is -> objs (h_s lib h) (sl_s s) svs ->
  slice_transform lib sl X cbs cache h = (Ok A, h') ->
  let c := match cache with Some c => c | None => X end in
  let nfs := map (s_nf lib) svs in
  exists Y ns, prepared lib c ps X Y /\ Forall2 (fun i n => i_n lib i = Ok n) is ns /\
    slice_nfeatures lib sl h = (Ok (fold_right Nat.mul 1 ns * list_sum nfs), h) /\
    length A = length X /\ (forall row, In row A -> length row = fold_right Nat.mul 1 ns * list_sum nfs) /\
    forall js, Forall2 lt js ns -> exists Z svk, itsum lib (map (i_attach lib c) is) js Y Z /\
      objs (h_s lib h) (sieves_for s (radix ns js)) svk /\ map (s_nf lib) svk = nfs /\ map (s_label lib) svk = map (s_label lib) svs /\
      forall j v r, nth_error svk j = Some v -> r < s_nf lib v ->
      exists R, fst (s_transform lib Z (s_attach lib c v)) = Ok R /\
        column A (radix ns js * list_sum nfs + list_sum (firstn j nfs) + r) = column R r.
Proof.
  intros h Ho Es Cf Op Oi Os E. exact (slice_features lib law h sl s X cbs cache A h' ps is svs (ex_intro _ g (ex_intro _ ops eq_refl)) Es (library_shaped W parse powf qf eps5 order show_prep show_cut show_q show_num show_ppv g ops sl s Ho Es) Cf Op Oi Os E).
Qed.
Theorem library_fruit_features g ops f x X cbs cache A h' :
  let h := run lib (heap0 lib g) ops in
  Forall ok_op ops -> nth_error (h_fr lib h) f = Some x -> cache_rows cache X ->
  fruit_transform lib f X cbs cache h = (Ok A, h') ->
  let c := match cache with Some c => c | None => X end in
  exists Bs ws,
    Forall2 (fun sl B => fst (slice_transform lib sl X cbs (Some c) h) = Ok B) (f_slices x) Bs /\
    Forall2 (fun sl w => slice_nfeatures lib sl h = (Ok w, h)) (f_slices x) ws /\
    fruit_nfeatures lib f h = (Ok (list_sum ws), h) /\
    length A = length X /\ (forall row, In row A -> length row = list_sum ws) /\
    forall k B w q, nth_error Bs k = Some B -> nth_error ws k = Some w -> q < w ->
      column A (list_sum (firstn k ws) + q) = map nfin (column B q).
Proof.
  intros h Ho Ex Cf E. exact (fruit_features lib law h f x X cbs cache A h' (ex_intro _ g (ex_intro _ ops eq_refl)) Ex (fun sl s _ => library_shaped W parse powf qf eps5 order show_prep show_cut show_q show_num show_ppv g ops sl s Ho) Cf E).
Qed.
(** C33: what callbacks are called with. *)
Theorem library_callback_protocol g ops f x X cbs cache A h' :
  let h := run lib (heap0 lib g) ops in
  Forall ok_op ops -> nth_error (h_fr lib h) f = Some x -> cache_rows cache X ->
  fruit_transform lib f X cbs cache h = (Ok A, h') ->
  let c := match cache with Some c => c | None => X end in
  exists Bs traces,
    Forall2 (fun sl B => fst (slice_transform lib sl X cbs (Some c) h) = Ok B) (f_slices x) Bs /\
    Forall2 (fun sl Bt => exists s, nth_error (h_sl lib h) sl = Some s /\ slice_trace lib h c X s (fst Bt) (snd Bt)) (f_slices x) (combine Bs traces) /\
    length traces = length (f_slices x) /\
    (forall cb, cb < cbs -> received lib h' cb = received lib h cb ++ flat_map (fun tr => ENextSlice :: tr) traces) /\
    (forall cb, cbs <= cb -> received lib h' cb = received lib h cb).
Proof.
  intros h Ho Ex Cf E. exact (callback_protocol lib law h f x X cbs cache A h' (ex_intro _ g (ex_intro _ ops eq_refl)) Ex (fun sl s _ => library_shaped W parse powf qf eps5 order show_prep show_cut show_q show_num show_ppv g ops sl s Ho) Cf E).
Qed.
End Corollaries.
Print Assumptions library_shaped.
Print Assumptions library_slice_features.
Print Assumptions library_fruit_features.
Print Assumptions library_callback_protocol.
