(** C94: the lists returned by [get_preparateurs], [get_iss], [get_sieves]. *)
From Coq Require Import Ascii String List Arith ZArith Bool Lia.
From Verif Require Import Num Arr M_Str M_Np M_Prep M_Fruit M_Live S_Fruit L_Arr L_Fruit L_Fruit3 L_Fruit4 L_Fruit6 L_Fruit7 L_Fruit8 P_Fruit2.
Import ListNotations.

Section C94.
Context {T : Type} `{N : Num T}.
Variable K : kit T.
Notation heap := (heap K).
Notation state := (state K).

(** The actions that replace attribute [a] of slice [sl] by a new list. *)
Definition clearing (sl : nat) (a : attribute) (x : action K) : Prop := match x with Api _ o => clears K o sl a = true | _ => False end.
Lemma act_attached st n sl a x : nth_error (st_lists K st) n = Some (OfSlice sl a) -> ~ clearing sl a x ->
  nth_error (st_lists K (act K st x)) n = Some (OfSlice sl a).
Proof.
  intros E Hx. destruct x as [o|sl' a'|n' f]; cbn [act].
  - cbn [st_lists]. rewrite nth_error_map, E. cbn. cbn in Hx. destruct (clears K o sl a); [congruence|reflexivity].
  - destruct (nth_error (h_sl K (st_heap K st)) sl'); [|exact E]. cbn [st_lists]. rewrite nth_error_app1; [exact E|]. apply nth_error_Some. congruence.
  - destruct (nth_error (st_lists K st) n') as [[sl' a'|l]|] eqn:En; [exact E| |exact E]. cbn [st_lists].
    assert (n' <> n) by (intros ->; congruence). rewrite upd_nth_error_neq by assumption. exact E.
Qed.
(** A list obtained from a slice shows at every later time exactly the current
    objects of the slice, whatever the program does, until the slice's list is
    cleared. *)
Theorem C94_live : forall st n sl a xs,
  nth_error (st_lists K st) n = Some (OfSlice sl a) -> Forall (fun x => ~ clearing sl a x) xs ->
  read K (acts K st xs) n = Some (slice_field K (st_heap K (acts K st xs)) sl a).
Proof.
  intros st n sl a xs E F. revert st E. induction F as [|x xs Hx F IH]; intros st E.
  - unfold acts, read. cbn [fold_left]. rewrite E. reflexivity.
  - apply (IH (act K st x)). now apply act_attached.
Qed.
(** [get_*()] gives such a list. *)
Theorem C94_get : forall st sl a, sl < length (h_sl K (st_heap K st)) ->
  nth_error (st_lists K (act K st (Get K sl a))) (length (st_lists K st)) = Some (OfSlice sl a) /\ st_heap K (act K st (Get K sl a)) = st_heap K st.
Proof.
  intros st sl a Hl. cbn [act]. destruct (nth_error (h_sl K (st_heap K st)) sl) as [s|] eqn:E; [|apply nth_error_None in E; lia].
  cbn [st_lists st_heap]. split; [|reflexivity]. rewrite nth_error_app2, Nat.sub_diag by lia. reflexivity.
Qed.
(** After [clear_*()] the list keeps the objects the slice had, the slice's own
    list is empty, and neither can be changed through the other any more. *)
Lemma clear_empties o h sl a : clears K o sl a = true -> slice_field K (snd (exec K o h)) sl a = [].
Proof.
  intros C. unfold slice_field.
  assert (U : forall f h, nth_error (h_sl K (snd (upd_sl K sl f h))) sl = option_map f (nth_error (h_sl K h) sl)).
  { intros f h0. unfold upd_sl, bindM, look. destruct (nth_error (h_sl K h0) sl) as [s|] eqn:E; [|cbn; now rewrite E].
    unfold set_sl. cbn. rewrite upd_nth_error_eq; [reflexivity|]. apply nth_error_Some. congruence. }
  destruct o; try discriminate; cbn [exec clears] in *.
  - destruct a; try discriminate. apply Nat.eqb_eq in C as <-. unfold clear_p. rewrite U. destruct (nth_error (h_sl K h) sl); reflexivity.
  - destruct a; try discriminate. apply Nat.eqb_eq in C as <-. unfold clear_i. rewrite U. destruct (nth_error (h_sl K h) sl); reflexivity.
  - destruct a; try discriminate. apply Nat.eqb_eq in C as <-. unfold clear_s. rewrite U. destruct (nth_error (h_sl K h) sl); reflexivity.
  - assert (Es : sl = sl0) by (destruct a; now apply Nat.eqb_eq in C). subst sl0. clear C.
    destruct (nth_error (h_sl K h) sl) as [s|] eqn:E.
    + assert (G : forall f h0 s0, nth_error (h_sl K h0) sl = Some s0 -> exists h1, upd_sl K sl f h0 = (Ok tt, h1) /\ nth_error (h_sl K h1) sl = Some (f s0)).
      { intros f h0 s0 E0. specialize (U f h0). rewrite E0 in U. unfold upd_sl in *. rewrite (bind_ok K _ _ h0 s0 h0) in * by (unfold look; now rewrite E0).
        eexists. split; [reflexivity|]. exact U. }
      unfold clear, clear_p, clear_i, clear_s.
      destruct (G (with_p []) h s E) as (h1 & E1 & F1). rewrite (bind_ok K _ _ _ _ _ E1).
      destruct (G (fun s => with_ext [] (with_i [] s)) h1 _ F1) as (h2 & E2 & F2). rewrite (bind_ok K _ _ _ _ _ E2).
      destruct (G (fun s => with_ext [] (with_s [] s)) h2 _ F2) as (h3 & E3 & F3). rewrite (bind_ok K _ _ _ _ _ E3).
      destruct (G (with_sample SOne) h3 _ F3) as (h4 & E4 & F4). rewrite E4. cbn [snd]. rewrite F4. destruct a; reflexivity.
    + unfold clear, clear_p, upd_sl, bindM, look. rewrite E. cbn. now rewrite E.
Qed.
Theorem C94_cleared : forall st n sl a o l, nth_error (st_lists K st) n = Some (OfSlice sl a) -> clears K o sl a = true -> read K st n = Some l ->
  let st' := act K st (Api K o) in
  read K st' n = Some l /\ slice_field K (st_heap K st') sl a = [] /\
  (forall o', read K (act K st' (Api K o')) n = Some l) /\
  (forall f, st_heap K (act K st' (Change K n f)) = st_heap K st' /\ read K (act K st' (Change K n f)) n = Some (f l)).
Proof.
  intros st n sl a o l E C R st'. unfold read in R. rewrite E in R. cbn in R. injection R as R.
  assert (E' : nth_error (st_lists K st') n = Some (Own l)).
  { unfold st'. cbn [act st_lists]. rewrite nth_error_map, E. cbn. now rewrite C, R. }
  split; [unfold read; now rewrite E'|]. split; [unfold st'; cbn [act st_heap]; now apply clear_empties|]. split.
  - intros o'. unfold read. cbn [act st_lists st_heap]. rewrite nth_error_map, E'. reflexivity.
  - intros f. cbn [act]. rewrite E'. cbn [st_heap]. split; [reflexivity|]. unfold read. cbn [st_lists st_heap].
    rewrite upd_nth_error_eq; [reflexivity|]. apply nth_error_Some. congruence.
Qed.
(** As long as the program only reads the lists, it runs as described in M_Fruit. *)
Definition api_calls (xs : list (action K)) : list (op K) := flat_map (fun x => match x with Api _ o => [o] | _ => [] end) xs.
Theorem C94_readers : forall st xs, Forall (fun x => match x with Change _ _ _ => False | _ => True end) xs ->
  st_heap K (acts K st xs) = run K (st_heap K st) (api_calls xs).
Proof.
  intros st xs F. revert st. induction F as [|x xs Hx F IH]; intros st; [reflexivity|].
  unfold acts in *. cbn [fold_left]. rewrite IH. destruct x as [o|sl a|n f]; cbn [api_calls flat_map app act st_heap]; [reflexivity| |contradiction].
  destruct (nth_error (h_sl K (st_heap K st)) sl); reflexivity.
Qed.
(** A change through a list changes this list of the slice and nothing else: no
    slice and no fruit is marked as not fitted. *)
Theorem C94_change : forall st n sl a f s, nth_error (st_lists K st) n = Some (OfSlice sl a) -> nth_error (h_sl K (st_heap K st)) sl = Some s ->
  let h := st_heap K st in let h' := st_heap K (act K st (Change K n f)) in
  h_p K h' = h_p K h /\ h_i K h' = h_i K h /\ h_s K h' = h_s K h /\ h_fr K h' = h_fr K h /\ h_g K h' = h_g K h /\
  (forall sl', sl' <> sl -> nth_error (h_sl K h') sl' = nth_error (h_sl K h) sl') /\
  exists s', nth_error (h_sl K h') sl = Some s' /\ field a s' = f (field a s) /\ (forall b, b <> a -> field b s' = field b s) /\
    sl_fitted s' = sl_fitted s /\ sl_ext s' = sl_ext s /\ sl_sample s' = sl_sample s.
Proof.
  intros st n sl a f s E Es h h'. unfold h'. cbn [act]. rewrite E. cbn [st_heap]. unfold change_field. fold h in Es |- *. rewrite Es. cbn.
  repeat (split; [reflexivity|]). split; [intros sl' Hn; apply upd_nth_error_neq; congruence|].
  eexists. split; [apply upd_nth_error_eq; apply nth_error_Some; congruence|].
  split; [destruct a; reflexivity|]. split; [intros b Hb; destruct a, b; try congruence; reflexivity|]. auto.
Qed.

(** A sieve that is appended to the list of a fitted slice whose sieves had to be
    fitted is a ghost: it is counted in [nfeatures()], but never used;
    [transform] returns the old features followed by columns of zeros. *)
Theorem C94_ghost_sieve : forall (W : lawful K) st n sl s id v X cbs cache A h' ni,
  reachable K (st_heap K st) -> nth_error (st_lists K st) n = Some (OfSlice sl FeatureSieves) ->
  nth_error (h_sl K (st_heap K st)) sl = Some s -> shaped K (st_heap K st) s -> cache_rows cache X ->
  sl_ext s <> [] -> nth_error (h_s K (st_heap K st)) id = Some v ->
  slice_transform K sl X cbs cache (st_heap K st) = (Ok A, h') -> fst (niteratedsums K sl (st_heap K st)) = Ok ni ->
  let changed := st_heap K (act K st (Change K n (fun l => l ++ [id]))) in
  (exists nf, fst (slice_nfeatures K sl (st_heap K st)) = Ok nf /\ fst (slice_nfeatures K sl changed) = Ok (nf + ni * s_nf K v)) /\
  fst (slice_transform K sl X cbs cache changed) = Ok (map (fun row => row ++ repeat nzero (ni * s_nf K v)) A).
Proof.
  intros W st n sl s id v X cbs cache A h' ni Re En Es Sh Cf Xt Ev E Ni changed.
  set (h := st_heap K st) in *. set (c := match cache with Some c => c | None => X end).
  assert (Lc : length c = length X) by (unfold c; destruct cache; [exact Cf|reflexivity]). pose proof (reachable_wf K W h Re) as Wf.
  destruct (sees_exists K W h sl s Wf Es) as (vw & V & Vp & Vi & Vs & Ve & Vf).
  assert (Fs : sl_fitted s = true).
  { unfold slice_transform in E. rewrite (bind_ok K _ _ h s h) in E by (unfold look; now rewrite Es). destruct (sl_fitted s); [reflexivity|discriminate]. }
  pose proof (transform_view K W h sl vw X cbs cache V) as Et. fold c in Et. unfold ev_view in Et. rewrite Vf, Fs in Et.
  pose proof (good_getter K h sl s _ _ Wf Es Fs Sh Vs Ve) as GG. pose proof (shaped_prep K h s _ Sh Vp) as Pr. pose proof (shaped_iss K h s _ Sh Vi) as Ex.
  destruct (evals_inv K W cbs _ h _ A h' Et E) as (evs & Esl & _).
  pose proof Esl as Esl'. apply (ev_slice_ok K W c X _ _ _ _ A evs Lc Pr Ex GG) in Esl' as (Zs & ns & Ys & Rss & St & Fn & EY & Ea & EA & _).
  pose proof (stages_rows K c _ X Zs Lc Pr St) as LX.
  destruct (iterate_iss_spec K W c _ ns Fn Ex _ Ys (eq_trans LX (eq_sym Lc)) EY) as (LY & FY & _).
  destruct (all_outs_shape K c _ 0 Ys Rss _ (eq_trans Lc (eq_sym LX)) FY Ea _ GG) as (_ & SR & _).
  pose proof (proj2 (ev_ns_ok K _ _) Fn) as Ens.
  assert (Eni : ni = fold_right Nat.mul 1 ns).
  { rewrite (niteratedsums_eval K W h sl s (v_i K vw) Es (@objs_refs _ _ (eqI_equiv K W) _ _ _ Vi)), Ens in Ni. cbn in Ni. congruence. }
  set (t := nsieves K (v_s K vw)) in *.
  assert (SA : shape (length X) (t * ni) A).
  { pose proof (hfold_shape _ _ _ _ _ (shape_zero (length (last Zs X))) SR) as Sf. rewrite <- EA, LX in Sf. cbn in Sf.
    replace (t * ni) with (list_sum (concat (repeat (map (s_nf K) (v_s K vw)) (length Ys)))); [exact Sf|].
    rewrite Eni, <- LY. unfold t, nsieves. clear. induction (length Ys) as [|k IH]; [cbn; lia|]. cbn [repeat concat]. rewrite list_sum_app, IH. lia. }
  (* the changed slice *)
  destruct (C94_change st n sl FeatureSieves (fun l => l ++ [id]) s En Es) as (P1 & P2 & P3 & P4 & P5 & P6 & s' & Es' & F1 & F2 & F3 & F4 & F5).
  fold changed h in P1, P2, P3, P4, P5, P6, Es'. cbn [field] in F1. pose proof (F2 Preparateurs ltac:(discriminate)) as Fp. pose proof (F2 Calculators ltac:(discriminate)) as Fi. cbn [field] in Fp, Fi.
  set (vw' := {| v_fit := true; v_p := v_p K vw; v_i := v_i K vw; v_s := v_s K vw ++ [v]; v_e := v_e K vw |}).
  assert (Vs' : objs (h_s K changed) (sl_s s') (v_s K vw ++ [v])).
  { rewrite F1, P3. apply Forall2_app; [exact Vs|]. constructor; [exact Ev|constructor]. }
  assert (V' : sees K W changed sl vw').
  { exists s'. unfold vw'. cbn [v_fit v_p v_i v_s v_e]. rewrite F3, Fs. split; [exact Es'|]. split; [reflexivity|].
    split; [rewrite Fp, P1; exact (@objs_refs _ _ (eqP_equiv K W) _ _ _ Vp)|]. split; [rewrite Fi, P2; exact (@objs_refs _ _ (eqI_equiv K W) _ _ _ Vi)|].
    split; [exact (@objs_refs _ _ (eqS_equiv K W) _ _ _ Vs')|]. rewrite F4, P3.
    eapply Forall2_impl; [|exact Ve]. intros ids os. apply (@objs_refs _ _ (eqS_equiv K W)). }
  assert (Et' : nsieves K (v_s K vw ++ [v]) = t + s_nf K v).
  { unfold t, nsieves. rewrite map_app, list_sum_app. cbn. lia. }
  split.
  - exists (t * ni). rewrite (nfeatures_view K W h sl vw V), (nfeatures_view K W changed sl vw' V'). unfold v_nf. cbn [vw' v_i v_s]. rewrite Ens. cbn [bind fst].
    rewrite Et', <- Eni. split; [reflexivity|]. f_equal. lia.
  - pose proof (transform_view K W changed sl vw' X cbs cache V') as Ew. fold c in Ew. unfold ev_view in Ew. cbn [vw' v_fit v_p v_i v_s v_e] in Ew.
    unfold ev_slice in Ew. unfold ev_slice in Esl. destruct (ev_preps K c (v_p K vw) X) as [[Y e1]|e] eqn:Ep; [|discriminate].
    apply (ev_preps_ok K) in Ep as (Zs' & St' & EYZ & _).
    assert (Ez : Zs' = Zs).
    { clear - St St'. clearbody c. revert X Zs Zs' St St'. induction (v_p K vw) as [|p ps IH]; intros X [|Z Zs] [|Z' Zs'] St St'; cbn in St, St'; try contradiction; [reflexivity|].
      destruct St as (E1 & St), St' as (E2 & St'). assert (Z' = Z) by congruence. subst. f_equal. eapply IH; eassumption. }
    subst Zs'. rewrite <- EYZ in EY. rewrite Ens in Ew. rewrite EY in Ew.
    assert (Eg : forall i, getter K (v_s K vw ++ [v]) (v_e K vw) i = getter K (v_s K vw) (v_e K vw) i).
    { intros i. unfold getter. destruct (v_e K vw); [|reflexivity]. inversion Ve as [Q|]. congruence. }
    assert (Ee : forall its i kA, ev_itsums K c (getter K (v_s K vw ++ [v]) (v_e K vw)) i its kA = ev_itsums K c (getter K (v_s K vw) (v_e K vw)) i its kA).
    { induction its as [|[Z|e] its IH]; intros i kA; cbn [ev_itsums]; [reflexivity| |reflexivity]. rewrite Eg.
      destruct (getter K (v_s K vw) (v_e K vw) i) as [lg|]; [|reflexivity]. destruct (ev_sieves K c lg Z kA) as [[kA' e']|]; [|reflexivity]. now rewrite IH. }
    rewrite Ee, padded_zero in Ew.
    rewrite (ev_itsums_eq K c (getter K (v_s K vw) (v_e K vw)) 0 Ys (length Y) 0 _ _ t) in Ew; [|rewrite EYZ; congruence|apply shape_zero|rewrite EYZ; exact FY| |].
    + rewrite Ea in Ew. cbn [snd] in Ew. apply evals_fst in Ew. rewrite Ew. f_equal. rewrite EYZ, <- EA. unfold padded. apply map_ext_in. intros row Hrow. f_equal. f_equal.
      destruct SA as [_ SA]. rewrite (SA row Hrow), Et', <- Eni. lia.
    + intros j l Hl. destruct (GG j l Hl) as (Shl & Enf). split; [exact Shl|]. unfold t, nsieves. now rewrite Enf.
    + rewrite Et', LY, <- Eni. cbn. lia.
Qed.
End C94.
Print Assumptions C94_live.
Print Assumptions C94_get.
Print Assumptions C94_cleared.
Print Assumptions C94_readers.
Print Assumptions C94_change.
Print Assumptions C94_ghost_sieve.

Section W.
Context {T : Type} `{N : Num T}.
Let toy : kit T := {|
  rng := unit; k_randint := fun g _ => (0, g); k_choice := fun g _ _ => ([], g); prepT := unit; issT := unit; sieveT := bool;
  p_attach := fun _ p => p; i_attach := fun _ i => i; s_attach := fun _ s => s;
  p_fit := fun g _ p => (Ok tt, p, g); i_fit := fun g _ i => (Ok tt, i, g); s_fit := fun g _ s => (Ok tt, true, g);
  i_requires := fun _ => false; s_requires := fun _ => true;
  p_transform := fun X p => (Ok X, p);
  s_transform := fun Y s => (Ok (map (fun r => [last r nzero]) Y), s);
  i_batches := fun _ X => [Ok [map (hd []) X]];
  p_copy := Ok; i_copy := Ok; s_copy := fun _ => Ok false; i_n := fun _ => Ok 1; s_nf := fun _ => 1;
  p_label := fun _ => []; i_label := fun _ _ => Ok []; s_label := fun _ _ => Ok [] |}.
Let toy_lawful : lawful toy.
Proof.
  refine {| eqP := eq; eqI := eq; eqS := eq |}; try exact eq_equivalence; intros; cbn in *; subst; try reflexivity;
    repeat match goal with u : unit |- _ => destruct u | E : _ = _ |- _ => injection E as <- end; try reflexivity.
Qed.
(** The caller takes the list of sieves, the slice is fitted, then a sieve is
    appended to the list. *)
Example C94_witness : forall x y : T,
  let st := acts toy {| st_heap := heap0 toy tt; st_lists := [] |}
    [Api toy (ONewSlice toy); Get toy 0 FeatureSieves; Api toy (OAdd toy 0 [ClsI toy (Ok tt); ClsS toy (Ok false)]);
     Api toy (ONewSieve toy false); Api toy (OFit toy 0 [[[x]]; [[y]]] None)] in
  let changed := st_heap toy (act toy st (Change toy 0 (fun l => l ++ [1]))) in
  inhabited (lawful toy) /\ reachable toy (st_heap toy st) /\ nth_error (st_lists toy st) 0 = Some (OfSlice 0 FeatureSieves) /\ read toy st 0 = Some [0] /\
  (exists s, nth_error (h_sl toy (st_heap toy st)) 0 = Some s /\ shaped toy (st_heap toy st) s /\ sl_ext s = [[2]]) /\
  nth_error (h_s toy (st_heap toy st)) 1 = Some false /\ fst (niteratedsums toy 0 (st_heap toy st)) = Ok 1 /\
  fst (slice_transform toy 0 [[[x]]; [[y]]] 0 None (st_heap toy st)) = Ok [[x]; [y]] /\
  fst (slice_transform toy 0 [[[x]]; [[y]]] 0 None changed) = Ok [[x; nzero]; [y; nzero]] /\
  fst (slice_nfeatures toy 0 changed) = Ok 2.
Proof.
  intros x y st changed. split; [exact (inhabits toy_lawful)|]. split.
  { exists tt. eexists. refine (C94_readers toy {| st_heap := heap0 toy tt; st_lists := [] |} _ _). repeat constructor. }
  split; [vm_compute; reflexivity|]. split; [vm_compute; reflexivity|]. split.
  { assert (E : exists s, nth_error (h_sl toy (st_heap toy st)) 0 = Some s /\ sl_ext s = [[2]]).
    { vm_compute. eexists. split; reflexivity. }
    destruct E as (s & E & Ex). exists s. split; [exact E|]. split; [|exact Ex]. split; [intros id p _ _ c X Z _ EZ; injection EZ as <-; reflexivity|]. split.
    - intros id i _ _ c X L n _ (bs & Eb & ->) En. injection En as <-. destruct bs as [|b [|b' bs]]; try discriminate Eb. cbn in Eb. injection Eb as <-. cbn.
      split; [reflexivity|]. intros Y [<-|[]]. now rewrite map_length.
    - intros id v _ _ c Y R _ ER. injection ER as <-. rewrite map_length. split; [reflexivity|]. intros r (r' & <- & _)%in_map_iff. reflexivity. }
  repeat split; vm_compute; reflexivity.
Qed.
End W.
