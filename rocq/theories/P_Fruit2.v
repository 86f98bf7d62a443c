(** C25: the columns of the feature matrix; C60: composition of transform. *)
From Coq Require Import Ascii String List Arith ZArith Bool RelationClasses Lia.
From Verif Require Import Num Arr M_Str M_Words M_Np M_Prep M_Fruit S_Fruit L_Arr L_Fruit L_Fruit2 L_Fruit3 L_Fruit4 L_Fruit6 L_Fruit7 L_Fruit8.
Import ListNotations.

(** ** The numbering of columns *)
Lemma prod_pos js ns : Forall2 lt js ns -> 0 < fold_right Nat.mul 1 ns.
Proof. induction 1 as [|j n js ns Hj F IH]; cbn; [lia|]. apply Nat.mul_pos_pos; lia. Qed.
Lemma radix_lt ns js : Forall2 lt js ns -> radix ns js < fold_right Nat.mul 1 ns.
Proof. induction 1 as [|j n js ns Hj F IH]; cbn; [lia|]. nia. Qed.
Lemma radix_ex ns k : k < fold_right Nat.mul 1 ns -> exists js, Forall2 lt js ns /\ radix ns js = k.
Proof.
  revert k. induction ns as [|n ns IH]; intros k Hk; cbn in Hk.
  - exists []. split; [constructor|]. cbn. lia.
  - set (P := fold_right Nat.mul 1 ns) in *. assert (P0 : P <> 0) by nia.
    destruct (IH (k mod P)) as (js & F & E); [now apply Nat.mod_upper_bound|].
    exists (k / P :: js). split; [constructor; [|exact F]; apply Nat.div_lt_upper_bound; lia|].
    cbn. fold P. rewrite E. rewrite (Nat.div_mod k P) at 3 by exact P0. lia.
Qed.
Lemma radix_inj ns js js' : Forall2 lt js ns -> Forall2 lt js' ns -> radix ns js = radix ns js' -> js = js'.
Proof.
  intros F. revert js'. induction F as [|j n js ns Hj F IH]; intros js' F' E; inversion F' as [|j' ? js'' ? Hj' F'']; subst; [reflexivity|].
  cbn in E. pose proof (radix_lt _ _ F). pose proof (radix_lt _ _ F''). set (P := fold_right Nat.mul 1 ns) in *.
  assert (j = j') by nia. subst j'. f_equal. apply IH; [exact F''|nia].
Qed.
Lemma offset_ex nfs q : q < list_sum nfs -> exists j r, j < length nfs /\ r < nth j nfs 0 /\ q = list_sum (firstn j nfs) + r.
Proof.
  revert q. induction nfs as [|n nfs IH]; intros q Hq; [cbn in Hq; lia|]. change (list_sum (n :: nfs)) with (n + list_sum nfs) in Hq.
  destruct (Nat.lt_ge_cases q n) as [L|L].
  - exists 0, q. cbn. repeat split; lia.
  - destruct (IH (q - n)) as (j & r & A & B & C); [lia|]. exists (S j), r. cbn [length nth firstn].
    change (list_sum (n :: firstn j nfs)) with (n + list_sum (firstn j nfs)). repeat split; lia.
Qed.
Lemma offset_lt nfs j r : r < nth j nfs 0 -> list_sum (firstn j nfs) + r < list_sum nfs.
Proof.
  revert j. induction nfs as [|n nfs IH]; intros [|j] Hr; cbn [nth] in Hr; try lia.
  - change (list_sum (n :: nfs)) with (n + list_sum nfs). cbn. lia.
  - cbn [firstn]. change (list_sum (n :: nfs)) with (n + list_sum nfs). change (list_sum (n :: firstn j nfs)) with (n + list_sum (firstn j nfs)).
    specialize (IH j Hr). lia.
Qed.
Lemma offset_inj nfs j r j' r' : r < nth j nfs 0 -> r' < nth j' nfs 0 ->
  list_sum (firstn j nfs) + r = list_sum (firstn j' nfs) + r' -> j = j' /\ r = r'.
Proof.
  revert j j'. induction nfs as [|n nfs IH]; intros j j' Hr Hr' E; [destruct j; cbn in Hr; lia|].
  destruct j as [|j], j' as [|j']; cbn [nth] in *; cbn [firstn] in E; change (list_sum []) with 0 in E;
    repeat change (list_sum (n :: firstn j nfs)) with (n + list_sum (firstn j nfs)) in E;
    repeat change (list_sum (n :: firstn j' nfs)) with (n + list_sum (firstn j' nfs)) in E.
  - split; [reflexivity|lia]. - exfalso. lia. - exfalso. lia.
  - destruct (IH j j') as (A & B); [assumption|assumption|lia|]. split; lia.
Qed.
(** C25: every column number below the number of iterated sums times the
    features per iterated sum belongs to exactly one (js, j, r): iterated sum
    js, sieve j, feature r of that sieve. *)
Theorem feature_numbers_unique ns nfs k : k < fold_right Nat.mul 1 ns * list_sum nfs ->
  exists js j r, (Forall2 lt js ns /\ r < nth j nfs 0 /\ k = radix ns js * list_sum nfs + list_sum (firstn j nfs) + r) /\
  forall js' j' r', Forall2 lt js' ns -> r' < nth j' nfs 0 -> k = radix ns js' * list_sum nfs + list_sum (firstn j' nfs) + r' ->
    js' = js /\ j' = j /\ r' = r.
Proof.
  intros Hk. set (t := list_sum nfs) in *. assert (t0 : t <> 0) by nia.
  destruct (radix_ex ns (k / t)) as (js & F & E); [apply Nat.div_lt_upper_bound; [exact t0|]; lia|].
  destruct (offset_ex nfs (k mod t)) as (j & r & A & B & C); [now apply Nat.mod_upper_bound|].
  exists js, j, r. pose proof (Nat.div_mod k t t0) as D. split.
  - split; [exact F|]. split; [exact B|]. rewrite E. lia.
  - intros js' j' r' F' B' E'. pose proof (offset_lt nfs j' r' B') as L'. fold t in L'. pose proof (offset_lt nfs j r B) as L. fold t in L.
    assert (Er : radix ns js' = radix ns js) by nia.
    split; [eapply radix_inj; eassumption|]. apply (offset_inj nfs); [assumption|assumption|nia].
Qed.
Theorem feature_numbers_bound ns nfs js j r : Forall2 lt js ns -> r < nth j nfs 0 ->
  radix ns js * list_sum nfs + list_sum (firstn j nfs) + r < fold_right Nat.mul 1 ns * list_sum nfs.
Proof. intros F Hr. pose proof (radix_lt _ _ F). pose proof (offset_lt nfs j r Hr). nia. Qed.

Section C25.
Context {T : Type} `{Num T}.
Variable K : kit T.
Variable W : lawful K.

Lemma objs_sig h row ids os os' : objs (h_s K h) row os -> objs (h_s K h) ids os' -> rowok K h ids row -> map (ssig K) os = map (ssig K) os'.
Proof.
  intros A B (_ & E). unfold nf_at in E.
  assert (G : forall ids os, objs (h_s K h) ids os -> map (fun id => option_map (ssig K) (nth_error (h_s K h) id)) ids = map Some (map (ssig K) os)).
  { clear. intros ids os F. induction F as [|id o ids os E F IH]; [reflexivity|]. cbn. rewrite E, IH. reflexivity. }
  rewrite (G _ _ A), (G _ _ B) in E. revert E. generalize (map (ssig K) os) (map (ssig K) os'). clear.
  induction l as [|x l IH]; intros [|y l'] E; try discriminate; [reflexivity|]. cbn in E. injection E as -> E. f_equal. auto.
Qed.
Lemma sig_nf (l l' : list (sieveT K)) : map (ssig K) l = map (ssig K) l' -> map (s_nf K) l = map (s_nf K) l'.
Proof. intros E. apply (f_equal (map fst)) in E. now rewrite !map_map in E. Qed.
Lemma Forall2_nth_r {A B} (R : A -> B -> Prop) l1 l2 j y : Forall2 R l1 l2 -> nth_error l2 j = Some y -> exists x, nth_error l1 j = Some x /\ R x y.
Proof. apply Forall2_nth_error_r. Qed.
Lemma wf_getter h sl s svs ext : wf K h -> nth_error (h_sl K h) sl = Some s -> sl_fitted s = true ->
  objs (h_s K h) (sl_s s) svs -> Forall2 (objs (h_s K h)) (sl_ext s) ext ->
  forall k l, getter K svs ext k = Ok l -> objs (h_s K h) (sieves_for s k) l /\ map (ssig K) l = map (ssig K) svs.
Proof.
  intros (Ws & _) Es Fs Os Oe k l E. destruct (Ws sl s Es) as (_ & _ & R). destruct (R Fs) as (_ & _ & R'). clear R.
  unfold getter in E. unfold sieves_for. destruct ext as [|e0 ext]; inversion Oe as [|r0 ? rows ? H0 H1]; subst.
  - injection E as <-. split; [exact Os|reflexivity].
  - destruct (nth_error (e0 :: ext) k) as [l'|] eqn:En; [|discriminate]. injection E as ->.
    assert (Oe' : Forall2 (objs (h_s K h)) (r0 :: rows) (e0 :: ext)) by (constructor; assumption).
    destruct (Forall2_nth_error_r _ _ _ _ _ Oe' En) as (row & Er & Or).
    rewrite (nth_error_nth _ _ _ Er). split; [exact Or|].
    eapply objs_sig; [exact Or|exact Os|]. apply R'. rewrite <- H2. eapply nth_error_In, Er.
Qed.
Lemma good_getter h sl s svs ext : wf K h -> nth_error (h_sl K h) sl = Some s -> sl_fitted s = true -> shaped K h s ->
  objs (h_s K h) (sl_s s) svs -> Forall2 (objs (h_s K h)) (sl_ext s) ext -> good_get K svs ext.
Proof.
  intros Wf Es Fs (_ & _ & Sh) Os Oe k l E. destruct (wf_getter h sl s svs ext Wf Es Fs Os Oe k l E) as (Ol & Esig). split; [|now apply sig_nf].
  intros v Hv. destruct (objs_in_r _ _ _ _ Ol Hv) as (id & Hid & Hn). apply (Sh id v); [|exact Hn].
  unfold sieves_for in Hid. destruct (sl_ext s) as [|r0 rows] eqn:Ee; [now left|]. right.
  destruct (nth_in_or_default k (r0 :: rows) []) as [I1|I1]; [|rewrite I1 in Hid; destruct Hid].
  apply in_concat. eauto.
Qed.
Lemma shaped_iss h s is : shaped K h s -> objs (h_i K h) (sl_i s) is -> forall i, In i is -> iss_exact K i.
Proof. intros (_ & Sh & _) O i Hi. destruct (objs_in_r _ _ _ _ O Hi) as (id & Hid & Hn). eauto. Qed.
Lemma shaped_prep h s ps : shaped K h s -> objs (h_p K h) (sl_p s) ps -> forall p, In p ps -> prep_rows K p.
Proof. intros (Sh & _) O i Hi. destruct (objs_in_r _ _ _ _ O Hi) as (id & Hid & Hn). eauto. Qed.
Lemma stages_prepared c ps X Zs : stages K c ps X Zs -> prepared K c ps X (last Zs X).
Proof.
  revert X Zs. induction ps as [|p ps IH]; intros X [|Z Zs] St; cbn in St; try contradiction; [reflexivity|].
  destruct St as (E1 & St). rewrite last_cons'. exists Z. split; [exact E1|]. now apply IH.
Qed.
Lemma outs_nth c Y svs Rs j v : outs K c Y svs = Ok Rs -> nth_error svs j = Some v ->
  exists R, nth_error Rs j = Some R /\ fst (s_transform K Y (s_attach K c v)) = Ok R.
Proof.
  unfold outs. revert Rs j. induction svs as [|s svs IH]; intros Rs j E Ej; [destruct j; discriminate|]. cbn [mapM] in E.
  destruct (fst (s_transform K Y (s_attach K c s))) as [R|e] eqn:Es; [|discriminate]. cbn [bind] in E.
  destruct (mapM _ svs) as [Rs'|e] eqn:Em; [|discriminate]. cbn [bind] in E. injection E as <-. destruct j as [|j].
  - injection Ej as <-. exists R. split; [reflexivity|exact Es].
  - apply (IH Rs' j eq_refl Ej).
Qed.

(** ** C25: every column of a slice *)
(** For every history [h], a slice that [transform]s without an exception
    returns a matrix with exactly [nfeatures()] columns; column number
    radix js * tot + (features of sieves before j) + r is feature r of the j-th
    sieve used for iterated sum js. *)
Theorem slice_features h sl s X cbs cache A h' ps is svs :
  reachable K h -> nth_error (h_sl K h) sl = Some s -> shaped K h s -> cache_rows cache X ->
  objs (h_p K h) (sl_p s) ps -> objs (h_i K h) (sl_i s) is -> objs (h_s K h) (sl_s s) svs ->
  slice_transform K sl X cbs cache h = (Ok A, h') ->
  let c := match cache with Some c => c | None => X end in
  let nfs := map (s_nf K) svs in
  exists Y ns, prepared K c ps X Y /\ Forall2 (fun i n => i_n K i = Ok n) is ns /\
    slice_nfeatures K sl h = (Ok (fold_right Nat.mul 1 ns * list_sum nfs), h) /\
    length A = length X /\ (forall row, In row A -> length row = fold_right Nat.mul 1 ns * list_sum nfs) /\
    forall js, Forall2 lt js ns -> exists Z svk, itsum K (map (i_attach K c) is) js Y Z /\
      objs (h_s K h) (sieves_for s (radix ns js)) svk /\ map (s_nf K) svk = nfs /\ map (s_label K) svk = map (s_label K) svs /\
      forall j v r, nth_error svk j = Some v -> r < s_nf K v ->
      exists R, fst (s_transform K Z (s_attach K c v)) = Ok R /\
        column A (radix ns js * list_sum nfs + list_sum (firstn j nfs) + r) = column R r.
Proof.
  intros Re Es Sh Cf Op Oi Os E c nfs. assert (Lc : length c = length X) by (destruct cache; [exact Cf|reflexivity]). pose proof (reachable_wf K W h Re) as Wf.
  destruct (sees_exists K W h sl s Wf Es) as (v & V & Vp & Vi & Vs & Ve & Vf).
  assert (U : forall A (l : list A) ids o1 o2, objs l ids o1 -> objs l ids o2 -> o1 = o2).
  { clear. intros A l ids o1 o2 F. revert o2. induction F as [|id o ids os E F IH]; intros o2 F2; inversion F2; subst; [reflexivity|]. f_equal; [congruence|auto]. }
  assert (v_p K v = ps) as Ep by (eapply U; eassumption). assert (v_i K v = is) as Ei by (eapply U; eassumption). assert (v_s K v = svs) as Esv by (eapply U; eassumption).
  assert (Fs : sl_fitted s = true).
  { unfold slice_transform in E. rewrite (bind_ok K _ _ h s h) in E by (unfold look; now rewrite Es). destruct (sl_fitted s); [reflexivity|discriminate]. }
  pose proof (transform_view K W h sl v X cbs cache V) as Ev. fold c in Ev. unfold ev_view in Ev. rewrite Vf, Fs, Ep, Ei, Esv in Ev.
  pose proof (good_getter h sl s svs (v_e K v) Wf Es Fs Sh Os Ve) as GG. pose proof (shaped_prep h s ps Sh Op) as Pr.
  pose proof (shaped_iss h s is Sh Oi) as Ex.
  destruct (ev_slice K c X ps is svs (v_e K v)) as [[A0 evs]|e] eqn:Esl; cbn in Ev.
  2:{ destruct Ev as (h2 & E2). rewrite E in E2. discriminate. }
  destruct Ev as (h2 & E2 & _). rewrite E in E2. injection E2 as <- <-.
  apply (ev_slice_ok K W c X ps is svs (v_e K v) A evs Lc Pr Ex GG) in Esl as (Zs & ns & Ys & Rss & St & Fn & EY & Ea & EA & _).
  set (Y := last Zs X) in *.
  assert (LX : length Y = length X) by (apply (stages_rows K c ps); assumption).
  destruct (iterate_iss_spec K W c is ns Fn Ex Y Ys (eq_trans LX (eq_sym Lc)) EY) as (LY & FY & IY).
  destruct (all_outs_shape K c _ 0 Ys Rss (length Y) (eq_trans Lc (eq_sym LX)) FY Ea nfs GG) as (LR & SR & LRs).
  pose proof (hfold_shape _ _ _ _ _ (shape_zero (length Y)) SR) as SA. rewrite <- EA in SA.
  assert (LS : list_sum (concat (repeat nfs (length Ys))) = fold_right Nat.mul 1 ns * list_sum nfs).
  { rewrite <- LY. clear. induction (length Ys) as [|n IH]; [reflexivity|]. cbn [repeat concat]. rewrite list_sum_app, IH. cbn. lia. }
  exists Y, ns. split; [now apply stages_prepared|]. split; [exact Fn|]. split.
  { rewrite (nfeatures_view K W h sl v V). unfold v_nf. rewrite Ei, Esv. apply ev_ns_ok in Fn. rewrite Fn. cbn. unfold nsieves. fold nfs. do 2 f_equal. lia. }
  destruct SA as (SA1 & SA2). split; [congruence|]. split; [intros row Hrow; rewrite (SA2 row Hrow); cbn; exact LS|].
  intros js Fj. destruct (IY js Fj) as (Z & EZ & IZ).
  destruct (all_outs_nth K c _ 0 Ys Rss _ Z Ea EZ) as (svk & Rs & Eg & Eo & ERs). cbn [Nat.add] in Eg.
  destruct (wf_getter h sl s svs (v_e K v) Wf Es Fs Os Ve _ svk Eg) as (Ok & Esig).
  exists Z, svk. split; [exact IZ|]. split; [exact Ok|]. split; [now apply sig_nf|].
  split. { apply (f_equal (map snd)) in Esig. now rewrite !map_map in Esig. }
  intros j v0 r Ej Hr. destruct (outs_nth c Z svk Rs j v0 Eo Ej) as (R & ER & Et). exists R. split; [exact Et|].
  pose proof (sig_nf _ _ Esig) as Enf. fold nfs in Enf.
  assert (Lj : j < length nfs) by (rewrite <- Enf, map_length; apply nth_error_Some; congruence).
  assert (Enj : nth_error nfs j = Some (s_nf K v0)) by (rewrite <- Enf; now apply map_nth_error).
  assert (Lk : radix ns js < length Ys) by (apply nth_error_Some; congruence).
  pose proof (column_hfold (length Y) 0 (repeat [] (length Y)) (concat Rss) (concat (repeat nfs (length Ys))) (radix ns js * length nfs + j) R (s_nf K v0) r (shape_zero _) SR) as CC.
  rewrite (concat_nth Rss (length nfs) (radix ns js) j Rs LRs ERs Lj), concat_repeat_nth in CC by assumption.
  rewrite list_sum_firstn_repeat in CC by lia. rewrite EA. apply CC; assumption.
Qed.

(** ** C25: a fruit's result consists of the results of its slices *)
Lemma view_shape h sl s v X c B evs : length c = length X -> wf K h -> nth_error (h_sl K h) sl = Some s -> shaped K h s ->
  objs (h_p K h) (sl_p s) (v_p K v) -> objs (h_i K h) (sl_i s) (v_i K v) -> objs (h_s K h) (sl_s s) (v_s K v) ->
  Forall2 (objs (h_s K h)) (sl_ext s) (v_e K v) -> v_fit K v = sl_fitted s ->
  ev_view K c X v = Ok (B, evs) -> exists w, v_nf K v = Ok w /\ shape (length X) w B.
Proof.
  intros Lc Wf Es Sh Op Oi Os Oe Vf E. unfold ev_view in E. rewrite Vf in E. destruct (sl_fitted s) eqn:Fs; [|discriminate].
  pose proof (good_getter h sl s _ _ Wf Es Fs Sh Os Oe) as GG. pose proof (shaped_iss h s _ Sh Oi) as Ex. pose proof (shaped_prep h s _ Sh Op) as Pr.
  apply (ev_slice_ok K W c X _ _ _ _ B evs Lc Pr Ex GG) in E as (Zs & ns & Ys & Rss & St & Fn & EY & Ea & EA & _).
  pose proof (stages_rows K c _ X Zs Lc Pr St) as LX.
  destruct (iterate_iss_spec K W c _ ns Fn Ex _ Ys (eq_trans LX (eq_sym Lc)) EY) as (LY & FY & IY).
  destruct (all_outs_shape K c _ 0 Ys Rss _ (eq_trans Lc (eq_sym LX)) FY Ea _ GG) as (LR & SR & LRs).
  pose proof (hfold_shape _ _ _ _ _ (shape_zero _) SR) as SA. rewrite <- EA in SA. cbn [Nat.add] in SA.
  exists (nsieves K (v_s K v) * fold_right Nat.mul 1 ns). split; [unfold v_nf; apply ev_ns_ok in Fn; now rewrite Fn|].
  rewrite LX in SA.
  replace (nsieves K (v_s K v) * fold_right Nat.mul 1 ns) with (list_sum (concat (repeat (map (s_nf K) (v_s K v)) (length Ys)))); [exact SA|].
  rewrite <- LY. unfold nsieves. clear. induction (length Ys) as [|n IH]; [cbn; lia|]. cbn [repeat concat]. rewrite list_sum_app, IH. lia.
Qed.
(** The views of the slices of a fruit. *)
Definition good_view (h : heap K) (X c : dataset T) (sl : nat) (v : sview K) : Prop :=
  sees K W h sl v /\ forall B evs, ev_view K c X v = Ok (B, evs) -> exists w, v_nf K v = Ok w /\ shape (length X) w B.
Lemma good_views h X c ids : length c = length X -> wf K h -> (forall sl, In sl ids -> sl < length (h_sl K h)) ->
  (forall sl s, In sl ids -> nth_error (h_sl K h) sl = Some s -> shaped K h s) -> exists vs, Forall2 (good_view h X c) ids vs.
Proof.
  intros Lc Wf. induction ids as [|sl ids IH]; intros V Sh; [exists []; constructor|].
  destruct IH as (vs & F); [intros; apply V; now right|intros; eapply Sh; [right|]; eassumption|].
  destruct (nth_error (h_sl K h) sl) as [s|] eqn:Es; [|apply nth_error_None in Es; specialize (V sl (or_introl eq_refl)); lia].
  destruct (sees_exists K W h sl s Wf Es) as (v & Vv & Vp & Vi & Vs & Ve & Vf).
  exists (v :: vs). constructor; [|exact F]. split; [exact Vv|]. intros B evs E. eapply (view_shape h sl s v); try eassumption. eapply Sh; [now left|exact Es].
Qed.
Lemma ev_slices_ok h X c ids vs ws k P N A evs : Forall2 (good_view h X c) ids vs -> shape (length X) k P ->
  Forall2 (fun v w => v_nf K v = Ok w) vs ws -> k + list_sum ws <= N ->
  ev_slices K c X vs k (padded N P) = Ok (A, evs) ->
  exists Bs es, Forall2 (fun v be => ev_view K c X v = Ok be) vs (combine Bs es) /\ length Bs = length vs /\ length es = length vs /\
    Forall2 (shape (length X)) ws Bs /\ A = padded N (hfold P Bs) /\ evs = flat_map (fun e => ENextSlice :: e) es.
Proof.
  intros F. revert ws k P A evs. induction F as [|sl v ids vs (V & Sv) F IH]; intros ws k P A evs SP Fw LN E; cbn [ev_slices] in E.
  - inversion Fw; subst. injection E as <- <-. exists [], []. repeat split; constructor.
  - inversion Fw as [|? w ? ws' Ew Fw']; subst. rewrite Ew in E. destruct (ev_view K c X v) as [[B e1]|e] eqn:Ev; [|discriminate].
    destruct (Sv B e1 eq_refl) as (w' & Ew' & SB). assert (w' = w) by congruence. subst w'.
    change (list_sum (w :: ws')) with (w + list_sum ws') in LN.
    rewrite (set_cols_pad (length X)) in E by (assumption || lia).
    destruct (ev_slices K c X vs (k + w) (padded N (happ P B))) as [[B' e2]|e] eqn:Er; [|discriminate]. injection E as <- <-.
    destruct (IH ws' (k + w) (happ P B) B' e2 (happ_shape _ _ _ _ _ SP SB) Fw' ltac:(lia) Er) as (Bs & es & A1 & A2 & A3 & A4 & A5 & A6).
    exists (B :: Bs), (e1 :: es). cbn [combine length flat_map]. split; [constructor; assumption|]. split; [congruence|]. split; [congruence|].
    split; [constructor; assumption|]. split; [exact A5|]. now rewrite A6.
Qed.
Lemma mapM_Forall2 {A B} (f : A -> res B) l r : mapM f l = Ok r <-> Forall2 (fun a b => f a = Ok b) l r.
Proof.
  revert r. induction l as [|a l IH]; intros r; cbn [mapM].
  - split; [intros E; injection E as <-; constructor|inversion 1; reflexivity].
  - split.
    + destruct (f a) as [b|e] eqn:Ea; [|discriminate]. cbn. destruct (mapM f l) as [bs|e]; [|discriminate]. intros E. injection E as <-. constructor; [exact Ea|]. now apply IH.
    + inversion 1 as [|? b ? bs Eb F]; subst. rewrite Eb. cbn. apply IH in F. now rewrite F.
Qed.
Lemma Forall2_comp {A B C} (R : A -> B -> Prop) (Q : B -> C -> Prop) (P : A -> C -> Prop) l1 l2 l3 :
  (forall a b c, R a b -> Q b c -> P a c) -> Forall2 R l1 l2 -> Forall2 Q l2 l3 -> Forall2 P l1 l3.
Proof.
  intros E F. revert l3. induction F as [|a b l1 l2 Hab F IH]; intros l3 G; inversion G; subst; constructor; eauto.
Qed.
Lemma Forall2_combine {A B C} (R : A -> B * C -> Prop) l Bs es : length Bs = length l -> length es = length l -> Forall2 R l (combine Bs es) ->
  Forall2 (fun a b => exists e, R a (b, e)) l Bs.
Proof.
  revert Bs es. induction l as [|a l IH]; intros [|b Bs] [|e es] L1 L2 F; cbn in *; try discriminate; [constructor|].
  inversion F; subst. constructor; [eauto|]. eapply IH; [| |eassumption]; congruence.
Qed.
Lemma evals_fst {A} cbs (m : M K A) h a evs : evals K W cbs m h (Ok (a, evs)) -> fst (m h) = Ok a.
Proof. intros (h' & -> & _). reflexivity. Qed.
Lemma evals_inv {A} cbs (m : M K A) h r a h' : evals K W cbs m h r -> m h = (Ok a, h') -> exists evs, r = Ok (a, evs) /\ after K W cbs evs h h'.
Proof.
  destruct r as [[b evs]|e]; cbn; intros E E'.
  - destruct E as (h2 & E2 & A2). rewrite E' in E2. injection E2 as <- <-. eauto.
  - destruct E as (h2 & E2). rewrite E' in E2. discriminate.
Qed.
Lemma column_nan A q : (forall row, In row A -> q < length row) -> column (nan_to_num A) q = map nfin (column A q).
Proof.
  intros Hl. unfold column, nan_to_num. rewrite !map_map. apply map_ext_in. intros row Hr.
  rewrite (nth_indep _ nzero (nfin nzero)) by (rewrite map_length; now apply Hl). apply map_nth.
Qed.
Lemma firstn_sum_lt ws : forall k w q, nth_error ws k = Some w -> q < w -> list_sum (firstn k ws) + q < list_sum ws.
Proof.
  induction ws as [|a ws IH]; intros [|k] w q E Hq; try discriminate.
  - injection E as ->. unfold list_sum. cbn [firstn fold_right]. lia.
  - specialize (IH k w q E Hq). unfold list_sum in *. cbn [firstn fold_right] in *. lia.
Qed.
(** [transform] of the fruit replaces NaN and infinities ([nfin]). *)
Theorem fruit_features h f x X cbs cache A h' :
  reachable K h -> nth_error (h_fr K h) f = Some x ->
  (forall sl s, In sl (f_slices x) -> nth_error (h_sl K h) sl = Some s -> shaped K h s) -> cache_rows cache X ->
  fruit_transform K f X cbs cache h = (Ok A, h') ->
  let c := match cache with Some c => c | None => X end in
  exists Bs ws,
    Forall2 (fun sl B => fst (slice_transform K sl X cbs (Some c) h) = Ok B) (f_slices x) Bs /\
    Forall2 (fun sl w => slice_nfeatures K sl h = (Ok w, h)) (f_slices x) ws /\
    fruit_nfeatures K f h = (Ok (list_sum ws), h) /\
    length A = length X /\ (forall row, In row A -> length row = list_sum ws) /\
    forall k B w q, nth_error Bs k = Some B -> nth_error ws k = Some w -> q < w ->
      column A (list_sum (firstn k ws) + q) = map nfin (column B q).
Proof.
  intros Re Ex Sh Cf E c. assert (Lc : length c = length X) by (destruct cache; [exact Cf|reflexivity]). pose proof (reachable_wf K W h Re) as Wf.
  destruct (good_views h X c (f_slices x) Lc Wf (proj1 (proj2 Wf f x Ex)) Sh) as (vs & GV).
  assert (V : Forall2 (sees K W h) (f_slices x) vs) by (eapply Forall2_impl; [|exact GV]; intros ? ? (Q & _); exact Q).
  assert (Fx : f_fitted x = true).
  { unfold fruit_transform in E. rewrite (bind_ok K _ _ h x h) in E by (unfold look; now rewrite Ex). destruct (f_fitted x); [reflexivity|discriminate]. }
  pose proof (fruit_transform_evals K W h f x vs X cbs cache Ex Fx V) as Ev. fold c in Ev.
  destruct (evals_inv _ _ _ _ _ _ Ev E) as (evs & Er & _). unfold ev_fruit in Er.
  destruct (mapM (v_nf K) vs) as [ws|e] eqn:Em; [|discriminate]. pose proof Em as Fw. apply mapM_Forall2 in Fw. rewrite padded_zero in Er.
  destruct (ev_slices K c X vs 0 _) as [[A0 e0]|e] eqn:Er0; [|discriminate]. injection Er as <- ->.
  destruct (ev_slices_ok h X c _ vs ws 0 _ _ A0 evs GV (shape_zero _) Fw (le_n _) Er0) as (Bs & es & A1 & A2 & A3 & A4 & A5 & _).
  pose proof (hfold_shape _ _ _ _ _ (shape_zero (length X)) A4) as SA. cbn [Nat.add] in SA.
  rewrite (padded_full _ _ _ SA) in A5. rewrite <- A5 in SA.
  exists Bs, ws. split; [|split; [|split; [|split; [|split]]]].
  - apply Forall2_combine in A1; [|exact A2|exact A3]. eapply Forall2_comp; [|exact V|exact A1].
    intros sl v B Vs (e & Ee). pose proof (transform_view K W h sl v X cbs (Some c) Vs) as Et. cbn iota in Et. rewrite Ee in Et. eapply evals_fst, Et.
  - eapply Forall2_comp; [|exact V|exact Fw]. intros sl v w Vs Ew. now rewrite (nfeatures_view K W h sl v Vs), Ew.
  - rewrite (fruit_nfeatures_view K W h f x vs Ex V), Em. reflexivity.
  - unfold nan_to_num. rewrite map_length. apply SA.
  - intros row Hr. unfold nan_to_num in Hr. apply in_map_iff in Hr as (r0 & <- & Hr). rewrite map_length. now apply SA.
  - intros k B w q EB Ew Hq. transitivity (map nfin (column A0 (list_sum (firstn k ws) + q))).
    { apply column_nan. intros row Hr. rewrite (proj2 SA row Hr). pose proof (firstn_sum_lt ws k w q Ew Hq). lia. }
    f_equal. rewrite A5. exact (column_hfold (length X) 0 _ Bs ws k B w q (shape_zero _) A4 EB Ew Hq).
Qed.
End C25.
Print Assumptions feature_numbers_unique.
Print Assumptions feature_numbers_bound.
Print Assumptions slice_features.
Print Assumptions fruit_features.
