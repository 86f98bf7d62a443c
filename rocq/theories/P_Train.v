(** C79: what a fit trains on. *)
From Coq Require Import Ascii String List Arith ZArith Bool RelationClasses Lia.
From Verif Require Import Num Arr M_Str M_Words M_Np M_Prep M_Fruit S_Fruit S_Train L_Arr L_Fruit L_Fruit2 L_Fruit3 L_Fruit4 L_Fruit5 L_Fruit6 L_Fruit7 L_Fruit8 L_Fruit10 L_Fruit11 P_Fruit2 P_Fruit3
  M_Semiring M_ISS M_Cache M_Sieve M_PrepObj M_Cos M_Seeds L_Seeds L_Seeds2 L_Seeds3 P_Seeds.
Import ListNotations.

Section C79.
Context {T : Type} `{Num T}.
Variable K : kit T.
Variable W : lawful K.
Notation heap := (heap K).

Lemma objs_fun {A} (l : list A) ids o1 o2 : objs l ids o1 -> objs l ids o2 -> o1 = o2.
Proof. intros F. revert o2. induction F as [|id o ids os E F IH]; intros o2 F2; inversion F2; subst; [reflexivity|]. f_equal; [congruence|auto]. Qed.
Lemma objs_upd {A} (l : list A) id x ids os : ~ In id ids -> objs l ids os -> objs (upd id x l) ids os.
Proof.
  intros Ni F. induction F as [|j o ids os E F IH]; constructor.
  - rewrite upd_nth_error_neq; [exact E|]. intros ->. apply Ni. now left.
  - apply IH. intros Hi. apply Ni. now right.
Qed.
Lemma objs_same {A} (l l' : list A) ids os : (forall id, In id ids -> nth_error l' id = nth_error l id) -> objs l ids os -> objs l' ids os.
Proof. intros Ha F. induction F as [|j o ids os E F IH]; constructor; [rewrite Ha by (now left); exact E|apply IH; intros; apply Ha; now right]. Qed.

Lemma sample_ok size n h idx h' : select_sample K size n h = (Ok idx, h') ->
  drawn K n (h_g K h) size idx (h_g K h') /\ h_p K h' = h_p K h /\ h_i K h' = h_i K h.
Proof.
  unfold select_sample, bindM, get_g, set_g, ret, raise. destruct size as [|f].
  - destruct (Nat.eqb_spec n 0); [discriminate|]. destruct (k_randint K (h_g K h) n) as [i g'] eqn:E. intros Eq. injection Eq as <- <-.
    cbn. repeat split. constructor; [lia|exact E].
  - destruct (Nat.ltb_spec n (Nat.max (f n) 1)); [discriminate|]. destruct (k_choice K (h_g K h) n _) as [i g'] eqn:E. intros Eq. injection Eq as <- <-.
    cbn. repeat split. constructor; [lia|exact E].
Qed.
Lemma fit_preps_ok c ids : forall Y h Z h' ps, NoDup ids -> objs (h_p K h) ids ps -> fit_preps K c ids Y h = (Ok Z, h') ->
  exists ps', trained_preps K c (h_g K h) ps Y ps' Z (h_g K h') /\ objs (h_p K h') ids ps' /\ h_i K h' = h_i K h /\
    forall id, ~ In id ids -> nth_error (h_p K h') id = nth_error (h_p K h) id.
Proof.
  induction ids as [|id ids IH]; intros Y h Z h' ps Nd O E; cbn [fit_preps] in E.
  - injection E as <- <-. inversion O; subst. exists []. repeat split; constructor.
  - inversion O as [|? p ? ps0 Ep O0]; subst. inversion Nd as [|? ? Ni Nd0]; subst.
    rewrite (bind_ok K _ _ h p h) in E by (unfold look; now rewrite Ep). rewrite (bind_ok K _ _ h (h_g K h) h) in E by reflexivity.
    destruct (p_fit K (h_g K h) Y (p_attach K c p)) as [[x p1] g1] eqn:Ef.
    apply bind_inv in E as ([] & h1 & E1 & E). injection E1 as <-. apply bind_inv in E as ([] & h2 & E2 & E). injection E2 as <-.
    apply bind_inv in E as ([] & h3 & E3 & E). injection E3 as -> <-.
    destruct (p_transform K Y p1) as [y p2] eqn:Et.
    apply bind_inv in E as ([] & h4 & E4 & E). injection E4 as <-. apply bind_inv in E as (Y1 & h5 & E5 & E). injection E5 as -> <-.
    assert (L : id < length (h_p K h)) by (now apply nth_lt in Ep).
    apply (IH Y1 _ Z h' ps0 Nd0) in E as (ps' & T1 & O1 & I1 & F1).
    2:{ cbn. now apply objs_upd, objs_upd. }
    cbn in T1, I1, F1. exists (p2 :: ps'). split; [econstructor; eassumption|]. split; [|split; [exact I1|]].
    + constructor; [|exact O1]. rewrite F1 by exact Ni. apply upd_nth_error_eq. now rewrite upd_length.
    + intros j Hj. rewrite F1 by (intros Hi; apply Hj; now right). assert (id <> j) by (intros ->; apply Hj; now left). now rewrite !upd_nth_error_neq.
Qed.
Lemma fit_isss_ok c Y ids : forall h h' is, NoDup ids -> objs (h_i K h) ids is -> forM K ids (fit_iss K c Y) h = (Ok tt, h') ->
  exists is', trained_iss K c Y (h_g K h) is is' (h_g K h') /\ objs (h_i K h') ids is' /\ h_p K h' = h_p K h /\
    forall id, ~ In id ids -> nth_error (h_i K h') id = nth_error (h_i K h) id.
Proof.
  induction ids as [|id ids IH]; intros h h' is Nd O E; cbn [forM] in E.
  - injection E as <-. inversion O; subst. exists []. repeat split; constructor.
  - inversion O as [|? i ? is0 Ei O0]; subst. inversion Nd as [|? ? Ni Nd0]; subst.
    apply bind_inv in E as ([] & h1 & E1 & E). unfold fit_iss in E1.
    rewrite (bind_ok K _ _ h i h) in E1 by (unfold look; now rewrite Ei). rewrite (bind_ok K _ _ h (h_g K h) h) in E1 by reflexivity. cbn zeta in E1.
    assert (L : id < length (h_i K h)) by (now apply nth_lt in Ei).
    assert (A : exists i' g1, h_g K h1 = g1 /\ h_p K h1 = h_p K h /\ h_i K h1 = upd id i' (h_i K h) /\
      ((i_requires K (i_attach K c i) = true /\ i_fit K (h_g K h) Y (i_attach K c i) = (Ok tt, i', g1)) \/
       (i_requires K (i_attach K c i) = false /\ i' = i_attach K c i /\ g1 = h_g K h))).
    { destruct (i_requires K (i_attach K c i)).
      - destruct (i_fit K (h_g K h) Y (i_attach K c i)) as [[x i1] g1].
        apply bind_inv in E1 as ([] & h2 & E2 & E1). injection E2 as <-. apply bind_inv in E1 as ([] & h3 & E3 & E1). injection E3 as <-.
        injection E1 as -> <-. exists i1, g1. cbn. repeat split. now left.
      - injection E1 as <-. eexists _, _. cbn. repeat split. now right. }
    destruct A as (i' & g1 & Eg & Ep & Eh & A).
    apply (IH h1 h' is0 Nd0) in E as (is' & T1 & O1 & I1 & F1).
    2:{ rewrite Eh. now apply objs_upd. }
    rewrite Eg in T1. exists (i' :: is'). split; [|split; [|split; [congruence|]]].
    + destruct A as [(R & Ef)|(R & -> & ->)]; [eapply ti_fit; eassumption|now apply ti_skip].
    + constructor; [|exact O1]. rewrite F1 by exact Ni. rewrite Eh. now apply upd_nth_error_eq.
    + intros j Hj. rewrite F1 by (intros Hi; apply Hj; now right). rewrite Eh. apply upd_nth_error_neq. intros ->. apply Hj. now left.
Qed.
Lemma fit_all_trained c Z g cs fs g' svs : Forall2 (fun s s' => s_copy K s = Ok s') svs cs -> fit_all K c Z g cs fs g' ->
  trained_copies K c Z g svs fs g'.
Proof.
  intros F A. revert svs F. induction A as [g|g s s' g1 l l' g2 E A IH]; intros svs F; inversion F; subst; [constructor|].
  econstructor; eauto.
Qed.
Lemma fit_ext_trains c sl sieves its h h' s svs :
  objs (h_s K h) sieves svs -> nth_error (h_sl K h) sl = Some s ->
  fit_ext K c sl sieves its h = (Ok tt, h') ->
  exists Ys fss, its = map Ok Ys /\ h_p K h' = h_p K h /\ h_i K h' = h_i K h /\ h_s K h' = h_s K h ++ concat fss /\
    trained_sieves K c svs (h_g K h) Ys fss (h_g K h') /\
    nth_error (h_sl K h') sl = Some (with_ext (sl_ext s ++ map (fun k => seq (length (h_s K h) + k * length sieves) (length sieves)) (seq 0 (length Ys))) s).
Proof.
  revert h s. induction its as [|[Y|e] its IH]; intros h s O Es E; cbn [fit_ext] in E; [| |discriminate].
  - injection E as <-. exists [], []. cbn. rewrite !app_nil_r. destruct s. repeat split; auto. constructor.
  - apply bind_inv in E as (ids & h1 & Ec & E). apply bind_inv in E as ([] & h2 & Ef & E). apply bind_inv in E as ([] & h3 & Eu & E).
    destruct (collect_copy_ok K sieves h ids h1) as (Eids & svs' & copies & O' & Fc & Eh1).
    { intros id Hid. destruct (objs_in _ _ _ _ O Hid) as (o & _ & En). apply nth_error_Some. congruence. }
    { exact Ec. }
    assert (svs' = svs) by (eapply objs_fun; eassumption). subst svs'.
    assert (L : length copies = length sieves) by (rewrite <- (Forall2_len _ _ _ Fc); now apply objs_len in O).
    rewrite Eids in Ef. destruct (forM_fit_ok K c Y (length sieves) h1 (h_s K h) copies h2) as (fs & g' & Fa & Eh2); [now rewrite Eh1|exact L|exact Ef|].
    assert (Es2 : nth_error (h_sl K h2) sl = Some s) by (rewrite Eh2, Eh1; exact Es).
    rewrite (upd_sl_ok K h2 sl _ s Es2) in Eu. injection Eu as Eu.
    assert (Lf : length fs = length sieves). { rewrite <- L. clear - Fa. induction Fa; cbn; congruence. }
    assert (Es3 : nth_error (h_sl K h3) sl = Some (with_ext (sl_ext s ++ [ids]) s)).
    { subst h3. rewrite put_nth by (now apply nth_lt in Es2). now rewrite Nat.eqb_refl. }
    assert (Hs3 : h_s K h3 = h_s K h ++ fs) by (subst h3 h2; reflexivity).
    destruct (IH h3 _ ltac:(rewrite Hs3; now apply objs_app) Es3 E) as (Ys & fss & A1 & A0 & A2 & A3 & A4 & A5).
    assert (Hg3 : h_g K h3 = g') by (subst h3 h2; reflexivity). assert (Hg1 : h_g K h1 = h_g K h) by (subst h1; reflexivity).
    exists (Y :: Ys), (fs :: fss). split; [now rewrite A1|]. split; [rewrite A0; subst h3 h2 h1; reflexivity|]. split; [rewrite A2; subst h3 h2 h1; reflexivity|].
    split; [rewrite A3, Hs3; cbn; now rewrite <- app_assoc|].
    split. { apply (ts_cons K c svs _ Y fs (h_g K h3)); [|exact A4]. rewrite Hg3, <- Hg1. eapply fit_all_trained; eassumption. }
    rewrite A5. f_equal. destruct s as [sp si ss se sf sm]. unfold with_ext. cbn [sl_p sl_i sl_s sl_ext sl_fitted sl_sample]. f_equal.
    rewrite Hs3, app_length, Lf, <- app_assoc. f_equal. rewrite Eids. cbn [length seq map app].
    f_equal; [f_equal; lia|]. rewrite <- seq_shift, map_map. apply map_ext. intros k. f_equal. lia.
Qed.
Lemma trained_copies_len c Z g svs vs g' : trained_copies K c Z g svs vs g' -> length vs = length svs.
Proof. induction 1; cbn; congruence. Qed.
Lemma trained_rows c svs g Ys fss g' m old : trained_sieves K c svs g Ys fss g' -> length svs = m ->
  Forall2 (objs (old ++ concat fss)) (map (fun k => seq (length old + k * m) m) (seq 0 (length Ys))) fss.
Proof.
  intros A Lm. revert old. induction A as [g|g Z vs g1 Zs rows g2 A B IH]; intros old; cbn [length seq map concat]; constructor.
  - assert (Lfs : length vs = m) by (rewrite <- Lm; eapply trained_copies_len, A).
    replace (length old + 0 * m) with (length old) by lia. rewrite <- Lfs. clear. generalize (concat rows) as tail. intros tail. rewrite app_assoc.
    apply objs_app. revert old. induction vs as [|f fs IH]; intros old; cbn; constructor.
    + now rewrite nth_error_app2, Nat.sub_diag by lia.
    + specialize (IH (old ++ [f])). rewrite app_length in IH. cbn in IH. rewrite Nat.add_1_r, <- app_assoc in IH. exact IH.
  - specialize (IH (old ++ vs)). rewrite app_length, (trained_copies_len _ _ _ _ _ _ A), Lm in IH.
    rewrite <- app_assoc in IH. rewrite <- seq_shift, map_map. erewrite map_ext; [exact IH|]. intros k. cbn. f_equal. lia.
Qed.
Lemma map_Ok_app {A} (l : list (res A)) l' r : l ++ l' = map Ok r -> exists a b, l = map Ok a /\ l' = map Ok b /\ r = a ++ b.
Proof.
  revert r. induction l as [|x l IH]; intros r E; [exists [], r; auto|]. destruct r as [|y r]; [discriminate|]. injection E as -> E.
  destruct (IH r E) as (a & b & -> & -> & ->). exists (y :: a), b. auto.
Qed.
Lemma iterate_all is : forall X Ys, iterate_iss K is X = map Ok Ys -> all_itsums K is X Ys.
Proof.
  induction is as [|i is IH]; intros X Ys E; cbn [iterate_iss] in E.
  - destruct Ys as [|Y [|? ?]]; try discriminate. cbn in E. injection E as <-. reflexivity.
  - cbn [all_itsums]. unfold sums_of. revert Ys E. generalize (i_batches K i X). intros bs. induction bs as [|b bs IHb]; intros Ys E.
    + destruct Ys; [|discriminate]. exists [], []. repeat split; [exists []; auto|constructor].
    + cbn [flat_map] in E. apply map_Ok_app in E as (Y1 & Y2 & E1 & E2 & ->). destruct (IHb Y2 E2) as (L2 & P2 & (bb & Eb & EL) & F2 & ->).
      destruct b as [its|e]; [|destruct Y1; discriminate].
      assert (G : exists P1, Forall2 (fun S P => all_itsums K is (map (fun row => [row]) S) P) its P1 /\ Y1 = concat P1).
      { clear E2 IHb F2. revert Y1 E1. induction its as [|Z its IHs]; intros Y1 E1; cbn [flat_map] in E1.
        - destruct Y1; [|discriminate]. exists []. split; [constructor|reflexivity].
        - apply map_Ok_app in E1 as (a & b & Ea & Eb' & ->). destruct (IHs b Eb') as (P1 & F1 & ->).
          exists (a :: P1). split; [constructor; [now apply IH|exact F1]|reflexivity]. }
      destruct G as (P1 & F1 & ->). exists (its ++ L2), (P1 ++ P2). split; [exists (its :: bb); split; [now rewrite Eb|cbn; now rewrite EL]|].
      split; [now apply Forall2_app|now rewrite concat_app].
Qed.

(** ** C79 *)
(** A fit of a slice, after any history, that returns: a sample [idx] of the
    series is drawn; each preparateur is fitted on what the ones before it make
    of the sample; each ISS that requires fitting is fitted on the prepared
    sample; if some sieve requires fitting, every iterated sum of the prepared
    sample gets its own copies of all sieves, fitted on it, while the slice's
    own sieves stay as they are.  All seeds see the cache of the whole input.
    ([NoDup]: no seed object was added twice.) *)
Theorem fit_trains_on_sample h sl s ps is svs X cache h' :
  reachable K h -> nth_error (h_sl K h) sl = Some s ->
  objs (h_p K h) (sl_p s) ps -> objs (h_i K h) (sl_i s) is -> objs (h_s K h) (sl_s s) svs -> NoDup (sl_p s) -> NoDup (sl_i s) ->
  slice_fit K sl X cache h = (Ok tt, h') ->
  let c := match cache with Some c => c | None => X end in
  exists idx g1 ps' Y g2 is' g3 s',
    drawn K (length X) (h_g K h) (sl_sample s) idx g1 /\
    trained_preps K c g1 ps (map (fun i => nth i X []) idx) ps' Y g2 /\
    trained_iss K c Y g2 is is' g3 /\
    objs (h_p K h') (sl_p s) ps' /\ objs (h_i K h') (sl_i s) is' /\ objs (h_s K h') (sl_s s) svs /\
    nth_error (h_sl K h') sl = Some s' /\
    ((forall v, In v svs -> s_requires K v = false) /\ sl_ext s' = [] /\ h_g K h' = g3 \/
     (exists v, In v svs /\ s_requires K v = true) /\
     exists Zs rows, all_itsums K is' Y Zs /\ trained_sieves K c svs g3 Zs rows (h_g K h') /\ Forall2 (objs (h_s K h')) (sl_ext s') rows).
Proof.
  intros Re Es Op Oi Os Np Ni E c. pose proof (reachable_wf K W h Re) as Wf.
  unfold slice_fit in E. apply bind_inv in E as (s0 & h0 & E0 & E). unfold look in E0. rewrite Es in E0. injection E0 as <- <-.
  destruct (nonempty (sl_i s)) eqn:Nei; cbn [negb] in E; [|discriminate]. destruct (nonempty (sl_s s)) eqn:Nes; cbn [negb] in E; [|discriminate].
  apply bind_inv in E as (idx & h1 & E1 & E). apply bind_inv in E as (Y & h2 & E2 & E). apply bind_inv in E as ([] & h3 & E3 & E).
  assert (U : upto K h h3).
  { apply (upto_trans K h h1); [|apply (upto_trans K h1 h2)].
    - replace h1 with (snd (select_sample K (sl_sample s) (length X) h)) by (now rewrite E1). apply upto_sample.
    - match type of E2 with ?m _ = _ => replace h2 with (snd (m h1)) by (now rewrite E2) end. apply upto_preps.
    - match type of E3 with ?m _ = _ => replace h3 with (snd (m h2)) by (now rewrite E3) end.
      apply (pres_forM K _ (upto_refl K) (upto_trans K)). intros; apply upto_iss. }
  destruct U as (U1 & U2 & _). assert (Es3 : nth_error (h_sl K h3) sl = Some s) by (now rewrite U2).
  destruct (sample_ok _ _ _ _ _ E1) as (D & Hp1 & Hi1).
  destruct (fit_preps_ok _ _ _ _ _ _ ps Np ltac:(rewrite Hp1; exact Op) E2) as (ps' & Tp & Op2 & Hi2 & _).
  destruct (fit_isss_ok _ _ _ _ _ is Ni ltac:(rewrite Hi2, Hi1; exact Oi) E3) as (is' & Ti & Oi3 & Hp3 & _).
  apply bind_inv in E as (svs0 & h4 & E4 & E). apply collect_look_inv in E4 as (-> & O3).
  assert (svs0 = svs) by (eapply objs_fun; [exact O3|rewrite U1; exact Os]). subst svs0.
  destruct (existsb (s_requires K) svs) eqn:Er; cbn [negb] in E.
  - apply bind_inv in E as ([] & h5 & E5 & E). rewrite (upd_sl_ok K h3 sl _ s Es3) in E5. injection E5 as E5.
    assert (Es5 : nth_error (h_sl K h5) sl = Some (with_ext [] s)) by (subst h5; rewrite put_nth by (now apply nth_lt in Es3); now rewrite Nat.eqb_refl).
    apply bind_inv in E as (is5 & h6 & E6 & E). apply collect_look_inv in E6 as (-> & O5).
    assert (is5 = is') by (eapply objs_fun; [exact O5|subst h5; exact Oi3]). subst is5.
    apply bind_inv in E as ([] & h7 & E7 & E).
    destruct (fit_ext_trains c sl (sl_s s) (iterate_iss K is' Y) h5 h7 (with_ext [] s) svs) as (Ys & fss & A1 & A0 & A2 & A3 & A4 & A5); [subst h5; exact O3|exact Es5|exact E7|].
    rewrite (upd_sl_ok K h7 sl _ _ A5) in E. injection E as E.
    assert (Hs5 : h_s K h5 = h_s K h) by (subst h5; exact U1).
    assert (L7 : sl < length (h_sl K h7)) by (now apply nth_lt in A5).
    assert (Es' : nth_error (h_sl K h') sl = Some (with_fitted true (with_ext (map (fun k => seq (length (h_s K h) + k * length (sl_s s)) (length (sl_s s))) (seq 0 (length Ys))) s))).
    { subst h'. rewrite put_nth by exact L7. rewrite Nat.eqb_refl. cbn [sl_ext with_ext app]. now rewrite Hs5. }
    assert (Hs' : h_s K h' = h_s K h ++ concat fss) by (rewrite <- Hs5, <- A3; subst h'; reflexivity).
    exists idx, (h_g K h1), ps', Y, (h_g K h2), is', (h_g K h3). eexists. split; [exact D|]. split; [exact Tp|]. split; [exact Ti|].
    assert (Hp' : h_p K h' = h_p K h2) by (transitivity (h_p K h7); [subst h'; reflexivity|]; rewrite A0; transitivity (h_p K h3); [subst h5; reflexivity|exact Hp3]).
    assert (Hi' : h_i K h' = h_i K h3) by (transitivity (h_i K h7); [subst h'; reflexivity|]; rewrite A2; subst h5; reflexivity).
    split; [rewrite Hp'; exact Op2|]. split; [rewrite Hi'; exact Oi3|]. split; [rewrite Hs'; now apply objs_app|]. split; [exact Es'|]. right.
    split; [now apply existsb_exists in Er|]. exists Ys, fss. split; [now apply iterate_all|].
    split. { replace (h_g K h') with (h_g K h7) by (subst h'; reflexivity). replace (h_g K h3) with (h_g K h5) by (subst h5; reflexivity). exact A4. }
    cbn [sl_ext with_fitted with_ext]. rewrite Hs'. eapply trained_rows; [exact A4|]. now apply objs_len in Os.
  - rewrite (upd_sl_ok K h3 sl _ s Es3) in E. injection E as E.
    assert (Es' : nth_error (h_sl K h') sl = Some (with_fitted true s)) by (subst h'; rewrite put_nth by (now apply nth_lt in Es3); now rewrite Nat.eqb_refl).
    assert (Rq : forall v, In v svs -> s_requires K v = false).
    { intros v Hv. destruct (s_requires K v) eqn:Ev; [|reflexivity]. assert (existsb (s_requires K) svs = true) by (apply existsb_exists; eauto). congruence. }
    exists idx, (h_g K h1), ps', Y, (h_g K h2), is', (h_g K h3), (with_fitted true s). split; [exact D|]. split; [exact Tp|]. split; [exact Ti|].
    split; [replace (h_p K h') with (h_p K h3) by (subst h'; reflexivity); rewrite Hp3; exact Op2|].
    split; [replace (h_i K h') with (h_i K h3) by (subst h'; reflexivity); exact Oi3|].
    split; [replace (h_s K h') with (h_s K h3) by (subst h'; reflexivity); rewrite U1; exact Os|]. split; [exact Es'|]. left.
    split; [exact Rq|]. split; [|subst h'; reflexivity].
    cbn. destruct (proj1 Wf sl s Es) as (_ & N & _). destruct (sl_ext s) as [|row e]; [reflexivity|].
    destruct N as (id & o & Hi & Hn & Hr); [discriminate|]. destruct (objs_in _ _ _ _ Os Hi) as (o' & Ho & Hn'). assert (o' = o) by congruence. subst o'.
    rewrite (Rq o Ho) in Hr. discriminate.
Qed.

(** No sample can be drawn (no series, or fit_sample_size asks for more than
    there are): ValueError, and nothing has changed. *)
Theorem fit_without_sample h sl s X cache :
  nth_error (h_sl K h) sl = Some s -> sl_i s <> [] -> sl_s s <> [] ->
  match sl_sample s with SOne => length X = 0 | SFrac f => length X < Nat.max (f (length X)) 1 end ->
  slice_fit K sl X cache h = (Err ValueError, h).
Proof.
  intros Es Ni Ns D. unfold slice_fit. rewrite (bind_ok K _ _ h s h) by (unfold look; now rewrite Es).
  destruct (sl_i s); [contradiction|]. destruct (sl_s s); [contradiction|]. cbn [nonempty negb]. apply bind_err.
  unfold select_sample. rewrite (bind_ok K _ _ h (h_g K h) h) by reflexivity. destruct (sl_sample s) as [|f].
  - rewrite D. reflexivity.
  - rewrite (proj2 (Nat.ltb_lt _ _) D). reflexivity.
Qed.

Lemma trained_nth c svs g Zs rows g' k vs : trained_sieves K c svs g Zs rows g' -> nth_error rows k = Some vs ->
  exists Z g1 g2, nth_error Zs k = Some Z /\ trained_copies K c Z g1 svs vs g2.
Proof.
  intros A. revert k. induction A as [g|g Z vs0 g1 Zs rows g2 A B IH]; intros k Ek; [destruct k; discriminate|].
  destruct k as [|k]; [injection Ek as <-; exists Z, g, g1; auto|]. exact (IH k Ek).
Qed.
(** fit(X), then transform(X2): feature r of sieve j for iterated sum js comes
    from the copy of sieve j fitted on the iterated sum with the same number of
    the prepared sample (or from sieve j itself if no sieve requires fitting),
    applied to the iterated sum js of X2, which is prepared by the preparateurs
    as fitted and computed by the ISS as fitted. *)
Theorem train_then_transform h sl s ps is svs X cache h1 s1 X2 cbs cache2 A h2 :
  reachable K h -> nth_error (h_sl K h) sl = Some s ->
  objs (h_p K h) (sl_p s) ps -> objs (h_i K h) (sl_i s) is -> objs (h_s K h) (sl_s s) svs -> NoDup (sl_p s) -> NoDup (sl_i s) ->
  slice_fit K sl X cache h = (Ok tt, h1) ->
  nth_error (h_sl K h1) sl = Some s1 -> shaped K h1 s1 -> cache_rows cache2 X2 ->
  slice_transform K sl X2 cbs cache2 h1 = (Ok A, h2) ->
  let c := match cache with Some c => c | None => X end in
  let c2 := match cache2 with Some c => c | None => X2 end in
  let nfs := map (s_nf K) svs in
  exists idx g1 ps' Y g2 is' g3 Y2 ns,
    drawn K (length X) (h_g K h) (sl_sample s) idx g1 /\
    trained_preps K c g1 ps (map (fun i => nth i X []) idx) ps' Y g2 /\
    trained_iss K c Y g2 is is' g3 /\
    prepared K c2 ps' X2 Y2 /\ Forall2 (fun i n => i_n K i = Ok n) is' ns /\
    length A = length X2 /\ (forall row, In row A -> length row = fold_right Nat.mul 1 ns * list_sum nfs) /\
    forall js, Forall2 lt js ns -> exists Z svk,
      itsum K (map (i_attach K c2) is') js Y2 Z /\
      ((forall v, In v svs -> s_requires K v = false) /\ svk = svs \/
       all_itsums K is' Y [] /\ svk = svs \/
       exists Zs Zk g g', all_itsums K is' Y Zs /\ nth_error Zs (radix ns js) = Some Zk /\ trained_copies K c Zk g svs svk g') /\
      forall j v r, nth_error svk j = Some v -> r < s_nf K v ->
      exists R, fst (s_transform K Z (s_attach K c2 v)) = Ok R /\
        column A (radix ns js * list_sum nfs + list_sum (firstn j nfs) + r) = column R r.
Proof.
  intros Re Es Op Oi Os Np Ni E Es1 Sh Cr Et c c2 nfs.
  assert (Re1 : reachable K h1).
  { destruct Re as (g0 & ops & ->). exists g0, (ops ++ [OFit K sl X cache]). rewrite run_app. cbn. now rewrite E. }
  pose proof (reachable_wf K W h Re) as Wf.
  pose proof (slice_fit_post K W sl X cache h Wf) as P. rewrite E in P. cbn [fst snd] in P. destruct P as (_ & (_ & _ & _ & R) & _).
  destruct (R sl s Es) as (s'' & Es'' & _ & Ep & Ei & Ess & _). clear R. rewrite Es1 in Es''. injection Es'' as <-.
  assert (Ne : sl_s s <> []).
  { intros En. unfold slice_fit in E. rewrite (bind_ok K _ _ h s h) in E by (unfold look; now rewrite Es). rewrite En in E.
    destruct (nonempty (sl_i s)); discriminate. }
  destruct (fit_trains_on_sample h sl s ps is svs X cache h1 Re Es Op Oi Os Np Ni E) as
    (idx & g1 & ps' & Y & g2 & is' & g3 & s' & D & Tp & Ti & Op' & Oi' & Os' & Es' & Alt). fold c in Tp, Ti, Alt.
  rewrite Es1 in Es'. injection Es' as <-.
  destruct (slice_features K W h1 sl s1 X2 cbs cache2 A h2 ps' is' svs Re1 Es1 Sh Cr) as (Y2 & ns & F1 & F2 & _ & F4 & F5 & F6).
  { now rewrite Ep. } { now rewrite Ei. } { now rewrite Ess. } { exact Et. } fold c2 nfs in F1, F2, F4, F5, F6.
  exists idx, g1, ps', Y, g2, is', g3, Y2, ns. split; [exact D|]. split; [exact Tp|]. split; [exact Ti|]. split; [exact F1|]. split; [exact F2|].
  split; [exact F4|]. split; [exact F5|]. intros js Hj. destruct (F6 js Hj) as (Z & svk & G1 & G2 & G3 & _ & G4).
  exists Z, svk. split; [exact G1|]. split; [|exact G4].
  destruct Alt as [(Rq & Ex & _)|(_ & Zs & rows & B1 & B2 & B3)].
  - left. split; [exact Rq|]. unfold sieves_for in G2. rewrite Ex, Ess in G2. eapply objs_fun; eassumption.
  - right. assert (Lsv : length svs <> 0). { rewrite (objs_len _ _ _ Os). destruct (sl_s s); [contradiction|discriminate]. }
    assert (Lk : length svk = length svs) by (rewrite <- (map_length (s_nf K) svk), G3; unfold nfs; now rewrite map_length).
    unfold sieves_for in G2. destruct (sl_ext s1) as [|e0 er] eqn:Ee.
    + left. assert (Ez : Zs = []) by (inversion B3; subst; inversion B2; reflexivity). rewrite Ez in B1. split; [exact B1|].
      rewrite Ess in G2. eapply objs_fun; eassumption.
    + right. remember (radix ns js) as k eqn:Ek. clear Ek Hj G1 G4.
      assert (Hr : exists row, nth_error (e0 :: er) k = Some row /\ objs (h_s K h1) row svk).
      { destruct (nth_error (e0 :: er) k) as [row|] eqn:En.
        - exists row. split; [reflexivity|]. rewrite (nth_error_nth _ _ _ En) in G2. exact G2.
        - exfalso. apply nth_error_None in En. rewrite nth_overflow in G2 by exact En. inversion G2; subst. cbn in Lk. congruence. }
      destruct Hr as (row & Er & Or). destruct (Forall2_nth_error _ _ _ _ _ B3 Er) as (vs & Ev & Ov).
      assert (vs = svk) by (eapply objs_fun; eassumption). subst vs.
          destruct (trained_nth c svs g3 Zs rows (h_g K h1) k svk B2 Ev) as (Zk & g & g' & Ez & Tc).
      exists Zs, Zk, g, g'. split; [exact B1|]. split; [exact Ez|exact Tc].
Qed.
(** Counts of iterated sums. *)
Lemma all_itsums_counts m is ns : Forall2 (fun i n => i_n K i = Ok n) is ns -> (forall i, In i is -> iss_counts K m i) ->
  forall X Zs, length X = m -> all_itsums K is X Zs -> length Zs = fold_right Nat.mul 1 ns.
Proof.
  induction 1 as [|i n is ns Hi F IH]; intros Ex X Zs LX E; cbn [all_itsums] in E.
  - subst Zs. reflexivity.
  - destruct E as (L & parts & S1 & F2 & ->). destruct (Ex i (or_introl eq_refl) X L n LX S1 Hi) as (Ln & Lr). cbn [fold_right].
    rewrite <- Ln. clear S1 Ln. induction F2 as [|Z P L parts A F2 IH2]; [reflexivity|]. cbn [concat length Nat.mul]. rewrite app_length, IH2 by (intros; apply Lr; now right).
    f_equal. apply (IH ltac:(intros; apply Ex; now right) _ _ ltac:(rewrite map_length, <- LX; apply Lr; now left) A).
Qed.
End C79.

(** ** C79 for the library *)
Section Lib.
Context {T : Type} `{N : Num T}.
Variable W : oracles T.
Variable parse : pystr -> res T.
Variable powf : T -> T -> T.
Variable qf : T -> list T -> T.
Variable eps5 : T.
Variable order : list T -> list T.
Variable show_prep : prep T -> pystr.
Variable show_cut : cut_arg -> pystr.
Variable show_q : q_arg -> pystr.
Variable show_num : T -> pystr.
Variable show_ppv : ppv_cfg T -> pystr.
Notation lib := (library W parse powf qf eps5 order show_prep show_cut show_q show_num show_ppv).
Notation law := (library_lawful W parse powf qf eps5 order show_prep show_cut show_q show_num show_ppv).
Notation ok_op := (brings lib (local_prep : prepT lib -> Prop) (covers_rows : issT lib -> Prop) (fun _ => True)).

Lemma sample_rows c g ps S0 ps' Y g' : length S0 <= length c -> full c -> Forall (local_prep : prepT lib -> Prop) ps ->
  trained_preps lib c g ps S0 ps' Y g' -> length Y = length S0.
Proof.
  intros Lc Fc. 
  pose proof (local_library W parse powf qf eps5 order show_prep show_cut show_q show_num show_ppv (length S0) c c (conj eq_refl (conj Lc Lc)) Fc Fc) as LC.
  assert (G : forall X, length X = length S0 -> Forall (local_prep : prepT lib -> Prop) ps -> trained_preps lib c g ps X ps' Y g' -> length Y = length S0).
  { intros X LX Fp Tp. induction Tp as [g X|g p p1 p2 g1 ps X Z ps' Y g2 Ef Et Tp IH]; [exact LX|]. inversion Fp as [|? ? Lp Fp']; subst.
    apply IH; [|exact Fp'].
    pose proof (lc_prep lib law _ _ _ _ _ LC g X p p Lp Lp (Equivalence_Reflexive (Equivalence := eqP_equiv lib law) p) LX) as (_ & _ & _ & Q). cbv zeta in Q. rewrite Ef in Q. cbn [fst snd] in Q.
    destruct (Q eq_refl) as (_ & _ & Q2). rewrite Et in Q2. now apply Q2. }
  intros Fp Tp. exact (G S0 eq_refl Fp Tp).
Qed.
Lemma trained_counts c Y g is is' g' m : m <= length c -> Forall (covers_rows : issT lib -> Prop) is -> trained_iss lib c Y g is is' g' ->
  forall i, In i is' -> iss_counts lib m i.
Proof.
  intros Lm Fc Ti. induction Ti as [g|g i i' g1 is is' g2 Rq Ef Ti IH|g i is is' g2 Rq Ti IH]; intros j Hj; [destruct Hj| |]; inversion Fc as [|? ? Hi Fc']; subst; (destruct Hj as [<-|Hj]; [|exact (IH Fc' j Hj)]).
  - pose proof (cl_if lib _ _ _ (library_closed W parse powf qf eps5 order show_prep show_cut show_q show_num show_ppv) g Y _ (cl_ia lib _ _ _ (library_closed W parse powf qf eps5 order show_prep show_cut show_q show_num show_ppv) c i Hi)) as Hc.
    rewrite Ef in Hc. cbn [fst snd] in Hc.
    assert (Ec : iss_set_cache (Some c) i' = i').
    { cbn in Ef. destruct i as [cf ca|cf st ca]; cbn [iss_set_cache iss_fit] in Ef; [injection Ef as <- <-; reflexivity|].
      destruct (cos_fit _ _ _ _ _) as [[u|e] st']; [injection Ef as <- <-; reflexivity|discriminate]. }
    intros X L n LX (bs & Eb & ->) En. cbn in Eb, En. rewrite <- Ec in Eb. refine (iss_shape eps5 c i' X bs n _ Hc Eb En). lia.
  - intros X L n LX (bs & Eb & ->) En. cbn in Eb, En. refine (iss_shape eps5 c i X bs n _ Hi Eb _); [lia|]. destruct i; exact En.
Qed.

(** fit(X), then transform(X2), for seeds of the library; numpy's choice draws
    as many numbers as asked for. *)
Theorem library_train_then_transform g ops sl s ps is svs X cache h1 X2 cbs cache2 A h2 :
  let h := run lib (heap0 lib g) ops in
  Forall ok_op ops -> nth_error (h_sl lib h) sl = Some s ->
  objs (h_p lib h) (sl_p s) ps -> objs (h_i lib h) (sl_i s) is -> objs (h_s lib h) (sl_s s) svs -> NoDup (sl_p s) -> NoDup (sl_i s) ->
  (forall g n k, k <= n -> length (o_choice W g n k) = k) ->
  cache_rows cache X -> cache_rows cache2 X2 ->
  let c := match cache with Some c => c | None => X end in
  let c2 := match cache2 with Some c => c | None => X2 end in
  full c ->
  slice_fit lib sl X cache h = (Ok tt, h1) ->
  slice_transform lib sl X2 cbs cache2 h1 = (Ok A, h2) ->
  let nfs := map (s_nf lib) svs in
  exists idx g1 ps' Y g2 is' g3 Y2 ns,
    drawn lib (length X) (h_g lib h) (sl_sample s) idx g1 /\
    trained_preps lib c g1 ps (map (fun i => nth i X []) idx) ps' Y g2 /\
    trained_iss lib c Y g2 is is' g3 /\
    prepared lib c2 ps' X2 Y2 /\ Forall2 (fun i n => i_n lib i = Ok n) is' ns /\
    length A = length X2 /\ (forall row, In row A -> length row = fold_right Nat.mul 1 ns * list_sum nfs) /\
    forall js, Forall2 lt js ns -> exists Z svk,
      itsum lib (map (i_attach lib c2) is') js Y2 Z /\
      ((forall v, In v svs -> s_requires lib v = false) /\ svk = svs \/
       exists Zs Zk g g', all_itsums lib is' Y Zs /\ nth_error Zs (radix ns js) = Some Zk /\ trained_copies lib c Zk g svs svk g') /\
      forall j v r, nth_error svk j = Some v -> r < s_nf lib v ->
      exists R, fst (s_transform lib Z (s_attach lib c2 v)) = Ok R /\
        column A (radix ns js * list_sum nfs + list_sum (firstn j nfs) + r) = column R r.
Proof.
  intros h Ho Es Op Oi Os Np Ni Ch Cr Cr2 c c2 Fc E Et nfs.
  assert (Re : reachable lib h) by (exists g, ops; reflexivity).
  pose proof (run_all lib _ _ _ (local_closed W parse powf qf eps5 order show_prep show_cut show_q show_num show_ppv) ops Ho (heap0 lib g) (all_heap0 lib _ _ _ g)) as Al. fold h in Al.
  set (ops1 := ops ++ [OFit lib sl X cache]).
  assert (Eh1 : h1 = run lib (heap0 lib g) ops1) by (unfold ops1; rewrite run_app; fold h; cbn; now rewrite E).
  assert (Ho1 : Forall (brings lib (keeps_rows : prepT lib -> Prop) (covers_rows : issT lib -> Prop) (fun _ => True)) ops1).
  { apply Forall_app. split; [|repeat constructor]. eapply Forall_impl; [|exact Ho]. intros o Hb. assert (Ga : forall a, brings_arg lib (local_prep : prepT lib -> Prop) (covers_rows : issT lib -> Prop) (fun _ => True) a -> brings_arg lib (keeps_rows : prepT lib -> Prop) (covers_rows : issT lib -> Prop) (fun _ => True) a).
    { intros a. destruct a as [ | | | [v|e] | | | ]; cbn; try exact (fun x => x). exact (@proj1 _ _). }
    destruct o; try exact Hb; try exact (proj1 Hb); cbn in Hb |- *; intros a Ha; exact (Ga a (Hb a Ha)). }
  pose proof (slice_fit_post lib law sl X cache h (reachable_wf lib law h Re)) as P. rewrite E in P. cbn [fst snd] in P. destruct P as (_ & (_ & _ & _ & R) & _).
  destruct (R sl s Es) as (s1 & Es1 & _ & _ & _ & _ & _). clear R.
  assert (Sh : shaped lib h1 s1).
  { rewrite Eh1. rewrite Eh1 in Es1. exact (library_shaped W parse powf qf eps5 order show_prep show_cut show_q show_num show_ppv g ops1 sl s1 Ho1 Es1). }
  destruct (train_then_transform lib law h sl s ps is svs X cache h1 s1 X2 cbs cache2 A h2 Re Es Op Oi Os Np Ni E Es1 Sh Cr2 Et) as
    (idx & g1 & ps' & Y & g2 & is' & g3 & Y2 & ns & D & Tp & Ti & Pr & Fn & LA & LR & Q).
  fold c c2 nfs in Tp, Ti, Pr, LR, Q. exists idx, g1, ps', Y, g2, is', g3, Y2, ns. repeat (split; [assumption|]).
  intros js Hj. destruct (Q js Hj) as (Z & svk & Q1 & Q2 & Q3). exists Z, svk. split; [exact Q1|]. split; [|exact Q3].
  destruct Q2 as [Q2|[(Q2 & _)|Q2]]; [now left| |now right]. exfalso.
  assert (Lc : length c = length X) by (unfold c; destruct cache; [exact Cr|reflexivity]).
  assert (Li : length idx <= length c).
  { rewrite Lc. inversion D as [i g' Hn Hi E1 E2 E3|f i g' Hn Hi E1 E2 E3]; subst; [cbn; lia|]. cbn in Hi. injection Hi as <- <-. rewrite Ch by exact Hn. exact Hn. }
  assert (Fp : Forall (local_prep : prepT lib -> Prop) ps).
  { destruct Al as (A1 & _). apply Forall_forall. intros p Hp. destruct (objs_in_r _ _ _ _ Op Hp) as (id & _ & En). exact (nth_Forall _ _ _ _ A1 En). }
  assert (Fi : Forall (covers_rows : issT lib -> Prop) is).
  { destruct Al as (_ & A2 & _). apply Forall_forall. intros p Hp. destruct (objs_in_r _ _ _ _ Oi Hp) as (id & _ & En). exact (nth_Forall _ _ _ _ A2 En). }
  assert (LY : length Y = length idx).
  { rewrite <- (map_length (fun i => nth i X []) idx). eapply sample_rows; [rewrite map_length; exact Li|exact Fc|exact Fp|exact Tp]. }
  pose proof (all_itsums_counts lib (length Y) is' ns Fn (trained_counts c Y g2 is is' g3 (length Y) ltac:(lia) Fi Ti) Y [] eq_refl Q2) as Cn.
  clear - Cn Hj. cbn in Cn. assert (0 < fold_right Nat.mul 1 ns); [|lia]. clear Cn. induction Hj as [|j n js ns L F IH]; cbn; [lia|nia].
Qed.
End Lib.
Print Assumptions fit_trains_on_sample.
Print Assumptions fit_without_sample.
Print Assumptions train_then_transform.
Print Assumptions library_train_then_transform.
