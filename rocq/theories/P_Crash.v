(** C95, C96: calls that raise in the middle.
    C95: [fit] of a slice or fruit raises.  C96: [add] raises. *)
From Coq Require Import Ascii String List Arith ZArith Bool RelationClasses Lia.
From Verif Require Import Num Arr M_Str M_Words M_Np M_Fruit S_Fruit L_Arr L_Fruit L_Fruit2 L_Fruit3 L_Fruit4 L_Fruit5 L_Fruit6 L_Fruit7 L_Fruit8 P_Fruit P_Fruit2 P_Fruit3.
Import ListNotations.

Section C95.
Context {T : Type} `{N : Num T}.
Variable K : kit T.
Variable W : lawful K.
Notation heap := (heap K).

(** Nothing but sieves with numbers from [n] on and the random state changes. *)
Definition only_new (n : nat) (h h' : heap) : Prop :=
  (forall id, id < n -> nth_error (h_s K h') id = nth_error (h_s K h) id) /\ length (h_s K h) <= length (h_s K h') /\
  h_p K h' = h_p K h /\ h_i K h' = h_i K h /\ h_sl K h' = h_sl K h /\ h_fr K h' = h_fr K h.
Lemma only_refl n h : only_new n h h. Proof. repeat split; auto. Qed.
Lemma only_trans n a b c : only_new n a b -> only_new n b c -> only_new n a c.
Proof.
  intros (A1 & A2 & A3 & A4 & A5 & A6) (B1 & B2 & B3 & B4 & B5 & B6). split; [intros id Hd; now rewrite B1, A1|].
  split; [lia|]. repeat split; congruence.
Qed.
Lemma only_copy n id h : n <= length (h_s K h) -> only_new n h (snd (copy_sieve K id h)).
Proof.
  intros L. unfold copy_sieve, bindM, look. destruct (nth_error (h_s K h) id) as [s|]; [|apply only_refl].
  unfold liftR. destruct (s_copy K s); [|apply only_refl]. unfold new_s. cbn. split.
  - intros i Hi. cbn. rewrite nth_error_app1; [reflexivity|lia].
  - cbn. rewrite app_length. repeat split; lia.
Qed.
Lemma only_collect n ids : forall h, n <= length (h_s K h) -> only_new n h (snd (collect K ids (copy_sieve K) h)).
Proof.
  induction ids as [|id ids IH]; intros h L; cbn [collect]; [apply only_refl|].
  pose proof (only_copy n id h L) as C. unfold bindM at 1. destruct (copy_sieve K id h) as [[i|e] h1]; cbn [snd] in *; [|exact C].
  pose proof (IH h1 ltac:(destruct C as (_ & C & _); lia)) as D. unfold bindM at 1. destruct (collect K ids (copy_sieve K) h1) as [[l|e] h2]; cbn [snd ret] in *; eapply only_trans; eassumption.
Qed.
Lemma only_fit n c Y id h : n <= id -> only_new n h (snd (fit_sieve K c Y id h)).
Proof.
  intros L. unfold fit_sieve, bindM, look, get_g. destruct (nth_error (h_s K h) id) as [s|]; [|apply only_refl].
  destruct (s_fit K (h_g K h) Y (s_attach K c s)) as [[x s1] g]. unfold set_s, set_g, liftR. cbn. split.
  - intros i Hi. cbn. apply upd_nth_error_neq. lia.
  - cbn. rewrite upd_length. repeat split; lia.
Qed.
Lemma only_fits n c Y ids : forall h, Forall (fun id => n <= id) ids -> only_new n h (snd (forM K ids (fit_sieve K c Y) h)).
Proof.
  induction ids as [|id ids IH]; intros h F; cbn [forM]; [apply only_refl|]. inversion F as [|? ? L F']; subst.
  pose proof (only_fit n c Y id h L) as C. unfold bindM at 1. destruct (fit_sieve K c Y id h) as [[i|e] h1]; cbn [snd] in *; [|exact C].
  eapply only_trans; [exact C|now apply IH].
Qed.
(** A loop over the iterated sums that raises has finished some of them, and
    was stopped in the pass for the next one. *)
Lemma fit_ext_split c sl sieves svs its : forall h s e h', objs (h_s K h) sieves svs -> nth_error (h_sl K h) sl = Some s ->
  fit_ext K c sl sieves its h = (Err e, h') ->
  exists Ys rest h1, its = map Ok Ys ++ rest /\ rest <> [] /\ fit_ext K c sl sieves (map Ok Ys) h = (Ok tt, h1) /\ only_new (length (h_s K h1)) h1 h'.
Proof.
  induction its as [|[Y|e0] its IH]; intros h s e h' O Es E; cbn [fit_ext] in E; [discriminate| |].
  - set (tryY := bindM K (collect K sieves (copy_sieve K)) (fun ids => forM K ids (fit_sieve K c Y))).
    destruct (collect K sieves (copy_sieve K) h) as [[ids|e1] h1] eqn:Ec.
    2:{ rewrite (bind_err K _ _ _ _ _ Ec) in E. injection E as <- <-. exists [], (Ok Y :: its), h. split; [reflexivity|]. split; [discriminate|]. split; [reflexivity|].
        pose proof (only_collect (length (h_s K h)) sieves h (Nat.le_refl _)) as C. now rewrite Ec in C. }
    rewrite (bind_ok K _ _ _ _ _ Ec) in E.
    destruct (collect_copy_ok K sieves h ids h1) as (Eids & svs' & copies & O' & Fc & Eh1); [|exact Ec|].
    { intros id Hid. destruct (objs_in _ _ _ _ O Hid) as (o & _ & En). apply nth_error_Some. congruence. }
    pose proof (only_collect (length (h_s K h)) sieves h (Nat.le_refl _)) as C1. rewrite Ec in C1. cbn [snd] in C1.
    assert (F : Forall (fun id => length (h_s K h) <= id) ids) by (rewrite Eids; apply Forall_forall; intros id Hid; apply in_seq in Hid; lia).
    pose proof (only_fits (length (h_s K h)) c Y ids h1 F) as C2.
    destruct (forM K ids (fit_sieve K c Y) h1) as [[[]|e1] h2] eqn:Ef; cbn [snd] in C2.
    2:{ rewrite (bind_err K _ _ _ _ _ Ef) in E. injection E as <- <-. exists [], (Ok Y :: its), h. split; [reflexivity|]. split; [discriminate|]. split; [reflexivity|].
        eapply only_trans; eassumption. }
    rewrite (bind_ok K _ _ _ _ _ Ef) in E. pose proof (only_trans _ _ _ _ C1 C2) as (C3 & C4 & C5 & C6 & C7 & C8).
    assert (Es2 : nth_error (h_sl K h2) sl = Some s) by congruence. rewrite (bind_ok K _ _ _ _ _ (upd_sl_ok K h2 sl _ s Es2)) in E.
    set (h3 := put_sl K h2 sl (with_ext (sl_ext s ++ [ids]) s)) in E.
    assert (O3 : objs (h_s K h3) sieves svs).
    { change (h_s K h3) with (h_s K h2). clear - O C3. induction O as [|id o l os En F IH]; [constructor|]. constructor; [|exact IH].
      rewrite C3; [exact En|]. apply nth_error_Some. congruence. }
    assert (E3 : nth_error (h_sl K h3) sl = Some (with_ext (sl_ext s ++ [ids]) s)).
    { unfold h3. rewrite put_nth by (apply nth_error_Some; congruence). now rewrite Nat.eqb_refl. }
    destruct (IH h3 _ e h' O3 E3 E) as (Ys & rest & h4 & A1 & A2 & A3 & A4). exists (Y :: Ys), rest, h4.
    split; [now rewrite A1|]. split; [exact A2|]. split; [|exact A4]. cbn [map fit_ext].
    rewrite (bind_ok K _ _ _ _ _ Ec), (bind_ok K _ _ _ _ _ Ef), (bind_ok K _ _ _ _ _ (upd_sl_ok K h2 sl _ s Es2)). exact A3.
  - injection E as <- <-. exists [], (Err e0 :: its), h. split; [reflexivity|]. split; [discriminate|]. split; [reflexivity|apply only_refl].
Qed.
Lemma fit_ext_others c sl sieves its : forall h j, j <> sl -> nth_error (h_sl K (snd (fit_ext K c sl sieves its h))) j = nth_error (h_sl K h) j /\
  h_fr K (snd (fit_ext K c sl sieves its h)) = h_fr K h.
Proof.
  intros h j Hj. pose (R := fun a b : heap => nth_error (h_sl K b) j = nth_error (h_sl K a) j /\ h_fr K b = h_fr K a).
  assert (Rr : forall a, R a a) by (intros a; split; reflexivity).
  assert (Rt : forall a b c, R a b -> R b c -> R a c) by (intros a b d (A1 & A2) (B1 & B2); split; congruence).
  assert (Rq : forall a b, quiet K a b -> R a b) by (intros a b (_ & E1 & E2); split; congruence).
  change (R h (snd (fit_ext K c sl sieves its h))). revert h. induction its as [|[Y|e] its IH]; intros h; cbn [fit_ext]; [apply Rr| |apply Rr].
  revert h. apply (pres_bind K R Rt).
  - intros h0. apply Rq, (pres_collect K (quiet K) (quiet_refl K) (quiet_trans K)). intros; apply quiet_copy_sieve.
  - intros ids. apply (pres_bind K R Rt).
    + intros h0. apply Rq, (pres_forM K (quiet K) (quiet_refl K) (quiet_trans K)). intros; now apply quiet_fit_sieve.
    + intros _. apply (pres_bind K R Rt); [|intros _; exact IH]. intros h0. unfold upd_sl, bindM, look. destruct (nth_error (h_sl K h0) sl) as [s|]; [|apply Rr].
      split; [|reflexivity]. cbn. apply upd_nth_error_neq. congruence.
Qed.
(** A fit of a slice that raises changes no fruit, no other slice and no sieve
    that existed; the slice keeps its seeds, its fit_sample_size and, notably, its
    being marked as fitted or not.  Either its list of fitted sieves is the old
    one, or it consists of the fitted copies for the iterated sums that were
    finished: a proper prefix of all of them. *)
Theorem C95_failed_fit : forall h sl s svs X cache e h', reachable K h ->
  nth_error (h_sl K h) sl = Some s -> objs (h_s K h) (sl_s s) svs -> slice_fit K sl X cache h = (Err e, h') ->
  let c := match cache with Some c => c | None => X end in
  h_fr K h' = h_fr K h /\ (forall j, j <> sl -> nth_error (h_sl K h') j = nth_error (h_sl K h) j) /\
  (forall id, id < length (h_s K h) -> nth_error (h_s K h') id = nth_error (h_s K h) id) /\
  exists s', nth_error (h_sl K h') sl = Some s' /\ structure K h' sl = structure K h sl /\
    sl_fitted s' = sl_fitted s /\ sl_sample s' = sl_sample s /\
    (sl_ext s' = sl_ext s \/
     (exists v, In v svs /\ s_requires K v = true) /\ exists Y is Ys rest,
       objs (h_i K h') (sl_i s) is /\ iterate_iss K is Y = map Ok Ys ++ rest /\ rest <> [] /\
       Forall2 (fun Yk row => exists vs, objs (h_s K h') row vs /\ Forall2 (fitted_copy K c Yk) svs vs) Ys (sl_ext s')).
Proof.
  intros h sl s svs X cache e h' Re Es O E c. pose proof (proj1 (proj1 (reachable_wf K W h Re) sl s Es)) as (_ & Vi & _).
  assert (Q : forall h1, upto K h h1 ->
    h_fr K h1 = h_fr K h /\ (forall j, j <> sl -> nth_error (h_sl K h1) j = nth_error (h_sl K h) j) /\
    (forall id, id < length (h_s K h) -> nth_error (h_s K h1) id = nth_error (h_s K h) id) /\
    exists s', nth_error (h_sl K h1) sl = Some s' /\ structure K h1 sl = structure K h sl /\
      sl_fitted s' = sl_fitted s /\ sl_sample s' = sl_sample s /\ (sl_ext s' = sl_ext s \/
     (exists v, In v svs /\ s_requires K v = true) /\ exists Y is Ys rest,
       objs (h_i K h1) (sl_i s) is /\ iterate_iss K is Y = map Ok Ys ++ rest /\ rest <> [] /\
       Forall2 (fun Yk row => exists vs, objs (h_s K h1) row vs /\ Forall2 (fitted_copy K c Yk) svs vs) Ys (sl_ext s'))).
  { intros h1 (U1 & U2 & U3 & U4). split; [exact U3|]. split; [now rewrite U2|]. split; [now rewrite U1|]. exists s. unfold structure. rewrite U2. auto 10. }
  unfold slice_fit in E. rewrite (bind_ok K _ _ h s h) in E by (unfold look; now rewrite Es).
  destruct (nonempty (sl_i s)); cbn [negb] in E; [|injection E as <- <-; apply Q, upto_refl].
  destruct (nonempty (sl_s s)); cbn [negb] in E; [|injection E as <- <-; apply Q, upto_refl].
  fold c in E. pose proof (upto_sample K (sl_sample s) (length X) h) as U1.
  destruct (select_sample K (sl_sample s) (length X) h) as [[idx|e1] h1] eqn:E1; cbn [snd] in U1;
    [rewrite (bind_ok K _ _ _ _ _ E1) in E|rewrite (bind_err K _ _ _ _ _ E1) in E; injection E as <- <-; now apply Q].
  pose proof (upto_preps K c (sl_p s) (map (fun i => nth i X []) idx) h1) as U2.
  destruct (fit_preps K c (sl_p s) (map (fun i => nth i X []) idx) h1) as [[Y|e2] h2] eqn:E2; cbn [snd] in U2; apply (upto_trans K h h1 h2 U1) in U2;
    [rewrite (bind_ok K _ _ _ _ _ E2) in E|rewrite (bind_err K _ _ _ _ _ E2) in E; injection E as <- <-; now apply Q].
  pose proof (pres_forM K _ (upto_refl K) (upto_trans K) (sl_i s) (fit_iss K c Y) (fun a _ => upto_iss K c Y a) h2) as U3.
  destruct (forM K (sl_i s) (fit_iss K c Y) h2) as [[[]|e3] h3] eqn:E3; cbn [snd] in U3; apply (upto_trans K h h2 h3 U2) in U3;
    [rewrite (bind_ok K _ _ _ _ _ E3) in E|rewrite (bind_err K _ _ _ _ _ E3) in E; injection E as <- <-; now apply Q].
  assert (Eh : h_s K h3 = h_s K h) by apply U3. assert (Esl : h_sl K h3 = h_sl K h) by apply U3. assert (Efr : h_fr K h3 = h_fr K h) by apply U3.
  assert (Es3 : nth_error (h_sl K h3) sl = Some s) by (now rewrite Esl).
  assert (O3 : objs (h_s K h3) (sl_s s) svs) by (now rewrite Eh).
  destruct (collect K (sl_s s) (look K (h_s K)) h3) as [[svs'|e4] h4] eqn:E4.
  2:{ rewrite (bind_err K _ _ _ _ _ E4) in E. injection E as <- <-. exfalso. clear - E4 O3. revert E4. induction O3 as [|id o ids os En F IH]; cbn [collect]; [discriminate|].
      unfold bindM at 1, look at 1. rewrite En. unfold bindM at 1. destruct (collect K ids (look K (h_s K)) h3) as [[l|e'] h']; [discriminate|]. intros Q. injection Q as -> ->. now apply IH. }
  rewrite (bind_ok K _ _ _ _ _ E4) in E. apply collect_look_inv in E4 as (-> & O4).
  assert (svs' = svs). { clear - O3 O4. revert svs' O4. induction O3 as [|id o ids os En F IH]; intros ? O'; inversion O'; subst; [reflexivity|]. f_equal; [congruence|auto]. }
  subst svs'. destruct (existsb (s_requires K) svs) eqn:Er; cbn [negb] in E.
  2:{ rewrite (upd_sl_ok K h3 sl _ s Es3) in E. discriminate. }
  rewrite (bind_ok K _ _ _ _ _ (upd_sl_ok K h3 sl _ s Es3)) in E. set (h5 := put_sl K h3 sl (with_ext [] s)) in E.
  assert (L3 : sl < length (h_sl K h3)) by (apply nth_error_Some; congruence).
  assert (E5 : nth_error (h_sl K h5) sl = Some (with_ext [] s)) by (unfold h5; rewrite put_nth by exact L3; now rewrite Nat.eqb_refl).
  assert (D5 : forall j, j <> sl -> nth_error (h_sl K h5) j = nth_error (h_sl K h) j).
  { intros j Hj. unfold h5. rewrite put_nth by exact L3. destruct (Nat.eqb_spec sl j); [congruence|]. now rewrite Esl. }
  assert (Rq : exists v, In v svs /\ s_requires K v = true) by (apply existsb_exists in Er; exact Er).
  destruct (collect K (sl_i s) (look K (h_i K)) h5) as [[is|e6] h6] eqn:E6.
  2:{ exfalso. assert (V : forall id, In id (sl_i s) -> id < length (h_i K h5)).
      { intros id Hid. change (h_i K h5) with (h_i K h3). destruct U3 as (_ & _ & _ & ->). now apply Vi. }
      clear - V E6. revert V E6. induction (sl_i s) as [|id ids IH]; intros V; cbn [collect]; [discriminate|].
      unfold bindM at 1, look at 1. destruct (nth_error (h_i K h5) id) as [o|] eqn:En; [|apply nth_error_None in En; specialize (V id (or_introl eq_refl)); lia].
      unfold bindM at 1. destruct (collect K ids (look K (h_i K)) h5) as [[l|e'] h']; [discriminate|]. intros Q. injection Q as -> ->. apply IH; [|reflexivity]. intros i Hi. apply V. now right. }
  rewrite (bind_ok K _ _ _ _ _ E6) in E. apply collect_look_inv in E6 as (-> & O6).
  destruct (fit_ext K c sl (sl_s s) (iterate_iss K is Y) h5) as [[[]|e7] h7] eqn:E7.
  { rewrite (bind_ok K _ _ _ _ _ E7) in E. destruct (fit_ext_ok K c sl (sl_s s) _ h5 h7 _ svs O3 E5 E7) as (Ys' & fss & _ & _ & _ & _ & Esl7).
    rewrite (upd_sl_ok K h7 sl _ _ Esl7) in E. discriminate. }
  rewrite (bind_err K _ _ _ _ _ E7) in E. injection E as <- <-.
  pose proof (fit_ext_others c sl (sl_s s) (iterate_iss K is Y) h5) as Ot. rewrite E7 in Ot. cbn [snd] in Ot.
  destruct (fit_ext_split c sl (sl_s s) svs _ h5 _ e7 h7 O3 E5 E7) as (Ys & rest & h8 & A1 & A2 & A3 & (B1 & B2 & B3 & B4 & B5 & B6)).
  destruct (fit_ext_ok K c sl (sl_s s) _ h5 h8 _ svs O3 E5 A3) as (Ys' & fss & Ey & Ei & Ehs & Ff & Esl8).
  assert (Ys' = Ys).
  { clear - Ey. revert Ys' Ey. induction Ys as [|y Ys IH]; intros [|y' Ys'] Ey; try discriminate; [reflexivity|]. cbn in Ey. injection Ey as -> Ey. f_equal. now apply IH. }
  subst Ys'.
  assert (Ehs' : h_s K h5 = h_s K h) by exact Eh.
  split; [rewrite (proj2 (Ot (S sl) ltac:(lia))); exact Efr|]. split; [intros j Hj; rewrite (proj1 (Ot j Hj)); now apply D5|].
  split. { intros id Hid. rewrite B1, Ehs, nth_error_app1 by (rewrite ?Ehs, ?app_length, Ehs'; lia). now rewrite Ehs'. }
  eexists. split; [rewrite B5; exact Esl8|]. split; [unfold structure; rewrite B5, Esl8, Es; reflexivity|]. split; [reflexivity|]. split; [reflexivity|].
  right. split; [exact Rq|]. exists Y, is, Ys, rest. split; [rewrite B4, Ei; exact O6|]. split; [exact A1|]. split; [exact A2|].
  cbn [sl_ext with_ext app].
  assert (G : forall old (H8 : list (sieveT K)) m, length svs = m -> (forall id, id < length (old ++ concat fss) -> nth_error H8 id = nth_error (old ++ concat fss) id) ->
     Forall2 (fun (Yk : mts T) row => exists vs, objs H8 row vs /\ Forall2 (fitted_copy K c Yk) svs vs) Ys (map (fun k => seq (length old + k * m) m) (seq 0 (length Ys)))).
  { clear - Ff. induction Ff as [|Yk fs Ys fss A B IH]; intros old H8 m Lm Hp; cbn [length seq map]; constructor.
    - exists fs. split; [|exact A]. assert (Lfs : length fs = m) by (apply Forall2_len in A; congruence).
      replace (length old + 0 * m) with (length old) by lia.
      assert (Gq : forall i, i < m -> nth_error H8 (length old + i) = nth_error fs i).
      { intros i Hi. rewrite Hp by (rewrite app_length; cbn; rewrite app_length; lia). rewrite nth_error_app2 by lia. replace (length old + i - length old) with i by lia.
        cbn. now rewrite nth_error_app1 by lia. }
      clear - Gq Lfs. revert fs Lfs Gq. generalize (length old) as a. induction m as [|m IH]; intros a [|f fs] Lfs Gq; try discriminate; cbn; constructor.
      + specialize (Gq 0 ltac:(lia)). now rewrite Nat.add_0_r in Gq.
      + apply IH; [now injection Lfs|]. intros i Hi. specialize (Gq (S i) ltac:(lia)). cbn in Gq. rewrite <- Gq. f_equal. lia.
    - assert (Lfs : length fs = m) by (apply Forall2_len in A; congruence).
      specialize (IH (old ++ fs) H8 m Lm). rewrite <- app_assoc in IH. specialize (IH Hp). rewrite app_length, Lfs in IH.
      rewrite <- seq_shift, map_map. erewrite map_ext; [exact IH|]. intros k. cbn. f_equal. lia. }
  apply G; [now apply objs_len in O|]. intros id Hid. rewrite <- Ehs in Hid |- *. now apply B1.
Qed.
(** So a slice that was not fitted cannot be used after the failed fit ... *)
Theorem C95_never_fitted : forall h sl s X cache e h' X2 cbs cache2, reachable K h ->
  nth_error (h_sl K h) sl = Some s -> sl_fitted s = false -> slice_fit K sl X cache h = (Err e, h') ->
  slice_transform K sl X2 cbs cache2 h' = (Err RuntimeError, h').
Proof.
  intros h sl s X cache e h' X2 cbs cache2 Re Es F E. destruct (sees_exists K W h sl s (reachable_wf K W h Re) Es) as (v & _ & _ & _ & Vs & _).
  destruct (C95_failed_fit h sl s _ X cache e h' Re Es Vs E) as (_ & _ & _ & s' & Es' & _ & Ff & _).
  unfold slice_transform. rewrite (bind_ok K _ _ h' s' h') by (unfold look; now rewrite Es'). now rewrite Ff, F.
Qed.
Lemma outs_all_got c get Ys : forall i Rss, all_outs K c get i Ys = Ok Rss -> forall j, j < length Ys -> exists l, get (i + j) = Ok l.
Proof.
  induction Ys as [|Y Ys IH]; intros i Rss E j Hj; cbn in Hj; [lia|]. cbn [all_outs] in E.
  destruct (get i) as [l|] eqn:Eg; [|discriminate]. cbn [bind] in E. destruct (outs K c Y l); [|discriminate]. cbn [bind] in E.
  destruct (all_outs K c get (S i) Ys) as [Rs|] eqn:E2; [|discriminate]. destruct j as [|j]; [exists l; now rewrite Nat.add_0_r|].
  replace (i + S j) with (S i + j) by lia. eapply IH; [exact E2|lia].
Qed.
(** ... nor can a slice that was fitted before if the fit was stopped after some,
    but not all iterated sums: [transform] raises, whatever it is given. *)
Theorem C95_truncated : forall h sl s ni X cbs cache, reachable K h -> nth_error (h_sl K h) sl = Some s -> shaped K h s -> cache_rows cache X ->
  fst (niteratedsums K sl h) = Ok ni -> 0 < length (sl_ext s) < ni ->
  exists e, fst (slice_transform K sl X cbs cache h) = Err e.
Proof.
  intros h sl s ni X cbs cache Re Es Sh Cf Ni Lt. destruct (slice_transform K sl X cbs cache h) as [[A|e] h'] eqn:E; [exfalso|now exists e].
  set (c := match cache with Some c => c | None => X end).
  assert (Lc : length c = length X) by (unfold c; destruct cache; [exact Cf|reflexivity]). pose proof (reachable_wf K W h Re) as Wf.
  destruct (sees_exists K W h sl s Wf Es) as (vw & V & Vp & Vi & Vs & Ve & Vf).
  assert (Fs : sl_fitted s = true).
  { unfold slice_transform in E. rewrite (bind_ok K _ _ h s h) in E by (unfold look; now rewrite Es). destruct (sl_fitted s); [reflexivity|discriminate]. }
  pose proof (transform_view K W h sl vw X cbs cache V) as Et. fold c in Et. unfold ev_view in Et. rewrite Vf, Fs in Et.
  pose proof (good_getter K h sl s _ _ Wf Es Fs Sh Vs Ve) as GG. pose proof (shaped_prep K h s _ Sh Vp) as Pr. pose proof (shaped_iss K h s _ Sh Vi) as Ex.
  destruct (evals_inv K W cbs _ h _ A h' Et E) as (evs & Esl & _).
  apply (ev_slice_ok K W c X _ _ _ _ A evs Lc Pr Ex GG) in Esl as (Zs & ns & Ys & Rss & St & Fn & EY & Ea & EA & _).
  pose proof (stages_rows K c _ X Zs Lc Pr St) as LX.
  destruct (iterate_iss_spec K W c _ ns Fn Ex _ Ys (eq_trans LX (eq_sym Lc)) EY) as (LY & FY & _).
  pose proof (proj2 (ev_ns_ok K _ _) Fn) as Ens.
  assert (Eni : ni = fold_right Nat.mul 1 ns).
  { rewrite (niteratedsums_eval K W h sl s (v_i K vw) Es (@objs_refs _ _ (eqI_equiv K W) _ _ _ Vi)), Ens in Ni. cbn in Ni. congruence. }
  destruct (outs_all_got c _ Ys 0 Rss Ea (length (sl_ext s)) ltac:(lia)) as (l & El). cbn in El. unfold getter in El.
  pose proof (Forall2_len _ _ _ Ve) as Le. destruct (v_e K vw) as [|r rs] eqn:Ev; [cbn in Le; lia|].
  destruct (nth_error (r :: rs) (length (sl_ext s))) eqn:En; [|discriminate]. assert (length (sl_ext s) < length (r :: rs)) by (apply nth_error_Some; congruence). lia.
Qed.
(** A fit of a fruit that raises has fitted the slices before the one that raised,
    and leaves the others and every fruit (whether it counts as fitted, too) alone. *)
Theorem C95_fruit : forall h f x X cache e h', reachable K h -> nth_error (h_fr K h) f = Some x -> fruit_fit K f X cache h = (Err e, h') ->
  let c := match cache with Some c => c | None => X end in
  h_fr K h' = h_fr K h /\ exists pre sl post h1, f_slices x = pre ++ sl :: post /\
    slice_fit K sl X (Some c) h1 = (Err e, h') /\
    (forall j, In j pre -> flag K h1 j = Some true) /\ (forall j, In j pre -> flag K h' j = Some true) /\
    (forall j, ~ In j (pre ++ [sl]) -> nth_error (h_sl K h') j = nth_error (h_sl K h) j).
Proof.
  intros h f x X cache e h' Re Ex E c. unfold fruit_fit in E. rewrite (bind_ok K _ _ h x h) in E by (unfold look; now rewrite Ex). fold c in E.
  pose proof (reachable_wf K W h Re) as Wf.
  assert (G : forall ids h0 r h2, wf K h0 -> forM K ids (fun sl => slice_fit K sl X (Some c)) h0 = (r, h2) ->
     h_fr K h2 = h_fr K h0 /\ wf K h2 /\
     match r with
     | Ok _ => (forall j, In j ids -> flag K h2 j = Some true) /\ (forall j, flag K h0 j = Some true -> flag K h2 j = Some true) /\
               (forall j, ~ In j ids -> nth_error (h_sl K h2) j = nth_error (h_sl K h0) j)
     | Err e => exists pre sl post h1, ids = pre ++ sl :: post /\ slice_fit K sl X (Some c) h1 = (Err e, h2) /\
        (forall j, In j pre -> flag K h1 j = Some true) /\ (forall j, In j pre -> flag K h2 j = Some true) /\
        (forall j, flag K h0 j = Some true -> flag K h1 j = Some true) /\ (forall j, flag K h0 j = Some true -> flag K h2 j = Some true) /\
        (forall j, ~ In j (pre ++ [sl]) -> nth_error (h_sl K h2) j = nth_error (h_sl K h0) j)
     end).
  { clear - W. induction ids as [|sl ids IH]; intros h0 r h2 Wf E; cbn [forM] in E.
    - injection E as <- <-. split; [reflexivity|]. split; [exact Wf|]. split; [intros j []|]. auto.
    - pose proof (slice_fit_post K W sl X (Some c) h0 Wf) as P. destruct (slice_fit K sl X (Some c) h0) as [[[]|e] h1] eqn:Ef; cbn [fst snd] in P; destruct P as (Wf1 & (_ & F1 & L1 & R1) & Fl).
      + rewrite (bind_ok K _ _ _ _ _ Ef) in E. specialize (IH h1 r h2 Wf1 E). destruct IH as (F2 & Wf2 & D).
        assert (D1 : forall j, flag K h0 j = Some true -> flag K h1 j = Some true).
        { intros j Hj. destruct (Nat.eq_dec j sl) as [->|Hn]; [exact Fl|]. unfold flag in *. destruct (nth_error (h_sl K h0) j) as [s|] eqn:Es; [|discriminate].
          destruct (R1 j s Es) as (s' & -> & Eq & _). now rewrite (Eq Hn). }
        assert (D0 : forall j, j <> sl -> nth_error (h_sl K h1) j = nth_error (h_sl K h0) j).
        { intros j Hn. destruct (nth_error (h_sl K h0) j) as [s|] eqn:Es; [|apply nth_error_None in Es; apply nth_error_None; lia].
          destruct (R1 j s Es) as (s' & -> & Eq & _). now rewrite (Eq Hn). }
        split; [congruence|]. split; [exact Wf2|]. destruct r as [u|e].
        * destruct D as (D2 & D3 & D4). split; [intros j [<-|Hj]; [now apply D3|now apply D2]|]. split; [intros j Hj; now apply D3, D1|].
          intros j Hn. rewrite D4 by (intros Q; apply Hn; now right). apply D0. intros ->. apply Hn. now left.
        * destruct D as (pre & sl' & post & h3 & -> & E3 & D2 & D3 & D4 & D5 & D6). exists (sl :: pre), sl', post, h3. split; [reflexivity|]. split; [exact E3|].
          split; [intros j [<-|Hj]; [now apply D4|now apply D2]|]. split; [intros j [<-|Hj]; [now apply D5|now apply D3]|].
          split; [intros j Hj; now apply D4, D1|]. split; [intros j Hj; now apply D5, D1|].
          intros j Hn. rewrite D6 by (intros Q; apply Hn; now right). apply D0. intros ->. apply Hn. now left.
      + rewrite (bind_err K _ _ _ _ _ Ef) in E. injection E as <- <-. split; [exact F1|]. split; [exact Wf1|]. exists [], sl, ids, h0.
        assert (D0 : forall j, j <> sl -> nth_error (h_sl K h1) j = nth_error (h_sl K h0) j).
        { intros j Hn. destruct (nth_error (h_sl K h0) j) as [s|] eqn:Es; [|apply nth_error_None in Es; apply nth_error_None; lia].
          destruct (R1 j s Es) as (s' & -> & Eq & _). now rewrite (Eq Hn). }
        split; [reflexivity|]. split; [exact Ef|]. split; [intros j []|]. split; [intros j []|]. split; [auto|]. split.
        * intros j Hj. destruct (Nat.eq_dec j sl) as [->|Hn]; [now rewrite Fl|]. unfold flag in *. now rewrite D0.
        * intros j Hn. apply D0. intros ->. apply Hn. now left. }
  destruct (forM K (f_slices x) (fun sl => slice_fit K sl X (Some c)) h) as [[[]|e1] h2] eqn:Ef.
  - rewrite (bind_ok K _ _ _ _ _ Ef) in E. destruct (G _ _ _ _ Wf Ef) as (F2 & _). unfold upd_fr in E. rewrite (bind_ok K _ _ h2 x h2) in E by (unfold look; now rewrite F2, Ex). discriminate.
  - rewrite (bind_err K _ _ _ _ _ Ef) in E. injection E as <- <-. destruct (G _ _ _ _ Wf Ef) as (F2 & _ & pre & sl & post & h1 & A1 & A2 & A3 & A4 & A5 & A6 & A7).
    split; [exact F2|]. exists pre, sl, post, h1. auto 10.
Qed.
End C95.
Print Assumptions C95_failed_fit.
Print Assumptions C95_never_fitted.
Print Assumptions C95_truncated.
Print Assumptions C95_fruit.

Section W95.
Context {T : Type} `{N : Num T}.
Let long (X : dataset T) : bool := existsb (existsb (fun x => 2 <? length x)) X.
(** A preparateur that reverses the series after it has seen a long one, an ISS
    that cannot be fitted to long series ([1]), one that gives two sums, the second
    twice as long ([2]), and a sieve that takes the
    last value once it has been fitted, which it cannot be to long series. *)
Let toy : kit T := {|
  rng := unit; k_randint := fun g _ => (0, g); k_choice := fun g _ _ => ([], g); prepT := bool; issT := nat; sieveT := bool;
  p_attach := fun _ p => p; i_attach := fun _ i => i; s_attach := fun _ s => s;
  p_fit := fun g X p => (Ok tt, long X, g);
  i_fit := fun g X i => (if long X then Err ValueError else Ok tt, i, g);
  s_fit := fun g Y s => if existsb (fun x => 2 <? length x) Y then (Err ValueError, s, g) else (Ok tt, true, g);
  i_requires := fun i => i =? 1; s_requires := fun _ => true;
  p_transform := fun X p => (Ok (if p then map (map (@rev T)) X else X), p);
  s_transform := fun Y s => (Ok (map (fun r => [if s then last r nzero else nzero]) Y), s);
  i_batches := fun i X => [Ok (map (hd []) X :: if i =? 2 then [map (fun x => hd [] x ++ hd [] x) X] else [])];
  p_copy := Ok; i_copy := Ok; s_copy := fun _ => Ok false; i_n := fun i => Ok (if i =? 2 then 2 else 1); s_nf := fun _ => 1;
  p_label := fun _ => []; i_label := fun _ _ => Ok []; s_label := fun _ _ => Ok [] |}.
Let toy_lawful : lawful toy.
Proof.
  refine {| eqP := eq; eqI := eq; eqS := eq |}; try exact eq_equivalence; intros; cbn in *; subst; try reflexivity;
    try match goal with |- context [existsb ?f ?l] => destruct (existsb f l); reflexivity end.
Qed.
Let prog (i : nat) (x y z : T) : list (op toy) :=
  [ONewSlice toy; OAdd toy 0 [ClsP toy (Ok false); ClsI toy (Ok i); ClsS toy (Ok false)]; OFit toy 0 [[[x; y]]] None].
(** A failed fit need not leave a fitted slice as it was, nor make it unusable:
    [transform] returns without complaint, in the first case features computed
    with the new preparateur and the old sieves, in the second with sieves that
    are not fitted at all. *)
Theorem C95_as_before_refuted : exists (K : kit T), inhabited (lawful K) /\ forall x y z : T,
  exists h1 h2 : heap K, reachable K h1 /\ reachable K h2 /\
    (exists e h1', slice_fit K 0 [[[x; y; z]]] None h1 = (Err e, h1') /\
       fst (slice_transform K 0 [[[x; y]]] 0 None h1) = Ok [[y]] /\ fst (slice_transform K 0 [[[x; y]]] 0 None h1') = Ok [[x]]) /\
    (exists e h2', slice_fit K 0 [[[x; y; z]]] None h2 = (Err e, h2') /\
       fst (slice_transform K 0 [[[x; y]]] 0 None h2) = Ok [[y]] /\ fst (slice_transform K 0 [[[x; y]]] 0 None h2') = Ok [[nzero]]).
Proof.
  exists toy. split; [exact (inhabits toy_lawful)|]. intros x y z. exists (run toy (heap0 toy tt) (prog 1 x y z)), (run toy (heap0 toy tt) (prog 0 x y z)).
  split; [now exists tt, (prog 1 x y z)|]. split; [now exists tt, (prog 0 x y z)|].
  split; eexists; eexists; repeat split; vm_compute; reflexivity.
Qed.
(** The hypotheses of the theorems above: the fit of a fruit raises in the second
    of its slices; the fit of a slice raises after the first of two sums. *)
Example C95_witness_fruit : forall x y : T, let h := run toy (heap0 toy tt)
    [ONewFruit toy []; FAdd toy 0 [ClsI toy (Ok 0); ClsS toy (Ok false)]; FCut toy 0 None; FAdd toy 0 [ClsI toy (Ok 1)]] in
  reachable toy h /\ (exists h', fruit_fit toy 0 [[[x; y]]] None h = (Err RuntimeError, h') /\ flag toy h 0 = Some false /\ flag toy h' 0 = Some true /\ flag toy h' 1 = Some false).
Proof. intros x y h. split; [eexists; eexists; reflexivity|]. eexists. repeat split; vm_compute; reflexivity. Qed.
Example C95_witness_truncated : forall x y : T, let h0 := run toy (heap0 toy tt)
    [ONewSlice toy; OAdd toy 0 [ClsI toy (Ok 2); ClsS toy (Ok false)]; OFit toy 0 [[[x]]] None] in
  let h := run toy h0 [OFit toy 0 [[[x; y]]] None] in
  fst (slice_fit toy 0 [[[x; y]]] None h0) = Err ValueError /\ flag toy h 0 = Some true /\
  reachable toy h /\ exists s, nth_error (h_sl toy h) 0 = Some s /\ shaped toy h s /\ fst (niteratedsums toy 0 h) = Ok 2 /\ length (sl_ext s) = 1 /\
  fst (slice_transform toy 0 [[[x]]] 0 None h0) = Ok [[x; x]] /\ fst (slice_transform toy 0 [[[x]]] 0 None h) = Err IndexError.
Proof.
  intros x y h0 h. split; [vm_compute; reflexivity|]. split; [vm_compute; reflexivity|].
  split; [exists tt; eexists; unfold h, h0, run; rewrite <- fold_left_app; reflexivity|].
  assert (E : exists s, nth_error (h_sl toy h) 0 = Some s /\ length (sl_ext s) = 1) by (vm_compute; eexists; split; reflexivity).
  destruct E as (s & E & Ex). exists s. split; [exact E|]. split.
  { split; [|split].
    - intros id p _ _ c X Z _ EZ. injection EZ as <-. destruct p; [apply map_length|reflexivity].
    - intros id i _ _ c X L n _ (bs & Eb & ->) En. cbn in Eb, En. injection En as <-. destruct bs as [|b [|b' bs]]; try discriminate Eb. injection Eb as <-. cbn.
      destruct (i =? 2); cbn; (split; [reflexivity|]); intros Y; cbn; intuition (subst; now rewrite map_length).
    - intros id v _ _ c Y R _ ER. injection ER as <-. rewrite map_length. split; [reflexivity|]. intros r (r' & <- & _)%in_map_iff. reflexivity. }
  split; [vm_compute; reflexivity|]. split; [exact Ex|]. split; vm_compute; reflexivity.
Qed.
End W95.
Print Assumptions C95_as_before_refuted.

(** ** C96: add *)
Section C96.
Context {T : Type} `{N : Num T}.
Variable K : kit T.
Notation heap := (heap K).
(** The exception [add] raises for an argument: what the constructor of a class
    raises, TypeError for something that is no seed. *)
Definition rejected (a : arg K) : option exn :=
  match a with
  | ClsP _ (Err e) | ClsI _ (Err e) | ClsS _ (Err e) => Some e
  | ArgOther _ => Some TypeError
  | _ => None
  end.
(** The objects that come with the arguments; classes give new ones, numbered from [n]. *)
Fixpoint preps_of (n : nat) (l : list (arg K)) : list nat :=
  match l with [] => [] | ArgP _ id :: r => id :: preps_of n r | ClsP _ (Ok _) :: r => n :: preps_of (S n) r | _ :: r => preps_of n r end.
Fixpoint isss_of (n : nat) (l : list (arg K)) : list nat :=
  match l with [] => [] | ArgI _ id :: r => id :: isss_of n r | ClsI _ (Ok _) :: r => n :: isss_of (S n) r | _ :: r => isss_of n r end.
Fixpoint sieves_of (n : nat) (l : list (arg K)) : list nat :=
  match l with [] => [] | ArgS _ id :: r => id :: sieves_of n r | ClsS _ (Ok _) :: r => n :: sieves_of (S n) r | _ :: r => sieves_of n r end.
(** The objects the classes among the arguments give. *)
Definition new_preps (l : list (arg K)) : list (prepT K) := flat_map (fun a => match a with ClsP _ (Ok v) => [v] | _ => [] end) l.
Definition new_isss (l : list (arg K)) : list (issT K) := flat_map (fun a => match a with ClsI _ (Ok v) => [v] | _ => [] end) l.
Definition new_sieves (l : list (arg K)) : list (sieveT K) := flat_map (fun a => match a with ClsS _ (Ok v) => [v] | _ => [] end) l.
Definition exists_in (h : heap) (a : arg K) : Prop :=
  match a with ArgP _ id => id < length (h_p K h) | ArgI _ id => id < length (h_i K h) | ArgS _ id => id < length (h_s K h) | _ => True end.

(** [add] appends the arguments in the given order up to the first it rejects
    (all of them, if it returns); what comes after that is ignored, what was
    added before stays.  If at least one was added, the slice counts as not
    fitted. *)
Theorem C96_add : forall h sl s objects r h', nth_error (h_sl K h) sl = Some s -> Forall (exists_in h) objects ->
  slice_add K sl objects h = (r, h') ->
  exists done rest, objects = done ++ rest /\ Forall (fun a => rejected a = None) done /\
    match rest with [] => r = Ok tt | a :: _ => exists e, rejected a = Some e /\ r = Err e end /\
    h_p K h' = h_p K h ++ new_preps done /\ h_i K h' = h_i K h ++ new_isss done /\ h_s K h' = h_s K h ++ new_sieves done /\
    h_fr K h' = h_fr K h /\ h_g K h' = h_g K h /\ (forall j, j <> sl -> nth_error (h_sl K h') j = nth_error (h_sl K h) j) /\
    nth_error (h_sl K h') sl = Some {| sl_p := sl_p s ++ preps_of (length (h_p K h)) done; sl_i := sl_i s ++ isss_of (length (h_i K h)) done;
       sl_s := sl_s s ++ sieves_of (length (h_s K h)) done; sl_ext := sl_ext s; sl_sample := sl_sample s;
       sl_fitted := match done with [] => sl_fitted s | _ => false end |}.
Proof.
  intros h sl s objects. revert h s. induction objects as [|a objects IH]; intros h s r h' Es F E; unfold slice_add in *; cbn [forM] in E.
  - injection E as <- <-. exists [], []. cbn. rewrite !app_nil_r. repeat (split; [constructor || reflexivity|]). rewrite Es. now destruct s.
  - inversion F as [|? ? Va F']; subst. assert (Ls : sl < length (h_sl K h)) by (apply nth_error_Some; congruence).
    destruct (rejected a) as [e|] eqn:Ra.
    + assert (Ea : add1 K sl a h = (Err e, h)) by (destruct a as [id|id|id|[v|e0]|[v|e0]|[v|e0]|]; cbn in Ra; try discriminate; injection Ra as Ra; subst; reflexivity).
      rewrite (bind_err K _ _ _ _ _ Ea) in E. injection E as <- <-. exists [], (a :: objects). cbn. rewrite !app_nil_r.
      split; [reflexivity|]. split; [constructor|]. split; [now exists e|]. repeat (split; [reflexivity|]). rewrite Es. now destruct s.
    + assert (Ea : exists s1 h1, add1 K sl a h = (Ok tt, h1) /\ nth_error (h_sl K h1) sl = Some s1 /\ (forall j, j <> sl -> nth_error (h_sl K h1) j = nth_error (h_sl K h) j) /\
          h_p K h1 = h_p K h ++ new_preps [a] /\ h_i K h1 = h_i K h ++ new_isss [a] /\ h_s K h1 = h_s K h ++ new_sieves [a] /\ h_fr K h1 = h_fr K h /\ h_g K h1 = h_g K h /\
          s1 = {| sl_p := sl_p s ++ preps_of (length (h_p K h)) [a]; sl_i := sl_i s ++ isss_of (length (h_i K h)) [a]; sl_s := sl_s s ++ sieves_of (length (h_s K h)) [a];
                  sl_ext := sl_ext s; sl_sample := sl_sample s; sl_fitted := false |}).
      { assert (U : forall h0 f, h_sl K h0 = h_sl K h -> upd_sl K sl f h0 = (Ok tt, put_sl K h0 sl (f s)) /\ nth_error (h_sl K (put_sl K h0 sl (f s))) sl = Some (f s) /\
                     (forall j, j <> sl -> nth_error (h_sl K (put_sl K h0 sl (f s))) j = nth_error (h_sl K h) j)).
        { intros h0 f E0. split; [apply upd_sl_ok; congruence|]. assert (L0 : sl < length (h_sl K h0)) by congruence. split.
          - rewrite put_nth by exact L0. now rewrite Nat.eqb_refl.
          - intros j Hj. rewrite put_nth by exact L0. destruct (Nat.eqb_spec sl j); congruence. }
        destruct a as [id|id|id|[v|e0]|[v|e0]|[v|e0]|]; cbn in Ra; try discriminate; cbn [exists_in] in Va; cbn [add1]; unfold add_p, add_i, add_s.
        - unfold bindM, look at 1. destruct (nth_error (h_p K h) id) eqn:En; [|apply nth_error_None in En; lia].
          destruct (U h (fun s => with_p (sl_p s ++ [id]) s) eq_refl) as (U1 & U2 & U3). eexists. eexists. split; [exact U1|]. split; [exact U2|]. split; [exact U3|].
          cbn. rewrite !app_nil_r. repeat (split; [reflexivity|]). destruct s. reflexivity.
        - unfold bindM, look at 1. destruct (nth_error (h_i K h) id) eqn:En; [|apply nth_error_None in En; lia].
          destruct (U h (fun s => with_i (sl_i s ++ [id]) s) eq_refl) as (U1 & U2 & U3). eexists. eexists. split; [exact U1|]. split; [exact U2|]. split; [exact U3|].
          cbn. rewrite !app_nil_r. repeat (split; [reflexivity|]). destruct s. reflexivity.
        - unfold bindM, look at 1. destruct (nth_error (h_s K h) id) eqn:En; [|apply nth_error_None in En; lia].
          destruct (U h (fun s => with_s (sl_s s ++ [id]) s) eq_refl) as (U1 & U2 & U3). eexists. eexists. split; [exact U1|]. split; [exact U2|]. split; [exact U3|].
          cbn. rewrite !app_nil_r. repeat (split; [reflexivity|]). destruct s. reflexivity.
        - destruct (U (snd (new_p K v h)) (fun s => with_p (sl_p s ++ [length (h_p K h)]) s) eq_refl) as (U1 & U2 & U3). eexists. eexists. split; [exact U1|]. split; [exact U2|]. split; [exact U3|].
          cbn. rewrite !app_nil_r. repeat (split; [reflexivity|]). destruct s. reflexivity.
        - destruct (U (snd (new_i K v h)) (fun s => with_i (sl_i s ++ [length (h_i K h)]) s) eq_refl) as (U1 & U2 & U3). eexists. eexists. split; [exact U1|]. split; [exact U2|]. split; [exact U3|].
          cbn. rewrite !app_nil_r. repeat (split; [reflexivity|]). destruct s. reflexivity.
        - destruct (U (snd (new_s K v h)) (fun s => with_s (sl_s s ++ [length (h_s K h)]) s) eq_refl) as (U1 & U2 & U3). eexists. eexists. split; [exact U1|]. split; [exact U2|]. split; [exact U3|].
          cbn. rewrite !app_nil_r. repeat (split; [reflexivity|]). destruct s. reflexivity. }
      destruct Ea as (s1 & h1 & Ea & Es1 & Ot & Ep & Ei & Ess & Ef & Eg & Eq). rewrite (bind_ok K _ _ _ _ _ Ea) in E.
      assert (F1 : Forall (exists_in h1) objects).
      { eapply Forall_impl; [|exact F']. intros b. unfold exists_in. rewrite Ep, Ei, Ess, !app_length. destruct b; auto; lia. }
      destruct (IH h1 s1 r h' Es1 F1 E) as (done & rest & A1 & A2 & A3 & A4 & A5 & A6 & A7 & A8 & A9 & A10).
      exists (a :: done), rest. split; [now rewrite A1|]. split; [constructor; assumption|]. split; [exact A3|].
      split; [rewrite A4, Ep, <- app_assoc; cbn; now rewrite app_nil_r|]. split; [rewrite A5, Ei, <- app_assoc; cbn; now rewrite app_nil_r|].
      split; [rewrite A6, Ess, <- app_assoc; cbn; now rewrite app_nil_r|]. split; [congruence|]. split; [congruence|]. split; [intros j Hj; rewrite A9 by exact Hj; now apply Ot|].
      rewrite A10, Eq, Ep, Ei, Ess, !app_length. cbn [M_Fruit.sl_p M_Fruit.sl_i M_Fruit.sl_s M_Fruit.sl_ext M_Fruit.sl_sample M_Fruit.sl_fitted]. f_equal. rewrite <- !app_assoc.
      assert (Ed : match done with [] => false | _ => false end = false) by (now destruct done).
      destruct a as [id|id|id|[v|e0]|[v|e0]|[v|e0]|]; cbn in Ra; try discriminate; cbn; rewrite ?Nat.add_0_r, ?Nat.add_1_r, Ed; reflexivity.
Qed.
(** A fruit on which [add] raises: if an object was added before, [transform]
    raises until the fruit is fitted again, although the fruit itself may still
    count as fitted; if not, nothing has changed. *)
Theorem C96_fruit : forall (W : lawful K) h f x sl s objects e h', reachable K h -> nth_error (h_fr K h) f = Some x ->
  nth_error (f_slices x) (f_idx x) = Some sl -> nth_error (h_sl K h) sl = Some s -> Forall (exists_in h) objects ->
  fruit_add K f objects h = (Err e, h') ->
  h_fr K h' = h_fr K h /\
  exists done a rest, objects = done ++ a :: rest /\ rejected a = Some e /\ slice_add K sl objects h = (Err e, h') /\
    (done = [] -> h' = h) /\ (done <> [] -> forall X cbs cache A, fst (fruit_transform K f X cbs cache h') <> Ok A).
Proof.
  intros W h f x sl s objects e h' Re Ex El Es Fo E. unfold fruit_add in E. rewrite (bind_ok K _ _ h x h) in E by (unfold look; now rewrite Ex).
  assert (Ne : nonempty (f_slices x) = true) by (destruct (f_slices x); [destruct (f_idx x); discriminate|reflexivity]). rewrite Ne in E.
  rewrite (bind_ok K _ _ h tt h) in E by reflexivity.
  assert (Eg : fruit_get_slice K f None h = (Ok sl, h)).
  { unfold fruit_get_slice. rewrite (bind_ok K _ _ h x h) by (unfold look; now rewrite Ex). now rewrite El. }
  rewrite (bind_ok K _ _ _ _ _ Eg) in E. destruct (slice_add K sl objects h) as [r h1] eqn:Ea.
  destruct (C96_add h sl s objects r h1 Es Fo Ea) as (done & rest & A1 & A2 & A3 & A4 & A5 & A6 & A7 & A8 & A9 & A10).
  destruct rest as [|a rest].
  { subst r. rewrite (bind_ok K _ _ _ _ _ Ea) in E. unfold upd_fr in E. rewrite (bind_ok K _ _ h1 x h1) in E by (unfold look; now rewrite A7, Ex). discriminate. }
  destruct A3 as (e0 & Re0 & ->). rewrite (bind_err K _ _ _ _ _ Ea) in E. injection E as <- <-. split; [exact A7|]. exists done, a, rest.
  split; [exact A1|]. split; [exact Re0|]. split; [reflexivity|]. split.
  - intros ->. subst objects. unfold slice_add in Ea. cbn [app forM] in Ea.
    assert (Eb : add1 K sl a h = (Err e0, h)) by (destruct a as [id|id|id|[v|e1]|[v|e1]|[v|e1]|]; cbn in Re0; try discriminate; injection Re0 as Re0; subst; reflexivity).
    rewrite (bind_err K _ _ _ _ _ Eb) in Ea. now injection Ea as <-.
  - intros Nd X cbs cache A Q.
    unfold fruit_transform in Q. rewrite (bind_ok K _ _ h1 x h1) in Q by (unfold look; now rewrite A7, Ex).
    destruct (f_fitted x); cbn [negb] in Q; [|discriminate].
    match type of Q with fst (?m h1) = _ => destruct (m h1) as [r h3] eqn:E' end. cbn in Q. subst r.
    apply bind_inv in E' as (n & h4 & E1 & E'). apply bind_inv in E' as (B & h5 & E' & _).
    assert (Q1 : quiet K h1 h4) by (replace h4 with (snd (fruit_nfeatures K f h1)) by (now rewrite E1); apply quiet_fruit_nf).
    assert (Fl : flag K h4 sl = Some true) by (eapply run_slices_flags; [exact W|exact E'|]; eapply nth_error_In; exact El).
    rewrite (quiet_flag K h1 h4 sl Q1) in Fl. unfold flag in Fl. rewrite A10 in Fl. cbn in Fl. destruct done; congruence.
Qed.


(** An object, a class, something else, another object: the first two are added. *)
Example C96_witness : forall (p : prepT K) (i : issT K) g, let h := run K (heap0 K g) [ONewPrep K p; ONewPrep K p; ONewFruit K []; FCut K 0 None] in
  let objects := [ArgP K 0; ClsI K (Ok i); ArgOther K; ArgP K 1] in
  reachable K h /\ Forall (exists_in h) objects /\ exists h', fruit_add K 0 objects h = (Err TypeError, h') /\
    option_map (fun s => (sl_p s, sl_i s, sl_s s)) (nth_error (h_sl K h') 0) = Some ([0], [0], []).
Proof.
  intros p i g h objects. split; [now exists g; eexists|]. split; [repeat constructor|]. eexists. split; vm_compute; reflexivity.
Qed.

End C96.
Print Assumptions C96_add.
Print Assumptions C96_fruit.
