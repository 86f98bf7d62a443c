(** C28: no stale fitted sieves. *)
From Coq Require Import Ascii String List Arith ZArith Bool RelationClasses Lia.
From Verif Require Import Num Arr M_Str M_Words M_Np M_Prep M_Fruit S_Fruit L_Arr L_Fruit L_Fruit2 L_Fruit3 L_Fruit4 L_Fruit5 L_Fruit6 L_Fruit7 L_Fruit8 P_Fruit2.
Import ListNotations.

Section C28.
Context {T : Type} `{Num T}.
Variable K : kit T.
Variable W : lawful K.
Notation heap := (heap K).

(** [v'] is a copy of sieve [v] that has been fitted on [Y] (with cache [c]). *)
Definition fitted_copy (c : dataset T) (Y : mts T) (v v' : sieveT K) : Prop :=
  exists cp g g', s_copy K v = Ok cp /\ s_fit K g Y (s_attach K c cp) = (Ok tt, v', g').

Lemma fit_all_copies c Y g cs fs g' svs : Forall2 (fun s s' => s_copy K s = Ok s') svs cs -> fit_all K c Y g cs fs g' ->
  Forall2 (fitted_copy c Y) svs fs.
Proof.
  intros F A. revert svs F. induction A as [g|g s s' g1 l l' g2 E A IH]; intros svs F; inversion F; subst; constructor.
  - exists s, g, g1. auto.
  - now apply IH.
Qed.
Lemma objs_app {A} (l l' : list A) ids os : objs l ids os -> objs (l ++ l') ids os.
Proof. intros F. eapply Forall2_impl; [|exact F]. intros id o E. cbn in E. rewrite nth_error_app1; [exact E|]. apply nth_error_Some. congruence. Qed.
Lemma objs_len {A} (l : list A) ids os : objs l ids os -> length os = length ids.
Proof. intros F. symmetry. eapply Forall2_len, F. Qed.
Lemma fit_ext_ok c sl sieves its h h' s svs :
  objs (h_s K h) sieves svs -> nth_error (h_sl K h) sl = Some s ->
  fit_ext K c sl sieves its h = (Ok tt, h') ->
  exists Ys fss, its = map Ok Ys /\ h_i K h' = h_i K h /\ h_s K h' = h_s K h ++ concat fss /\
    Forall2 (fun Y fs => Forall2 (fitted_copy c Y) svs fs) Ys fss /\
    nth_error (h_sl K h') sl = Some (with_ext (sl_ext s ++ map (fun k => seq (length (h_s K h) + k * length sieves) (length sieves)) (seq 0 (length Ys))) s).
Proof.
  revert h s. induction its as [|[Y|e] its IH]; intros h s O Es E; cbn [fit_ext] in E; [| |discriminate].
  - injection E as <-. exists [], []. cbn. rewrite !app_nil_r. destruct s. repeat split; auto.
  - apply bind_inv in E as (ids & h1 & Ec & E). apply bind_inv in E as ([] & h2 & Ef & E). apply bind_inv in E as ([] & h3 & Eu & E).
    destruct (collect_copy_ok K sieves h ids h1) as (Eids & svs' & copies & O' & Fc & Eh1).
    { intros id Hid. destruct (objs_in _ _ _ _ O Hid) as (o & _ & En). apply nth_error_Some. congruence. }
    { exact Ec. }
    assert (svs' = svs). { clear - O O'. revert svs' O'. induction O as [|id o ids os E F IH]; intros ? O'; inversion O'; subst; [reflexivity|]. f_equal; [congruence|auto]. }
    subst svs'.
    assert (L : length copies = length sieves) by (rewrite <- (Forall2_len _ _ _ Fc); now apply objs_len in O).
    rewrite Eids in Ef. destruct (forM_fit_ok K c Y (length sieves) h1 (h_s K h) copies h2) as (fs & g' & Fa & Eh2); [now rewrite Eh1|exact L|exact Ef|].
    assert (Es2 : nth_error (h_sl K h2) sl = Some s) by (rewrite Eh2, Eh1; exact Es).
    rewrite (upd_sl_ok K h2 sl _ s Es2) in Eu. injection Eu as Eu.
    assert (Lf : length fs = length sieves). { rewrite <- L. clear - Fa. induction Fa; cbn; congruence. }
    assert (Es3 : nth_error (h_sl K h3) sl = Some (with_ext (sl_ext s ++ [ids]) s)).
    { subst h3. rewrite put_nth by (now apply nth_lt in Es2). now rewrite Nat.eqb_refl. }
    assert (Hs3 : h_s K h3 = h_s K h ++ fs) by (subst h3 h2; reflexivity).
    destruct (IH h3 _ ltac:(rewrite Hs3; now apply objs_app) Es3 E) as (Ys & fss & A1 & A2 & A3 & A4 & A5).
    exists (Y :: Ys), (fs :: fss). split; [now rewrite A1|]. split; [rewrite A2; subst h3 h2 h1; reflexivity|].
    split; [rewrite A3, Hs3; cbn; now rewrite <- app_assoc|].
    split. { constructor; [|exact A4]. eapply fit_all_copies; eassumption. }
    rewrite A5. f_equal. destruct s as [sp si ss se sf sm]. unfold with_ext. cbn [sl_p sl_i sl_s sl_ext sl_fitted sl_sample]. f_equal.
    rewrite Hs3, app_length, Lf, <- app_assoc. f_equal. rewrite Eids. cbn [length seq map app].
    f_equal; [f_equal; lia|]. rewrite <- seq_shift, map_map. apply map_ext. intros k. f_equal. lia.
Qed.
(** What fits, without the sieves, changes: preparateurs, ISS, random state. *)
Definition upto (h h' : heap) : Prop := h_s K h' = h_s K h /\ h_sl K h' = h_sl K h /\ h_fr K h' = h_fr K h /\ length (h_i K h') = length (h_i K h).
Lemma upto_refl h : upto h h. Proof. repeat split. Qed.
Lemma upto_trans a b c : upto a b -> upto b c -> upto a c. Proof. unfold upto. intuition congruence. Qed.
Lemma upto_preps c ids Y : pres K upto (fit_preps K c ids Y).
Proof.
  revert Y. induction ids as [|id ids IH]; intros Y; cbn [fit_preps]; [apply (pres_ret K _ upto_refl)|].
  apply (pres_bind K _ upto_trans); [apply (pres_look K _ upto_refl)|intros p]. apply (pres_bind K _ upto_trans); [apply (pres_get_g K _ upto_refl)|intros g].
  destruct (p_fit K g Y (p_attach K c p)) as [[x p1] g']. 
  apply (pres_bind K _ upto_trans); [intros h; repeat split|intros _]. apply (pres_bind K _ upto_trans); [intros h; repeat split|intros _].
  apply (pres_bind K _ upto_trans); [apply (pres_liftR K _ upto_refl)|intros _]. destruct (p_transform K Y p1) as [y p2].
  apply (pres_bind K _ upto_trans); [intros h; repeat split|intros _]. apply (pres_bind K _ upto_trans); [apply (pres_liftR K _ upto_refl)|intros Z]. apply IH.
Qed.
Lemma upto_iss c Y id : pres K upto (fit_iss K c Y id).
Proof.
  unfold fit_iss. apply (pres_bind K _ upto_trans); [apply (pres_look K _ upto_refl)|intros i]. apply (pres_bind K _ upto_trans); [apply (pres_get_g K _ upto_refl)|intros g].
  assert (S1 : forall v, pres K upto (set_i K id v)) by (intros v h; unfold upto; cbn; now rewrite upd_length).
  destruct (i_requires K (i_attach K c i)); [|apply S1]. destruct (i_fit K g Y (i_attach K c i)) as [[x i1] g'].
  apply (pres_bind K _ upto_trans); [apply S1|intros _]. apply (pres_bind K _ upto_trans); [intros h; repeat split|intros _]. apply (pres_liftR K _ upto_refl).
Qed.
Lemma upto_sample size n : pres K upto (select_sample K size n).
Proof.
  unfold select_sample. apply (pres_bind K _ upto_trans); [apply (pres_get_g K _ upto_refl)|intros g]. destruct size.
  - destruct (n =? 0); [apply (pres_raise K _ upto_refl)|]. destruct (k_randint K g n). apply (pres_bind K _ upto_trans); [intros h; repeat split|intros _; apply (pres_ret K _ upto_refl)].
  - destruct (n <? _); [apply (pres_raise K _ upto_refl)|]. destruct (k_choice K g n _). apply (pres_bind K _ upto_trans); [intros h; repeat split|intros _; apply (pres_ret K _ upto_refl)].
Qed.
Lemma NoDup_rows m n a : NoDup (concat (map (fun k => seq (a + k * m) m) (seq 0 n))).
Proof.
  assert (E : concat (map (fun k => seq (a + k * m) m) (seq 0 n)) = seq a (n * m)).
  { induction n as [|n IH]; [reflexivity|]. rewrite seq_S, map_app, concat_app, IH. cbn [map concat]. rewrite app_nil_r, <- seq_app. f_equal. lia. }
  rewrite E. apply seq_NoDup.
Qed.

(** ** C28 *)
(** After any history [h], a fit of slice [sl] that returns leaves the slice in
    one of two states.  Either none of its sieves requires fitting and there
    are no fitted sieves (so that [transform] uses the sieves themselves); or
    there is one row of sieves for every iterated sum the ISS now yield, all of
    these sieves are objects created by this very fit (no object of [h], no
    object twice), and the j-th of row k is a copy of the j-th sieve of the
    slice, fitted on the k-th iterated sum. *)
Theorem fit_fresh_sieves h sl s svs X cache h' is :
  reachable K h -> nth_error (h_sl K h) sl = Some s -> objs (h_s K h) (sl_s s) svs ->
  slice_fit K sl X cache h = (Ok tt, h') ->
  objs (h_i K h') (sl_i s) is ->
  let c := match cache with Some c => c | None => X end in
  exists s', nth_error (h_sl K h') sl = Some s' /\ structure K h' sl = structure K h sl /\ sl_fitted s' = true /\
    ((forall v, In v svs -> s_requires K v = false) /\ sl_ext s' = [] /\ objs (h_s K h') (sl_s s) svs \/
     (exists v, In v svs /\ s_requires K v = true) /\
     NoDup (concat (sl_ext s')) /\ (forall id, In id (concat (sl_ext s')) -> length (h_s K h) <= id < length (h_s K h')) /\
     (forall id, id < length (h_s K h) -> nth_error (h_s K h') id = nth_error (h_s K h) id) /\
     exists Y Ys, Forall2 (fun Yk row => exists vs, objs (h_s K h') row vs /\ Forall2 (fitted_copy c Yk) svs vs) Ys (sl_ext s') /\
       forall ns, Forall2 (fun i n => i_n K i = Ok n) is ns -> (forall i, In i is -> iss_counts K (length Y) i) ->
         length (sl_ext s') = fold_right Nat.mul 1 ns /\
         forall js, Forall2 lt js ns -> exists Z, nth_error Ys (radix ns js) = Some Z /\ itsum K is js Y Z).
Proof.
  intros Re Es O E Oi c. pose proof (reachable_wf K W h Re) as Wf.
  pose proof (slice_fit_post K W sl X cache h Wf) as P. rewrite E in P. cbn [fst snd] in P. destruct P as (Wf' & (_ & _ & _ & R) & _).
  destruct (R sl s Es) as (s'' & Es'' & _ & Ep & Ei & Ess & _). clear R.
  unfold slice_fit in E. apply bind_inv in E as (s0 & h0 & E0 & E). unfold look in E0. rewrite Es in E0. injection E0 as <- <-.
  destruct (nonempty (sl_i s)) eqn:Ni; cbn [negb] in E; [|discriminate]. destruct (nonempty (sl_s s)) eqn:Ns; cbn [negb] in E; [|discriminate].
  apply bind_inv in E as (idx & h1 & E1 & E). apply bind_inv in E as (Y & h2 & E2 & E). apply bind_inv in E as ([] & h3 & E3 & E).
  assert (U : upto h h3).
  { apply (upto_trans h h1); [|apply (upto_trans h1 h2)].
    - replace h1 with (snd (select_sample K (sl_sample s) (length X) h)) by (now rewrite E1). apply upto_sample.
    - match type of E2 with ?m _ = _ => replace h2 with (snd (m h1)) by (now rewrite E2) end. apply upto_preps.
    - match type of E3 with ?m _ = _ => replace h3 with (snd (m h2)) by (now rewrite E3) end.
      apply (pres_forM K _ upto_refl upto_trans). intros; apply upto_iss. }
  destruct U as (U1 & U2 & _). assert (Es3 : nth_error (h_sl K h3) sl = Some s) by (now rewrite U2).
  apply bind_inv in E as (svs0 & h4 & E4 & E). apply collect_look_inv in E4 as (-> & O3).
  assert (svs0 = svs). { rewrite U1 in O3. clear - O O3. revert svs0 O3. induction O as [|id o ids os E F IH]; intros ? O'; inversion O'; subst; [reflexivity|]. f_equal; [congruence|auto]. }
  subst svs0. destruct (existsb (s_requires K) svs) eqn:Er; cbn [negb] in E.
  - apply bind_inv in E as ([] & h5 & E5 & E). rewrite (upd_sl_ok K h3 sl _ s Es3) in E5. injection E5 as E5.
    assert (Es5 : nth_error (h_sl K h5) sl = Some (with_ext [] s)) by (subst h5; rewrite put_nth by (now apply nth_lt in Es3); now rewrite Nat.eqb_refl).
    apply bind_inv in E as (is5 & h6 & E6 & E). apply collect_look_inv in E6 as (-> & O5).
    apply bind_inv in E as ([] & h7 & E7 & E).
    destruct (fit_ext_ok c sl (sl_s s) (iterate_iss K is5 Y) h5 h7 (with_ext [] s) svs) as (Ys & fss & A1 & A2 & A3 & A4 & A5); [subst h5; exact O3|exact Es5|exact E7|].
    rewrite (upd_sl_ok K h7 sl _ _ A5) in E. injection E as E.
    assert (Hs5 : h_s K h5 = h_s K h) by (subst h5; exact U1).
    assert (L7 : sl < length (h_sl K h7)) by (now apply nth_lt in A5).
    assert (Es' : nth_error (h_sl K h') sl = Some (with_fitted true (with_ext (map (fun k => seq (length (h_s K h) + k * length (sl_s s)) (length (sl_s s))) (seq 0 (length Ys))) s))).
    { subst h'. rewrite put_nth by exact L7. rewrite Nat.eqb_refl. cbn [sl_ext with_ext app]. now rewrite Hs5. }
    assert (Hs' : h_s K h' = h_s K h ++ concat fss) by (rewrite <- Hs5, <- A3; subst h'; reflexivity).
    assert (is5 = is).
    { assert (O5' : objs (h_i K h') (sl_i s) is5) by (replace (h_i K h') with (h_i K h7) by (subst h'; reflexivity); rewrite A2; exact O5).
      clear - Oi O5'. revert is5 O5'. induction Oi as [|id o ids os E F IH]; intros ? O'; inversion O'; subst; [reflexivity|]. f_equal; [congruence|auto]. }
    subst is5. assert (Lf : Forall (fun fs => length fs = length (sl_s s)) fss).
    { rewrite <- (objs_len _ _ _ O). clear - A4. induction A4 as [|? ? ? ? A B IH]; constructor; [symmetry; now apply Forall2_len in A|assumption]. }
    assert (Ly : length fss = length Ys) by (symmetry; eapply Forall2_len, A4).
    eexists. split; [exact Es'|]. split; [unfold structure; rewrite Es', Es; reflexivity|]. split; [reflexivity|]. right.
    cbn [sl_ext with_fitted with_ext]. split; [now apply existsb_exists in Er|]. split; [apply NoDup_rows|]. split.
    { intros id Hid. apply in_concat in Hid as (row & Hrow & Hid). apply in_map_iff in Hrow as (k & <- & Hk). apply in_seq in Hk, Hid.
      rewrite Hs', app_length. assert (Lc : length (concat fss) = length fss * length (sl_s s)).
      { clear - Lf. induction Lf as [|fs fss Hf F IH]; [reflexivity|]. cbn. rewrite app_length, IH, Hf. lia. }
      rewrite Lc, Ly. nia. }
    split. { intros id Hid. rewrite Hs'. now apply nth_error_app1. }
    exists Y, Ys. split.
    { rewrite Hs'. clear - A4 O. set (m := length (sl_s s)) in *. assert (Lm : length svs = m) by (now apply objs_len in O).
      assert (G : forall old, Forall2 (fun (Yk : mts T) row => exists vs, objs (old ++ concat fss) row vs /\ Forall2 (fitted_copy c Yk) svs vs) Ys
          (map (fun k => seq (length old + k * m) m) (seq 0 (length Ys)))).
      { clear O. induction A4 as [|Yk fs Ys fss A B IH]; intros old; cbn [length seq map]; constructor.
        - exists fs. split; [|exact A]. cbn [concat]. assert (Lfs : length fs = m) by (apply Forall2_len in A; congruence).
          replace (length old + 0 * m) with (length old) by lia. rewrite <- Lfs. clear. generalize (concat fss) as tail. intros tail. rewrite app_assoc.
          apply objs_app. revert old. induction fs as [|f fs IH]; intros old; cbn; constructor.
          + now rewrite nth_error_app2, Nat.sub_diag by lia.
          + specialize (IH (old ++ [f])). rewrite app_length in IH. cbn in IH. rewrite Nat.add_1_r, <- app_assoc in IH. exact IH.
        - specialize (IH (old ++ fs)). rewrite app_length in IH. assert (Lfs : length fs = m) by (apply Forall2_len in A; congruence). rewrite Lfs in IH.
          cbn [concat]. rewrite <- app_assoc in IH. rewrite <- seq_shift, map_map.
          erewrite map_ext; [exact IH|]. intros k. cbn. f_equal. lia. }
      apply G. }
    intros ns Fn Ic. destruct (iterate_iss_counts K (length Y) is ns Fn Ic Y Ys eq_refl A1) as (B1 & _ & B3). split; [|exact B3].
    now rewrite map_length, seq_length.
  - rewrite (upd_sl_ok K h3 sl _ s Es3) in E. injection E as E.
    assert (Es' : nth_error (h_sl K h') sl = Some (with_fitted true s)) by (subst h'; rewrite put_nth by (now apply nth_lt in Es3); now rewrite Nat.eqb_refl).
    assert (Rq : forall v, In v svs -> s_requires K v = false).
    { intros v Hv. destruct (s_requires K v) eqn:Ev; [|reflexivity]. assert (existsb (s_requires K) svs = true) by (apply existsb_exists; eauto). congruence. }
    exists (with_fitted true s). split; [exact Es'|]. split; [unfold structure; rewrite Es', Es; reflexivity|]. split; [reflexivity|]. left.
    split; [exact Rq|]. split; [|replace (h_s K h') with (h_s K h3) by (subst h'; reflexivity); exact O3].
    cbn. destruct (proj1 Wf sl s Es) as (_ & N & _). destruct (sl_ext s) as [|row e]; [reflexivity|].
    destruct N as (id & o & Hi & Hn & Hr); [discriminate|]. destruct (objs_in _ _ _ _ O Hi) as (o' & Ho & Hn'). assert (o' = o) by congruence. subst o'.
    rewrite (Rq o Ho) in Hr. discriminate.
Qed.
End C28.
Print Assumptions fit_fresh_sieves.
