(** Flags along histories. *)
From Coq Require Import Ascii String List Arith ZArith Bool RelationClasses Lia.
From Verif Require Import Num Arr M_Str M_Words M_Np M_Fruit S_Fruit L_Arr L_Fruit L_Fruit2 L_Fruit3 L_Fruit4.
Import ListNotations.

Section Flags.
Context {T : Type} `{Num T}.
Variable K : kit T.
Notation heap := (heap K).
Variable W : lawful K.
Notation flag := (flag K).
Notation wf := (wf K).
Definition fflag (h : heap) (f : nat) : option bool := option_map f_fitted (nth_error (h_fr K h) f).

Lemma flag_put h sl s : sl < length (h_sl K h) -> flag (put_sl K h sl s) sl = Some (sl_fitted s).
Proof. intros L. unfold flag. rewrite put_nth by exact L. now rewrite Nat.eqb_refl. Qed.
Lemma flag_upd_sl h sl f h' : (forall s, sl_fitted (f s) = false) -> upd_sl K sl f h = (Ok tt, h') -> flag h' sl = Some false.
Proof.
  intros E U. destruct (nth_error (h_sl K h) sl) as [s|] eqn:Es.
  - rewrite (upd_sl_ok K h sl f s Es) in U. injection U as <-. rewrite flag_put by (eapply nth_lt; exact Es). now rewrite E.
  - unfold upd_sl, bindM, look in U. rewrite Es in U. discriminate.
Qed.
Lemma bind_inv {A B} (m : M K A) (f : A -> M K B) h b h' : bindM K m f h = (Ok b, h') -> exists a h1, m h = (Ok a, h1) /\ f a h1 = (Ok b, h').
Proof. unfold bindM. destruct (m h) as [[a|e] h1]; [eauto|discriminate]. Qed.
Lemma flag_add1 h sl a h' : add1 K sl a h = (Ok tt, h') -> flag h' sl = Some false.
Proof.
  destruct a; cbn [add1]; intros E; try discriminate.
  1-3: apply bind_inv in E as (o & h1 & _ & E); eapply flag_upd_sl; [|exact E]; reflexivity.
  all: apply bind_inv in E as (o & h1 & _ & E); apply bind_inv in E as (o2 & h2 & _ & E); eapply flag_upd_sl; [|exact E]; reflexivity.
Qed.
Lemma flag_tR (tch ftch : nat -> Prop) h h' sl : tR K tch ftch h h' -> flag h sl = Some false -> flag h' sl = Some false.
Proof.
  intros (_ & _ & L & _ & E & _) F. unfold flag in *. destruct (nth_error (h_sl K h) sl) as [s|] eqn:Es; [|discriminate].
  destruct (nth_error (h_sl K h') sl) as [s'|] eqn:Es'.
  - specialize (E sl s' Es'). rewrite Es in E. cbn in *. destruct E as [(_ & ->)|(_ & ->)]; [reflexivity|exact F].
  - apply nth_lt in Es. apply nth_error_None in Es'. lia.
Qed.
Lemma flag_slice_add h sl a r : fst (add1 K sl a h) = Ok tt -> flag (snd (slice_add K sl (a :: r) h)) sl = Some false.
Proof.
  intros E. destruct (add1 K sl a h) as [x h1] eqn:E1. cbn in E. subst x. unfold slice_add. cbn [forM]. rewrite (bind_ok K _ _ _ _ _ E1).
  eapply flag_tR; [apply (tR_slice_add K (only sl) none sl r); reflexivity|]. eapply flag_add1, E1.
Qed.
Lemma modifies_flag h o sl : modifies K h o sl -> flag (snd (exec K o h)) sl = Some false.
Proof.
  destruct o; cbn [modifies exec]; try contradiction.
  - destruct objects as [|a r]; [contradiction|]. intros (-> & E). now apply flag_slice_add.
  - intros (-> & E). destruct (nth_error (h_sl K h) sl) as [s|] eqn:Es; [|contradiction].
    unfold clear_p. rewrite (upd_sl_ok K h sl _ s Es). apply flag_put. eapply nth_lt, Es.
  - intros (-> & E). destruct (nth_error (h_sl K h) sl) as [s|] eqn:Es; [|contradiction].
    unfold clear_i. rewrite (upd_sl_ok K h sl _ s Es). apply flag_put. eapply nth_lt, Es.
  - intros (-> & E). destruct (nth_error (h_sl K h) sl) as [s|] eqn:Es; [|contradiction].
    unfold clear_s. rewrite (upd_sl_ok K h sl _ s Es). apply flag_put. eapply nth_lt, Es.
  - intros (-> & E). destruct (nth_error (h_sl K h) sl) as [s|] eqn:Es; [|contradiction].
    unfold clear, clear_p. rewrite (bind_ok K _ _ _ _ _ (upd_sl_ok K h sl _ s Es)).
    match goal with |- flag (snd (?m ?h1)) _ = _ => assert (P : tR K (only sl) none h1 (snd (m h1))) end.
    { pose proof (tR_trans K (only sl) none) as Rt.
      apply (pres_bind K _ Rt); [apply tR_clear_i|intros _]. apply (pres_bind K _ Rt); [apply tR_clear_s|intros _]. apply tR_sample. }
    eapply flag_tR; [exact P|]. apply flag_put. eapply nth_lt, Es.
  - destruct objects as [|a r]; [contradiction|]. intros (E & Ea). unfold selected in E.
    destruct (nth_error (h_fr K h) f) as [x|] eqn:Hx; [|discriminate].
    unfold fruit_add. rewrite (bind_ok K _ _ h x h) by (unfold look; now rewrite Hx).
    assert (N : nonempty (f_slices x) = true) by (destruct (f_slices x); [destruct (f_idx x); discriminate|reflexivity]).
    rewrite N, (bind_ok K _ _ h tt h) by reflexivity.
    rewrite (bind_ok K _ _ h sl h).
    2:{ unfold fruit_get_slice. rewrite (bind_ok K _ _ h x h) by (unfold look; now rewrite Hx). now rewrite E. }
    pose proof (flag_slice_add h sl a r Ea) as F. destruct (slice_add K sl (a :: r) h) as [[[]|e] h1] eqn:E1.
    + rewrite (bind_ok K _ _ _ _ _ E1). eapply flag_tR; [apply (tR_fr_unfit K none (only f) f); reflexivity|exact F].
    + rewrite (bind_err K _ _ _ _ _ E1). exact F.
Qed.
Lemma fflag_upd h f g h' : (forall x, f_fitted (g x) = false) -> upd_fr K f g h = (Ok tt, h') -> fflag h' f = Some false.
Proof.
  intros E U. unfold upd_fr, bindM, look in U. destruct (nth_error (h_fr K h) f) as [x|] eqn:Ex; [|discriminate].
  injection U as <-. unfold fflag. cbn. rewrite upd_nth_error_eq by (eapply nth_lt, Ex). cbn. now rewrite E.
Qed.
Lemma fruit_modifies_flag h o f : fruit_modifies K h o f -> fflag (snd (exec K o h)) f = Some false.
Proof.
  destruct o; cbn [fruit_modifies exec]; try contradiction; intros (-> & E).
  - destruct (fruit_cut K f sl h) as [r h'] eqn:E'. cbn in *. subst r. apply bind_inv in E' as (a & h1 & _ & E'). eapply fflag_upd; [|exact E']. reflexivity.
  - destruct (fruit_copycut K f h) as [r h'] eqn:E'. cbn in *. subst r. apply bind_inv in E' as (a & h1 & _ & E').
    apply bind_inv in E' as (b & h2 & _ & E'). apply bind_inv in E' as (d & h3 & _ & E'). eapply fflag_upd; [|exact E']. reflexivity.
  - destruct (fruit_add K f objects h) as [r h'] eqn:E'. cbn in *. subst r. apply bind_inv in E' as (a & h1 & _ & E').
    apply bind_inv in E' as (b & h2 & _ & E'). apply bind_inv in E' as (d & h3 & _ & E'). apply bind_inv in E' as (e & h4 & _ & E').
    eapply fflag_upd; [|exact E']. reflexivity.
Qed.
Lemma fR_flag (P : nat -> Prop) h h' sl : fR K P h h' -> flag h sl = Some true -> flag h' sl = Some true.
Proof.
  intros (_ & _ & _ & _ & E) F. unfold flag in *. destruct (nth_error (h_sl K h) sl) as [s|] eqn:Es; [|discriminate].
  destruct (E sl s Es) as (s' & -> & _ & [D|(_ & D)]); cbn in *; congruence.
Qed.
Lemma flag_fit h sl X c h' : wf h -> slice_fit K sl X c h = (Ok tt, h') -> flag h' sl = Some true.
Proof. intros Wf E. destruct (slice_fit_post K W sl X c h Wf) as (_ & _ & F). now rewrite E in F. Qed.
Lemma flag_forM X c l sl r h : wf h -> fits_all K X c (l ++ [sl]) h ->
  flag (snd (forM K (l ++ sl :: r) (fun sl => slice_fit K sl X (Some c)) h)) sl = Some true.
Proof.
  revert h. induction l as [|j l IH]; intros h Wf E; unfold fits_all in *; cbn [app forM] in *.
  - destruct (slice_fit K sl X (Some c) h) as [[[]|e] h1] eqn:E1.
    2:{ rewrite (bind_err K _ _ _ _ _ E1) in E. discriminate. }
    rewrite (bind_ok K _ _ _ _ _ E1). pose proof (flag_fit _ _ _ _ _ Wf E1) as F.
    assert (Wf1 : wf h1) by (destruct (slice_fit_post K W sl X (Some c) h Wf) as (A & _); rewrite E1 in A; exact A).
    eapply fR_flag; [apply (fR_forM K W X c r h1 Wf1)|exact F].
  - destruct (slice_fit K j X (Some c) h) as [[[]|e] h1] eqn:E1.
    2:{ rewrite (bind_err K _ _ _ _ _ E1) in E. discriminate. }
    rewrite (bind_ok K _ _ _ _ _ E1). rewrite (bind_ok K _ _ _ _ _ E1) in E. apply IH; [|exact E].
    destruct (slice_fit_post K W j X (Some c) h Wf) as (A & _). rewrite E1 in A. exact A.
Qed.
Lemma upd_fr_sl h f g : h_sl K (snd (upd_fr K f g h)) = h_sl K h.
Proof. unfold upd_fr, bindM, look. destruct (nth_error (h_fr K h) f); reflexivity. Qed.
Lemma fits_via_flag h f X c sl : wf h ->
  (exists x before after, nth_error (h_fr K h) f = Some x /\ f_slices x = before ++ sl :: after /\
     fits_all K X (match c with Some c => c | None => X end) (before ++ [sl]) h) ->
  flag (snd (fruit_fit K f X c h)) sl = Some true.
Proof.
  intros Wf (x & b & a & Hx & Ex & E). unfold fruit_fit. rewrite (bind_ok K _ _ h x h) by (unfold look; now rewrite Hx). rewrite Ex.
  pose proof (flag_forM X _ b sl a h Wf E) as F.
  match goal with |- flag (snd (bindM K ?m ?g h)) _ = _ => destruct (m h) as [[[]|e] h1] eqn:E1 end.
  - rewrite (bind_ok K _ _ _ _ _ E1). unfold flag. rewrite upd_fr_sl. exact F.
  - rewrite (bind_err K _ _ _ _ _ E1). exact F.
Qed.
Lemma quiet_flag h h' sl : quiet K h h' -> flag h' sl = flag h sl.
Proof. intros (_ & E & _). unfold flag. now rewrite E. Qed.
Lemma fits_flag h o sl : wf h -> fits K h o sl -> flag (snd (exec K o h)) sl = Some true.
Proof.
  intros Wf. destruct o; cbn [fits exec]; try contradiction.
  - intros (-> & E). destruct (slice_fit K sl X cache h) as [r h'] eqn:E'. cbn in *. subst r. eapply flag_fit; eassumption.
  - intros (-> & E). rewrite void_snd. unfold slice_fit_transform. destruct (slice_fit K sl X None h) as [r h'] eqn:E'. cbn in E. subst r.
    rewrite (bind_ok K _ _ _ _ _ E'). rewrite (quiet_flag h'); [eapply flag_fit; eassumption|]. apply (quiet_slice_transform K W).
  - intros E. apply fits_via_flag; [exact Wf|exact E].
  - intros E. rewrite void_snd. unfold fruit_fit_transform.
    pose proof (fits_via_flag h f X None sl Wf E) as F. destruct (fruit_fit K f X None h) as [[[]|e] h1] eqn:E1.
    + rewrite (bind_ok K _ _ _ _ _ E1). rewrite (quiet_flag h1); [exact F|]. apply (quiet_fruit_transform K W).
    + rewrite (bind_err K _ _ _ _ _ E1). exact F.
Qed.
Lemma fflag_fruit_fit h f X c h' : fruit_fit K f X c h = (Ok tt, h') -> fflag h' f = Some true.
Proof.
  intros E. apply bind_inv in E as (x & h1 & _ & E). apply bind_inv in E as (u & h2 & _ & E).
  unfold upd_fr, bindM, look in E. destruct (nth_error (h_fr K h2) f) as [y|] eqn:Ey; [|discriminate]. injection E as <-.
  unfold fflag. cbn. now rewrite upd_nth_error_eq by (eapply nth_lt, Ey).
Qed.
Lemma fruit_fits_flag h o f : fruit_fits K h o f -> fflag (snd (exec K o h)) f = Some true.
Proof.
  destruct o; cbn [fruit_fits exec]; try contradiction; intros (-> & E).
  - destruct (fruit_fit K f X cache h) as [r h'] eqn:E'. cbn in *. subst r. eapply fflag_fruit_fit, E'.
  - rewrite void_snd. unfold fruit_fit_transform. destruct (fruit_fit K f X None h) as [r h'] eqn:E'. cbn in E. subst r.
    rewrite (bind_ok K _ _ _ _ _ E'). unfold fflag. destruct (quiet_fruit_transform K W f X cbs None h') as (_ & _ & ->). eapply fflag_fruit_fit, E'.
Qed.
End Flags.
