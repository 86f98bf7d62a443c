(** C27: transform requires a fit after every structural change.
    For every implementation [K] of the seeds that obeys [lawful] (S_Fruit) and
    every history of API calls, including calls that raise. *)
From Coq Require Import Ascii String List Arith ZArith Bool RelationClasses Lia.
From Verif Require Import Num Arr M_Str M_Words M_Np M_Fruit S_Fruit L_Arr L_Fruit L_Fruit2 L_Fruit3 L_Fruit4 L_Fruit5.
Import ListNotations.

Section C27.
Context {T : Type} `{Num T}.
Variable K : kit T.
Variable W : lawful K.

(** Slice [sl] has been fitted in the history [ops] by a fit that returned,
    and since then it has not been changed. *)
Definition fitted_since_change (g : rng K) (ops : list (op K)) (sl : nat) : Prop :=
  exists pre o post, ops = pre ++ o :: post /\ fits K (run K (heap0 K g) pre) o sl /\
    (forall a o' b, post = a ++ o' :: b -> ~ modifies K (run K (heap0 K g) (pre ++ o :: a)) o' sl) /\
    (forall a b, post = a ++ b -> structure K (run K (heap0 K g) (pre ++ o :: a)) sl = structure K (run K (heap0 K g) ops) sl).
(** The same for a fruit: no cut or add through the fruit since the fit. *)
Definition fruit_fitted_since_change (g : rng K) (ops : list (op K)) (f : nat) : Prop :=
  exists pre o post, ops = pre ++ o :: post /\ fruit_fits K (run K (heap0 K g) pre) o f /\
    (forall a o' b, post = a ++ o' :: b -> ~ fruit_modifies K (run K (heap0 K g) (pre ++ o :: a)) o' f) /\
    (forall a b, post = a ++ b ->
       option_map f_slices (nth_error (h_fr K (run K (heap0 K g) (pre ++ o :: a))) f) =
       option_map f_slices (nth_error (h_fr K (run K (heap0 K g) ops)) f)).

Lemma run_wf g ops : wf K (run K (heap0 K g) ops).
Proof. apply (reachable_wf K W). now exists g, ops. Qed.
Lemma run_snoc h ops o : run K h (ops ++ [o]) = snd (exec K o (run K h ops)).
Proof. now rewrite run_app. Qed.
Lemma flag_history g ops sl : flag K (run K (heap0 K g) ops) sl = Some true -> fitted_since_change g ops sl.
Proof.
  induction ops as [|o ops IH] using rev_ind; [unfold flag; cbn; destruct sl; discriminate|].
  rewrite run_snoc. set (h := run K (heap0 K g) ops) in *. intros F.
  destruct (exec_opR K W h o (run_wf g ops)) as (_ & _ & _ & _ & R & _).
  unfold flag in F. destruct (nth_error (h_sl K (snd (exec K o h))) sl) as [s'|] eqn:Es'; [|discriminate]. cbn in F. injection F as F.
  specialize (R sl s' Es'). destruct (nth_error (h_sl K h) sl) as [s|] eqn:Es; [|congruence].
  destruct R as [(_ & C)|(St & [Fe|(Ft & _)])]; [congruence| |].
  - destruct IH as (pre & o1 & post & E & E1 & E2 & E3). { unfold flag. rewrite Es. cbn. congruence. }
    exists pre, o1, (post ++ [o]). split; [now rewrite E, <- app_assoc|]. split; [exact E1|]. 
    assert (Eh : run K (heap0 K g) (pre ++ o1 :: post) = h) by (unfold h; now rewrite E).
    assert (St' : structure K h sl = structure K (snd (exec K o h)) sl).
    { unfold structure. rewrite Es, Es'. cbn. unfold struct_of in St. congruence. }
    split.
    + intros a o' b Ep. destruct b as [|o2 b] using rev_ind.
      * apply app_inj_tail in Ep as (-> & ->). rewrite Eh. intros M. apply modifies_flag in M. unfold flag in M. rewrite Es' in M. cbn in M. congruence.
      * rewrite app_comm_cons, app_assoc in Ep. apply app_inj_tail in Ep as (-> & _). now apply (E2 a o' b).
    + intros a b Ep. rewrite run_snoc. fold h. destruct b as [|o2 b] using rev_ind.
      * rewrite app_nil_r in Ep. subst a. change (pre ++ o1 :: post ++ [o]) with (pre ++ (o1 :: post) ++ [o]). rewrite app_assoc, run_snoc.
        now rewrite Eh.
      * rewrite app_assoc in Ep. apply app_inj_tail in Ep as (-> & _). rewrite (E3 a b eq_refl). exact St'.
  - exists ops, o, []. split; [reflexivity|]. split; [exact Ft|]. split.
    + intros a o' b Ep. destruct a; discriminate.
    + intros a b Ep. destruct a; [|discriminate]. reflexivity.
Qed.
Lemma fflag_history g ops f : fflag K (run K (heap0 K g) ops) f = Some true -> fruit_fitted_since_change g ops f.
Proof.
  induction ops as [|o ops IH] using rev_ind; [unfold fflag; cbn; destruct f; discriminate|].
  rewrite run_snoc. set (h := run K (heap0 K g) ops) in *. intros F.
  destruct (exec_opR K W h o (run_wf g ops)) as (_ & _ & _ & _ & _ & R).
  unfold fflag in F. destruct (nth_error (h_fr K (snd (exec K o h))) f) as [s'|] eqn:Es'; [|discriminate]. cbn in F. injection F as F.
  specialize (R f s' Es'). destruct (nth_error (h_fr K h) f) as [s|] eqn:Es; [|congruence].
  destruct R as [(_ & C)|(St & [Fe|(Ft & _)])]; [congruence| |].
  - destruct IH as (pre & o1 & post & E & E1 & E2 & E3). { unfold fflag. rewrite Es. cbn. congruence. }
    exists pre, o1, (post ++ [o]). split; [now rewrite E, <- app_assoc|]. split; [exact E1|]. 
    assert (Eh : run K (heap0 K g) (pre ++ o1 :: post) = h) by (unfold h; now rewrite E).
    split.
    + intros a o' b Ep. destruct b as [|o2 b] using rev_ind.
      * apply app_inj_tail in Ep as (-> & ->). rewrite Eh. intros M. apply fruit_modifies_flag in M. unfold fflag in M. rewrite Es' in M. cbn in M. congruence.
      * rewrite app_comm_cons, app_assoc in Ep. apply app_inj_tail in Ep as (-> & _). now apply (E2 a o' b).
    + intros a b Ep. rewrite run_snoc. fold h. destruct b as [|o2 b] using rev_ind.
      * rewrite app_nil_r in Ep. subst a. change (pre ++ o1 :: post ++ [o]) with (pre ++ (o1 :: post) ++ [o]). rewrite app_assoc, run_snoc.
        now rewrite Eh.
      * rewrite app_assoc in Ep. apply app_inj_tail in Ep as (-> & _). rewrite (E3 a b eq_refl). fold h. rewrite Es, Es'. cbn. congruence.
  - exists ops, o, []. split; [reflexivity|]. split; [exact Ft|]. split.
    + intros a o' b Ep. destruct a; discriminate.
    + intros a b Ep. destruct a; [|discriminate]. reflexivity.
Qed.

(** ** C27: a slice that has not been fitted since its last change raises *)
Theorem slice_transform_needs_fit g ops sl X cbs c :
  let h := run K (heap0 K g) ops in
  sl < length (h_sl K h) ->
  slice_transform K sl X cbs c h = (Err RuntimeError, h) \/ fitted_since_change g ops sl.
Proof.
  cbn zeta. set (h := run K (heap0 K g) ops). intros L. destruct (nth_error (h_sl K h) sl) as [s|] eqn:Es; [|apply nth_error_None in Es; lia].
  destruct (sl_fitted s) eqn:F.
  - right. apply flag_history. unfold flag. fold h. rewrite Es. cbn. congruence.
  - left. unfold slice_transform. rewrite (bind_ok K _ _ h s h) by (unfold look; now rewrite Es). now rewrite F.
Qed.
(** and it is not fitted only if it has to be: a fit that returned is
    remembered as long as nothing is added or cleared. *)
Theorem slice_stays_fitted g pre o post sl :
  fits K (run K (heap0 K g) pre) o sl ->
  (forall a o' b, post = a ++ o' :: b -> ~ changes K (run K (heap0 K g) (pre ++ o :: a)) o' sl) ->
  exists s, nth_error (h_sl K (run K (heap0 K g) (pre ++ o :: post))) sl = Some s /\ sl_fitted s = true.
Proof.
  intros Ft. induction post as [|o2 post IH] using rev_ind; intros E.
  - pose proof (fits_flag K W _ o sl (run_wf g pre) Ft) as F. rewrite run_snoc. unfold flag in F.
    destruct (nth_error _ sl) as [s|]; [|discriminate]. exists s. split; [reflexivity|]. now injection F.
  - destruct IH as (s & Hs & Fs). { intros a o' b ->. apply (E a o' (b ++ [o2])). now rewrite <- app_assoc. }
    change (pre ++ o :: post ++ [o2]) with (pre ++ (o :: post) ++ [o2]). rewrite app_assoc, run_snoc.
    set (h := run K (heap0 K g) (pre ++ o :: post)) in *.
    destruct (exec_opR K W h o2 (run_wf g _)) as (_ & _ & Ls & _ & R & _).
    destruct (nth_error (h_sl K (snd (exec K o2 h))) sl) as [s'|] eqn:Es'.
    2:{ apply nth_lt in Hs. apply nth_error_None in Es'. lia. }
    exists s'. split; [reflexivity|]. specialize (R sl s' Es'). rewrite Hs in R. destruct R as [(C & _)|(_ & [R|(_ & R)])]; [|congruence|exact R].
    exfalso. now apply (E post o2 []).
Qed.
(** ** C27: fruits *)
Lemma quiet_fruit_nf f : pres K (quiet K) (fruit_nfeatures K f).
Proof.
  pose proof (quiet_refl K) as Rr. pose proof (quiet_trans K) as Rt. unfold fruit_nfeatures.
  apply (pres_bind K _ Rt); [apply (pres_look K _ Rr)|intros x]. apply (pres_bind K _ Rt); [|intros; apply (pres_ret K _ Rr)].
  apply (pres_collect K _ Rr Rt). intros; apply quiet_nfeatures.
Qed.
Lemma run_slices_flags c X cbs ids index A h B h' : run_slices K c X cbs ids index A h = (Ok B, h') ->
  forall sl, In sl ids -> flag K h sl = Some true.
Proof.
  revert index A h. induction ids as [|j ids IH]; intros index A h E sl Hsl; [contradiction|]. cbn [run_slices] in E.
  apply bind_inv in E as (u & h1 & E1 & E). apply bind_inv in E as (k & h2 & E2 & E). apply bind_inv in E as (R & h3 & E3 & E).
  apply bind_inv in E as (A' & h4 & E4 & E).
  assert (Q1 : quiet K h h1) by (replace h1 with (snd (emit K cbs ENextSlice h)) by (now rewrite E1); apply quiet_emit).
  assert (Q2 : quiet K h1 h2) by (replace h2 with (snd (slice_nfeatures K j h1)) by (now rewrite E2); apply quiet_nfeatures).
  assert (Q3 : quiet K h2 h3) by (replace h3 with (snd (slice_transform K j X cbs (Some c) h2)) by (now rewrite E3); apply (quiet_slice_transform K W)).
  injection E4 as _ <-.
  destruct Hsl as [<-|Hsl].
  - rewrite <- (quiet_flag K h h1 j Q1), <- (quiet_flag K h1 h2 j Q2).
    unfold slice_transform in E3. apply bind_inv in E3 as (s & h5 & E5 & E3). unfold look in E5. unfold flag.
    destruct (nth_error (h_sl K h2) j) as [s0|]; [|discriminate]. injection E5 as -> ->. cbn. destruct (sl_fitted s); [reflexivity|discriminate].
  - rewrite <- (quiet_flag K h h1 sl Q1), <- (quiet_flag K h1 h2 sl Q2), <- (quiet_flag K h2 h3 sl Q3). eapply IH; [exact E|exact Hsl].
Qed.
Theorem fruit_transform_needs_fit g ops f X cbs c :
  let h := run K (heap0 K g) ops in
  forall x, nth_error (h_fr K h) f = Some x ->
  (fruit_transform K f X cbs c h = (Err RuntimeError, h) \/ fruit_fitted_since_change g ops f) /\
  forall A, fst (fruit_transform K f X cbs c h) = Ok A ->
  fruit_fitted_since_change g ops f /\ forall sl, In sl (f_slices x) -> fitted_since_change g ops sl.
Proof.
  cbn zeta. set (h := run K (heap0 K g) ops). intros x Hx. unfold fruit_transform.
  rewrite (bind_ok K _ _ h x h) by (unfold look; now rewrite Hx).
  destruct (f_fitted x) eqn:F; cbn [negb].
  - assert (FF : fruit_fitted_since_change g ops f) by (apply fflag_history; unfold fflag; fold h; rewrite Hx; cbn; congruence).
    split; [now right|]. intros A E. split; [exact FF|]. intros sl Hsl. apply flag_history. fold h.
    match type of E with fst (?m h) = _ => destruct (m h) as [r h'] eqn:E' end. cbn in E. subst r.
    apply bind_inv in E' as (n & h1 & E1 & E'). apply bind_inv in E' as (A0 & h2 & E' & _).
    assert (Q1 : quiet K h h1) by (replace h1 with (snd (fruit_nfeatures K f h)) by (now rewrite E1); apply quiet_fruit_nf).
    rewrite <- (quiet_flag K h h1 sl Q1). eapply run_slices_flags; eassumption.
  - split; [now left|]. intros A E. discriminate.
Qed.
Theorem fruit_stays_fitted g pre o post f :
  fruit_fits K (run K (heap0 K g) pre) o f ->
  (forall o', In o' post -> ~ fruit_changes K o' f) ->
  exists x, nth_error (h_fr K (run K (heap0 K g) (pre ++ o :: post))) f = Some x /\ f_fitted x = true.
Proof.
  intros Ft. induction post as [|o2 post IH] using rev_ind; intros E.
  - pose proof (fruit_fits_flag K W _ o f Ft) as F. rewrite run_snoc. unfold fflag in F.
    destruct (nth_error _ f) as [s|]; [|discriminate]. exists s. split; [reflexivity|]. now injection F.
  - destruct IH as (s & Hs & Fs). { intros o' Ho'. apply E. apply in_app_iff. auto. }
    change (pre ++ o :: post ++ [o2]) with (pre ++ (o :: post) ++ [o2]). rewrite app_assoc, run_snoc.
    set (h := run K (heap0 K g) (pre ++ o :: post)) in *.
    destruct (exec_opR K W h o2 (run_wf g _)) as (_ & _ & _ & Ls & _ & R).
    destruct (nth_error (h_fr K (snd (exec K o2 h))) f) as [s'|] eqn:Es'.
    2:{ apply nth_lt in Hs. apply nth_error_None in Es'. lia. }
    exists s'. split; [reflexivity|]. specialize (R f s' Es'). rewrite Hs in R. destruct R as [(C & _)|(_ & [R|(_ & R)])]; [|congruence|exact R].
    exfalso. apply (E o2); [apply in_app_iff; cbn; auto|exact C].
Qed.
(** ** C27: a slice without ISS or without sieves cannot be fitted *)
Theorem slice_fit_incomplete h sl s X c :
  nth_error (h_sl K h) sl = Some s -> sl_i s = [] \/ sl_s s = [] ->
  slice_fit K sl X c h = (Err RuntimeError, h).
Proof.
  intros Hs E. unfold slice_fit. rewrite (bind_ok K _ _ h s h) by (unfold look; now rewrite Hs).
  destruct E as [->| ->]; [reflexivity|]. cbn. destruct (sl_i s); reflexivity.
Qed.
End C27.
Print Assumptions slice_transform_needs_fit.
Print Assumptions slice_stays_fitted.
Print Assumptions fruit_transform_needs_fit.
Print Assumptions fruit_stays_fitted.
Print Assumptions slice_fit_incomplete.
