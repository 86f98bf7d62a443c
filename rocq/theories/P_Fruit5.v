(** C60: transform does not change what later transforms return. *)
From Coq Require Import Ascii String List Arith ZArith Bool RelationClasses Lia.
From Verif Require Import Num Arr M_Str M_Words M_Np M_Prep M_Fruit S_Fruit S_Sep L_Arr L_Fruit L_Fruit2 L_Fruit3 L_Fruit4 L_Fruit5 L_Fruit6 L_Fruit7 L_Fruit8 L_Fruit9 P_Fruit2 P_Fruit4.
Import ListNotations.

Section C60.
Context {T : Type} `{Num T}.
Variable K : kit T.
Variable W : lawful K.
Notation heap := (heap K).
Local Instance eP5 : Equivalence (eqP K W) := eqP_equiv K W.
Local Instance eI5 : Equivalence (eqI K W) := eqI_equiv K W.
Local Instance eS5 : Equivalence (eqS K W) := eqS_equiv K W.

(** Calls that only read: creation of objects, copies of slices and fruits,
    selection of a slice, choice of the sample size, and calls of [transform]
    (of fruits, slices, preparateurs and sieves) that return. *)
Definition reads (h : heap) (o : op K) : Prop :=
  match o with
  | ONewPrep _ _ | ONewIss _ _ | ONewSieve _ _ | ONewSlice _ | ONewFruit _ _
  | OSampleSize _ _ _ | OCopy _ _ | ODeepcopy _ _ | FCopy _ _ | FDeepcopy _ _ | FSwitch _ _ _ => True
  | OPrepTransform _ _ _ | OSieveTransform _ _ _ | OTransform _ _ _ _ _ | FTransform _ _ _ _ _ => fst (exec K o h) = Ok tt
  | _ => False
  end.
Inductive reading (h : heap) : heap -> Prop :=
| rd_start : reading h h
| rd_step h1 o : reading h h1 -> reads h1 o -> reading h (snd (exec K o h1)).

(** Later states in which all slices and fruits look the same. *)
Definition later (h h' : heap) : Prop :=
  (forall sl v, sees K W h sl v -> sees K W h' sl v) /\
  (forall f x, nth_error (h_fr K h) f = Some x -> exists x', nth_error (h_fr K h') f = Some x' /\ f_slices x' = f_slices x /\ f_fitted x' = f_fitted x).
Lemma later_refl h : later h h. Proof. split; eauto. Qed.
Lemma later_trans a b c : later a b -> later b c -> later a c.
Proof.
  intros (A1 & A2) (B1 & B2). split; [auto|]. intros f x Ex. destruct (A2 f x Ex) as (y & Ey & E1 & E2). destruct (B2 f y Ey) as (z & Ez & E3 & E4).
  exists z. split; [exact Ez|]. split; congruence.
Qed.
Lemma later_heq h h' : heq K W h h' -> later h h'.
Proof.
  intros E. split; [intros; eapply sees_heq; eassumption|]. destruct E as (_ & E & _). rewrite <- E. eauto.
Qed.

(** Everything that existed in [h0] is still the same. *)
Definition kept (h0 h : heap) : Prop :=
  incl_by eq (h_p K h0) (h_p K h) /\ incl_by eq (h_i K h0) (h_i K h) /\ incl_by eq (h_s K h0) (h_s K h) /\
  incl_by eq (h_sl K h0) (h_sl K h) /\ incl_by eq (h_fr K h0) (h_fr K h).
Lemma kept_refl h : kept h h. Proof. repeat split; intros id o Ho; eauto. Qed.
Lemma incl_eq_len {A} (l l' : list A) : incl_by eq l l' -> length l <= length l'.
Proof.
  intros E. destruct (le_lt_dec (length l) (length l')) as [L|L]; [exact L|]. destruct (nth_error l (length l')) as [x|] eqn:Ex; [|apply nth_error_None in Ex; lia].
  destruct (E _ _ Ex) as (y & Ey & _). assert (length l' < length l') by (apply nth_error_Some; congruence). lia.
Qed.
Lemma incl_eq_app {A} (l l' : list A) v : incl_by eq l l' -> incl_by eq l (l' ++ v).
Proof. intros E id o Ho. destruct (E id o Ho) as (o' & Ho' & <-). exists o. split; [|reflexivity]. rewrite nth_error_app1; [exact Ho'|]. apply nth_error_Some. congruence. Qed.
Lemma incl_eq_upd {A} (l l' : list A) i v : length l <= i -> incl_by eq l l' -> incl_by eq l (upd i v l').
Proof.
  intros L E id o Ho. destruct (E id o Ho) as (o' & Ho' & <-). exists o. split; [|reflexivity].
  assert (id < length l) by (apply nth_error_Some; congruence). rewrite upd_nth_error_neq by lia. exact Ho'.
Qed.
Definition keeps {A} (h0 : heap) (m : M K A) : Prop := forall h, kept h0 h -> kept h0 (snd (m h)).
Lemma keeps_bind {A B} h0 (m : M K A) (f : A -> M K B) : keeps h0 m -> (forall a h, kept h0 h -> m h = (Ok a, snd (m h)) -> kept h0 (snd (m h)) -> kept h0 (snd (f a (snd (m h))))) -> keeps h0 (bindM K m f).
Proof.
  intros Em Ef h Hk. specialize (Em h Hk). specialize (fun a => Ef a h Hk). unfold bindM. destruct (m h) as [[a|e] h1]; cbn in *; [|exact Em]. now apply Ef.
Qed.
Lemma keeps_then {A B} h0 (m : M K A) (f : A -> M K B) : keeps h0 m -> (forall a, keeps h0 (f a)) -> keeps h0 (bindM K m f).
Proof. intros Em Ef. apply keeps_bind; [exact Em|]. intros a h _ _ Hk. now apply Ef. Qed.
Lemma keeps_forM {A} h0 (l : list A) f : (forall a, keeps h0 (f a)) -> keeps h0 (forM K l f).
Proof. intros E. induction l as [|x l IH]; cbn [forM]; [intros h Hk; exact Hk|]. apply keeps_then; [apply E|]. intros _. exact IH. Qed.
Lemma keeps_look {A} h0 (sel : heap -> list A) i : keeps h0 (look K sel i).
Proof. intros h Hk. unfold look. now destruct (nth_error (sel h) i). Qed.
Lemma keeps_liftR {A} h0 (x : res A) : keeps h0 (liftR K x). Proof. intros h Hk. exact Hk. Qed.
Lemma keeps_ret {A} h0 (x : A) : keeps h0 (ret K x). Proof. intros h Hk. exact Hk. Qed.
Ltac ksplit := match goal with Hk : kept _ _ |- _ => destruct Hk as (?K1 & ?K2 & ?K3 & ?K4 & ?K5) end; split; [|split; [|split; [|split]]]; cbn.
Lemma keeps_new_p h0 v : keeps h0 (new_p K v). Proof. intros h Hk. ksplit; auto using incl_eq_app. Qed.
Lemma keeps_new_i h0 v : keeps h0 (new_i K v). Proof. intros h Hk. ksplit; auto using incl_eq_app. Qed.
Lemma keeps_new_s h0 v : keeps h0 (new_s K v). Proof. intros h Hk. ksplit; auto using incl_eq_app. Qed.
Lemma keeps_new_sl h0 v : keeps h0 (new_sl K v). Proof. intros h Hk. ksplit; auto using incl_eq_app. Qed.
Lemma keeps_new_fr h0 v : keeps h0 (new_fr K v). Proof. intros h Hk. ksplit; auto using incl_eq_app. Qed.
Lemma keeps_upd_sl h0 sl f : length (h_sl K h0) <= sl -> keeps h0 (upd_sl K sl f).
Proof.
  intros L. apply keeps_then; [apply keeps_look|]. intros s h Hk. ksplit; auto. now apply incl_eq_upd.
Qed.
Lemma keeps_upd_fr h0 i f : length (h_fr K h0) <= i -> keeps h0 (upd_fr K i f).
Proof.
  intros L. apply keeps_then; [apply keeps_look|]. intros s h Hk. ksplit; auto. now apply incl_eq_upd.
Qed.
Lemma keeps_add1 h0 sl a : length (h_sl K h0) <= sl -> keeps h0 (add1 K sl a).
Proof.
  intros L. destruct a; cbn [add1]; repeat first [apply keeps_upd_sl; exact L|apply keeps_then; [first [apply keeps_look|apply keeps_liftR|apply keeps_new_p|apply keeps_new_i|apply keeps_new_s]|intros]].
  intros h Hk. exact Hk.
Qed.
Lemma kept_sl h0 h : kept h0 h -> length (h_sl K h0) <= length (h_sl K h).
Proof. intros (_ & _ & _ & E & _). now apply incl_eq_len. Qed.
Lemma kept_fr h0 h : kept h0 h -> length (h_fr K h0) <= length (h_fr K h).
Proof. intros (_ & _ & _ & _ & E). now apply incl_eq_len. Qed.
Lemma keeps_slice_copy h0 sl : keeps h0 (slice_copy K sl).
Proof.
  unfold slice_copy. apply keeps_then; [apply keeps_look|]. intros s. apply keeps_bind; [apply keeps_new_sl|].
  intros n h Hk E Hk'. injection E as <-. pose proof (kept_sl _ _ Hk) as L. revert Hk'. generalize (snd (new_sl K slice_new h)). change (keeps h0 (bindM K (slice_add K (length (h_sl K h)) (map (ArgP K) (sl_p s))) (fun _ => bindM K (slice_add K (length (h_sl K h)) (map (ArgI K) (sl_i s))) (fun _ => bindM K (slice_add K (length (h_sl K h)) (map (ArgS K) (sl_s s))) (fun _ => ret K (length (h_sl K h))))))).
  repeat (apply keeps_then; [apply keeps_forM; intros; now apply keeps_add1|intros]). apply keeps_ret.
Qed.
Lemma keeps_slice_deepcopy h0 sl : keeps h0 (slice_deepcopy K sl).
Proof.
  unfold slice_deepcopy. apply keeps_then; [apply keeps_look|]. intros s. apply keeps_bind; [apply keeps_new_sl|].
  intros n h Hk E Hk'. injection E as <-. pose proof (kept_sl _ _ Hk) as L. revert Hk'. generalize (snd (new_sl K slice_new h)). set (n := length (h_sl K h)) in *. clearbody n. clear h Hk.
  match goal with |- forall x, kept h0 x -> kept h0 (snd (?m x)) => change (keeps h0 m) end.
  apply keeps_then; [|intros; apply keeps_then; [|intros; apply keeps_then; [|intros; apply keeps_then; [apply keeps_upd_sl; exact L|intros; apply keeps_ret]]]];
    apply keeps_forM; intros; repeat first [apply keeps_upd_sl; exact L|apply keeps_then; [first [apply keeps_look|apply keeps_liftR|apply keeps_new_p|apply keeps_new_i|apply keeps_new_s]|intros]].
Qed.
Lemma keeps_cut h0 f sl : length (h_fr K h0) <= f -> keeps h0 (fruit_cut K f (Some sl)).
Proof. intros L. unfold fruit_cut. apply keeps_then; [apply keeps_then; [apply keeps_look|intros; apply keeps_ret]|]. intros. now apply keeps_upd_fr. Qed.
Lemma keeps_fruit_copy h0 f : keeps h0 (fruit_copy K f).
Proof.
  unfold fruit_copy. apply keeps_then; [apply keeps_look|]. intros s. apply keeps_bind; [apply keeps_new_fr|].
  intros n h Hk E Hk'. injection E as <-. pose proof (kept_fr _ _ Hk) as L. revert Hk'. generalize (snd (new_fr K (fruit_new (f_name s ++ str " (Copy)")) h)). set (n := length (h_fr K h)) in *. clearbody n. clear h Hk.
  match goal with |- forall x, kept h0 x -> kept h0 (snd (?m x)) => change (keeps h0 m) end.
  apply keeps_then; [|intros; apply keeps_ret]. apply keeps_forM. intros sl. apply keeps_then; [apply keeps_slice_copy|]. intros. now apply keeps_cut.
Qed.
Lemma keeps_fruit_deepcopy h0 f : keeps h0 (fruit_deepcopy K f).
Proof.
  unfold fruit_deepcopy. apply keeps_then; [apply keeps_look|]. intros s. apply keeps_bind; [apply keeps_new_fr|].
  intros n h Hk E Hk'. injection E as <-. pose proof (kept_fr _ _ Hk) as L. revert Hk'. generalize (snd (new_fr K (fruit_new (f_name s ++ str " (Deepcopy)")) h)). set (n := length (h_fr K h)) in *. clearbody n. clear h Hk.
  match goal with |- forall x, kept h0 x -> kept h0 (snd (?m x)) => change (keeps h0 m) end.
  apply keeps_then; [|intros; apply keeps_ret]. apply keeps_forM. intros sl. apply keeps_then; [apply keeps_slice_deepcopy|]. intros. now apply keeps_cut.
Qed.
Lemma refs_incl {A} (R : A -> A -> Prop) (l l' : list A) ids os : incl_by eq l l' -> refs R l ids os -> refs R l' ids os.
Proof. intros E F. eapply Forall2_impl; [|exact F]. intros id o (x & Hx & Hr). destruct (E id x Hx) as (y & Hy & <-). exists x. split; assumption. Qed.
Lemma later_kept h h' : kept h h' -> later h h'.
Proof.
  intros (K1 & K2 & K3 & K4 & K5). split.
  - intros sl v (s & Es & Ef & Fp & Fi & Fs & Fe). destruct (K4 sl s Es) as (s' & Es' & <-). exists s. split; [exact Es'|]. split; [exact Ef|].
    split; [eapply refs_incl; eassumption|]. split; [eapply refs_incl; eassumption|]. split; [eapply refs_incl; eassumption|].
    eapply Forall2_impl; [|exact Fe]. intros ids os F. eapply refs_incl; eassumption.
  - intros f x Ex. destruct (K5 f x Ex) as (x' & Ex' & <-). eauto.
Qed.
Lemma void_keeps {A} h0 (m : M K A) : keeps h0 m -> keeps h0 (void K m).
Proof. intros E h Hk. specialize (E h Hk). unfold void. destruct (m h) as [[a|e] h']; exact E. Qed.
Lemma evals_later {A} cbs (m : M K A) h r a h' : evals K W cbs m h r -> m h = (Ok a, h') -> later h h'.
Proof. intros Ev E. destruct (evals_inv K W _ _ _ _ _ _ Ev E) as (evs & _ & A1). apply later_heq, A1. Qed.
Lemma void_ok {A} (m : M K A) h : fst (void K m h) = Ok tt -> exists a, m h = (Ok a, snd (m h)) /\ snd (void K m h) = snd (m h).
Proof. unfold void. destruct (m h) as [[a|e] h']; cbn; [eauto|discriminate]. Qed.
Lemma later_step h o : wf K h -> reads h o -> later h (snd (exec K o h)).
Proof.
  intros Wf. destruct o; cbn [reads]; intros Rd; try match type of Rd with False => destruct Rd end.
  - apply later_kept, (void_keeps h _ (keeps_new_p h v)), kept_refl.
  - apply later_kept, (void_keeps h _ (keeps_new_i h v)), kept_refl.
  - apply later_kept, (void_keeps h _ (keeps_new_s h v)), kept_refl.
  - apply later_kept, (void_keeps h _ (keeps_new_sl h _)), kept_refl.
  - apply later_kept, (void_keeps h _ (keeps_new_fr h _)), kept_refl.
  - cbn [exec] in *. unfold bindM at 1 in Rd. unfold bindM at 1. unfold look in *. destruct (nth_error (h_p K h) id) as [p|] eqn:Ep; [|discriminate].
    destruct (p_transform K X p) as [y p'] eqn:Et. cbn in Rd |- *. destruct y as [Z|e]; [|discriminate]. cbn.
    apply later_heq. split; [reflexivity|]. split; [reflexivity|]. cbn. split; [|split].
    + apply Forall2_upd with (x := p); [intros; reflexivity|exact Ep|]. symmetry. pose proof (p_transform_keeps K W X p Z) as Hk. rewrite Et in Hk. now apply Hk.
    + apply Forall2_refl. reflexivity.
    + apply Forall2_refl. reflexivity.
  - cbn [exec] in *. unfold bindM at 1 in Rd. unfold bindM at 1. unfold look in *. destruct (nth_error (h_s K h) id) as [p|] eqn:Ep; [|discriminate].
    destruct (s_transform K Y p) as [y p'] eqn:Et. cbn in Rd |- *. destruct y as [Z|e]; [|discriminate]. cbn.
    apply later_heq. split; [reflexivity|]. split; [reflexivity|]. cbn. split; [|split].
    + apply Forall2_refl. reflexivity.
    + apply Forall2_refl. reflexivity.
    + apply Forall2_upd with (x := p); [intros; reflexivity|exact Ep|]. symmetry. pose proof (s_transform_keeps K W Y p Z) as Hk. rewrite Et in Hk. now apply Hk.
  - cbn [exec]. unfold upd_sl, bindM, look. destruct (nth_error (h_sl K h) sl) as [s|] eqn:Es; [|apply later_refl]. cbn. split; [|eauto].
    intros j v (s1 & E1 & E2 & E3). assert (L : sl < length (h_sl K h)) by (eapply nth_lt; exact Es). destruct (Nat.eq_dec sl j) as [<-|N].
    + rewrite Es in E1. injection E1 as <-. exists (with_sample x s). cbn. rewrite upd_nth_error_eq by exact L. split; [reflexivity|]. split; [exact E2|exact E3].
    + exists s1. cbn. rewrite upd_nth_error_neq by exact N. split; [exact E1|]. split; [exact E2|exact E3].
  - cbn [exec] in *. destruct (void_ok _ _ Rd) as (a & Ea & ->). destruct (nth_error (h_sl K h) sl) as [s|] eqn:Es.
    + destruct (sees_exists K W h sl s Wf Es) as (v & V & _). eapply evals_later; [exact (transform_view K W h sl v X cbs cache V)|exact Ea].
    + unfold slice_transform in *. rewrite (bind_err K _ _ h AttributeError h) in Ea by (unfold look; now rewrite Es). discriminate.
  - apply later_kept, (void_keeps h _ (keeps_slice_copy h sl)), kept_refl.
  - apply later_kept, (void_keeps h _ (keeps_slice_deepcopy h sl)), kept_refl.
  - cbn [exec]. unfold fruit_switch, bindM, look. destruct (nth_error (h_fr K h) f) as [x|] eqn:Ex; [|apply later_refl].
    destruct (_ && _); [|apply later_refl]. cbn. split; [intros sl v V; exact V|]. intros j y Ey. cbn.
    assert (L : f < length (h_fr K h)) by (eapply nth_lt; exact Ex). destruct (Nat.eq_dec f j) as [<-|N].
    + rewrite upd_nth_error_eq by exact L. rewrite Ex in Ey. injection Ey as <-. eexists. split; [reflexivity|]. split; reflexivity.
    + rewrite upd_nth_error_neq by exact N. eauto.
  - cbn [exec] in *. destruct (void_ok _ _ Rd) as (a & Ea & ->). destruct (nth_error (h_fr K h) f) as [x|] eqn:Ex.
    + destruct (all_seen K W h (f_slices x) Wf (proj1 (proj2 Wf f x Ex))) as (vs & V). assert (Fx : f_fitted x = true).
      { unfold fruit_transform in Ea. rewrite (bind_ok K _ _ h x h) in Ea by (unfold look; now rewrite Ex). destruct (f_fitted x); [reflexivity|discriminate]. }
      eapply evals_later; [exact (fruit_transform_evals K W h f x vs X cbs cache Ex Fx V)|exact Ea].
    + unfold fruit_transform in *. rewrite (bind_err K _ _ h AttributeError h) in Ea by (unfold look; now rewrite Ex). discriminate.
  - apply later_kept, (void_keeps h _ (keeps_fruit_copy h f)), kept_refl.
  - apply later_kept, (void_keeps h _ (keeps_fruit_deepcopy h f)), kept_refl.
Qed.
Lemma reading_later h h' : wf K h -> reading h h' -> wf K h' /\ later h h'.
Proof.
  intros Wf Rd. induction Rd as [|h1 o Rd (W1 & L1) Ho]; [split; [exact Wf|apply later_refl]|].
  split; [apply (exec_lens K W h1 o W1)|]. eapply later_trans; [exact L1|]. now apply later_step.
Qed.

(** After any number of reading calls (in particular, transforms of any data
    by any fruit or slice), with any number of callbacks, a transform gives the
    result, or the exception, that it would have given before. *)
Theorem transform_repeatable h h' f x X cbs cbs' cache :
  reachable K h -> reading h h' -> nth_error (h_fr K h) f = Some x ->
  fst (fruit_transform K f X cbs cache h) = fst (fruit_transform K f X cbs' cache h') /\
  fst (fruit_nfeatures K f h) = fst (fruit_nfeatures K f h').
Proof.
  intros Re Rd Ex. pose proof (reachable_wf K W h Re) as Wf. destruct (reading_later h h' Wf Rd) as (_ & Ls & Lf).
  destruct (Lf f x Ex) as (x' & Ex' & E1 & E2). eapply fruit_transform_same; eauto.
Qed.
Theorem slice_transform_repeatable h h' sl s X cbs cbs' cache :
  reachable K h -> reading h h' -> nth_error (h_sl K h) sl = Some s ->
  fst (slice_transform K sl X cbs cache h) = fst (slice_transform K sl X cbs' cache h').
Proof.
  intros Re Rd Es. pose proof (reachable_wf K W h Re) as Wf. destruct (reading_later h h' Wf Rd) as (_ & Ls & Lf).
  eapply slice_transform_same; [|exact Wf|eapply nth_lt; exact Es]. apply Ls.
Qed.

(** [fit_transform] is [fit] followed by [transform]: if it returns A, then
    [fit] alone returns and transforming the same data afterwards, after
    arbitrary reading calls, gives A; and the other way round. *)
Theorem fit_transform_consistent h f X cbs A h1 h2 :
  reachable K h -> fruit_fit_transform K f X cbs h = (Ok A, h1) -> reading h1 h2 ->
  forall cbs', fst (fruit_transform K f X cbs' None h2) = Ok A.
Proof.
  intros Re E Rd cbs'. unfold fruit_fit_transform in E. apply bind_unit_ok in E as (h0 & E0 & E).
  assert (Re0 : reachable K h0).
  { destruct Re as (g & ops & ->). exists g, (ops ++ [FFit K f X None]). rewrite run_app. cbn. now rewrite E0. }
  destruct (nth_error (h_fr K h0) f) as [x|] eqn:Ex.
  2:{ unfold fruit_transform in E. rewrite (bind_err K _ _ h0 AttributeError h0) in E by (unfold look; now rewrite Ex). discriminate. }
  assert (Rd0 : forall h2, reading h1 h2 -> reading h0 h2).
  { intros h3 R3. induction R3 as [|h4 o R4 IH Ho]; [|constructor; assumption].
    assert (S1 : h1 = snd (exec K (FTransform K f X cbs None) h0)). { cbn [exec]. unfold void. now rewrite E. }
    rewrite S1. constructor; [constructor|]. cbn [reads exec]. unfold void. now rewrite E. }
  rewrite <- (proj1 (transform_repeatable h0 h2 f x X cbs cbs' None Re0 (Rd0 h2 Rd) Ex)). now rewrite E.
Qed.
Lemma fit_then_transform h f X cbs h1 A :
  fruit_fit K f X None h = (Ok tt, h1) -> fst (fruit_transform K f X cbs None h1) = Ok A -> fst (fruit_fit_transform K f X cbs h) = Ok A.
Proof. intros E1 E2. unfold fruit_fit_transform. now rewrite (bind_ok K _ _ _ _ _ E1). Qed.

(** The same for a slice, whose [fit_transform] calls no callbacks. *)
Lemma silent_fit sl X cache : pres K (fun a b => h_log K b = h_log K a) (slice_fit K sl X cache).
Proof.
  set (R := fun a b : heap => h_log K b = h_log K a).
  assert (Rr : forall a, R a a) by (intros a; reflexivity). assert (Rt : forall a b c, R a b -> R b c -> R a c) by (unfold R; intros; congruence).
  assert (Bd : forall A B (m : M K A) (f : A -> M K B), pres K R m -> (forall a, pres K R (f a)) -> pres K R (bindM K m f)) by (intros; now apply (pres_bind K R Rt)).
  assert (Lk : forall A (sel : heap -> list A) i, pres K R (look K sel i)) by (intros; apply (pres_look K R Rr)).
  assert (Sp : forall i v, pres K R (set_p K i v)) by (intros i v a; reflexivity). assert (Si : forall i v, pres K R (set_i K i v)) by (intros i v a; reflexivity).
  assert (Ss : forall i v, pres K R (set_s K i v)) by (intros i v a; reflexivity). assert (Sg : forall v, pres K R (set_g K v)) by (intros v a; reflexivity).
  assert (Gg : pres K R (get_g K)) by (intros a; reflexivity). assert (Lr : forall A (x : res A), pres K R (liftR K x)) by (intros A x a; reflexivity).
  assert (Ra : forall A e, pres K R (@raise T K A e)) by (intros A e a; reflexivity). assert (Rn : forall A (x : A), pres K R (ret K x)) by (intros A x a; reflexivity).
  assert (Ns : forall v, pres K R (new_s K v)) by (intros v a; reflexivity).
  assert (Us : forall i f, pres K R (upd_sl K i f)) by (intros i f; unfold upd_sl; apply Bd; [apply Lk|]; intros v a; reflexivity).
  assert (P1 : forall c ids Y, pres K R (fit_preps K c ids Y)).
  { intros c ids. induction ids as [|id ids IH]; intros Y; cbn [fit_preps]; [apply Rn|]. apply Bd; [apply Lk|]. intros p. apply Bd; [apply Gg|]. intros g.
    destruct (p_fit K g Y (p_attach K c p)) as [[x p1] g']. apply Bd; [apply Sp|]. intros _. apply Bd; [apply Sg|]. intros _. apply Bd; [apply Lr|]. intros _.
    destruct (p_transform K Y p1) as [y p2]. apply Bd; [apply Sp|]. intros _. apply Bd; [apply Lr|]. apply IH. }
  assert (P2 : forall c Y id, pres K R (fit_iss K c Y id)).
  { intros c Y id. unfold fit_iss. apply Bd; [apply Lk|]. intros i. apply Bd; [apply Gg|]. intros g. cbn zeta. destruct (i_requires K (i_attach K c i)); [|apply Si].
    destruct (i_fit K g Y (i_attach K c i)) as [[x i1] g']. apply Bd; [apply Si|]. intros _. apply Bd; [apply Sg|]. intros _. apply Lr. }
  assert (P3 : forall c Y id, pres K R (fit_sieve K c Y id)).
  { intros c Y id. unfold fit_sieve. apply Bd; [apply Lk|]. intros i. apply Bd; [apply Gg|]. intros g.
    destruct (s_fit K g Y (s_attach K c i)) as [[x i1] g']. apply Bd; [apply Ss|]. intros _. apply Bd; [apply Sg|]. intros _. apply Lr. }
  assert (P4 : forall c sieves its, pres K R (fit_ext K c sl sieves its)).
  { intros c sieves its. induction its as [|[Y|e] its IH]; cbn [fit_ext]; [apply Rn| |apply Ra]. apply Bd.
    - apply (pres_collect K R Rr Rt). intros id _. unfold copy_sieve. apply Bd; [apply Lk|]. intros s. apply Bd; [apply Lr|]. apply Ns.
    - intros ids. apply Bd; [apply (pres_forM K R Rr Rt); intros; apply P3|]. intros _. apply Bd; [apply Us|]. intros _. exact IH. }
  unfold slice_fit. apply Bd; [apply Lk|]. intros s. destruct (negb (nonempty (sl_i s))); [apply Ra|]. destruct (negb (nonempty (sl_s s))); [apply Ra|].
  apply Bd.
  { unfold select_sample. destruct (sl_sample s); intros a; unfold bindM, get_g, set_g, raise, ret; repeat (match goal with |- context [match ?x with _ => _ end] => destruct x end; try reflexivity); reflexivity. }
  intros idx. apply Bd; [apply P1|]. intros Y. apply Bd; [apply (pres_forM K R Rr Rt); intros; apply P2|]. intros _.
  apply Bd; [apply (pres_collect K R Rr Rt); intros; apply Lk|]. intros svs. destruct (negb (existsb (s_requires K) svs)); [apply Us|].
  apply Bd; [apply Us|]. intros _. apply Bd; [apply (pres_collect K R Rr Rt); intros; apply Lk|]. intros is. apply Bd; [apply P4|]. intros _. apply Us.
Qed.
Theorem slice_fit_transform_consistent h sl X A h2 :
  reachable K h -> slice_fit_transform K sl X h = (Ok A, h2) ->
  h_log K h2 = h_log K h /\ exists h1, slice_fit K sl X None h = (Ok tt, h1) /\ forall cbs, fst (slice_transform K sl X cbs None h1) = Ok A.
Proof.
  intros Re E. unfold slice_fit_transform in E. apply bind_unit_ok in E as (h1 & E1 & E).
  assert (Re1 : reachable K h1).
  { destruct Re as (g & ops & ->). exists g, (ops ++ [OFit K sl X None]). rewrite run_app. cbn. now rewrite E1. }
  assert (L : h_log K h1 = h_log K h) by (pose proof (silent_fit sl X None h) as L; now rewrite E1 in L).
  destruct (nth_error (h_sl K h1) sl) as [s|] eqn:Es.
  2:{ unfold slice_transform in E. rewrite (bind_err K _ _ h1 AttributeError h1) in E by (unfold look; now rewrite Es). discriminate. }
  destruct (sees_exists K W h1 sl s (reachable_wf K W h1 Re1) Es) as (v & V & _).
  pose proof (transform_view K W h1 sl v X 0 None V) as Et. cbn in Et.
  destruct (ev_view K X X v) as [[B evs]|e] eqn:Ev; [|destruct Et as (h3 & Et); congruence]. destruct Et as (h3 & Et & (_ & Lg & _)).
  assert (B = A /\ h3 = h2) as (-> & ->) by (split; congruence). split.
  - rewrite Lg, L. assert (Ee : forall l : list (event T), expand 0 l = []) by (intros l; induction l; [reflexivity|assumption]). now rewrite Ee.
  - exists h1. split; [exact E1|]. intros cbs. pose proof (transform_view K W h1 sl v X cbs None V) as Ec. cbn in Ec. rewrite Ev in Ec. destruct Ec as (h4 & -> & _). reflexivity.
Qed.

(** Fruits with common slices have the same features there: if the slices of
    [g] stand next to each other in [f], then the columns of [g] are the
    corresponding block of columns of [f]. *)
Theorem column_blocks h f g x y pre post X cbs cbs' cache A B h1 h2 :
  reachable K h -> nth_error (h_fr K h) f = Some x -> nth_error (h_fr K h) g = Some y ->
  f_slices x = pre ++ f_slices y ++ post ->
  (forall sl s, In sl (f_slices x) -> nth_error (h_sl K h) sl = Some s -> shaped K h s) -> cache_rows cache X ->
  fruit_transform K f X cbs cache h = (Ok A, h1) -> fruit_transform K g X cbs' cache h = (Ok B, h2) ->
  exists ws n, Forall2 (fun sl w => slice_nfeatures K sl h = (Ok w, h)) pre ws /\ fruit_nfeatures K g h = (Ok n, h) /\
    length A = length B /\ forall q, q < n -> column A (list_sum ws + q) = column B q.
Proof.
  intros Re Ex Ey Es Sh Cf EA EB. assert (Sh' : forall sl s, In sl (f_slices y) -> nth_error (h_sl K h) sl = Some s -> shaped K h s).
  { intros sl s Hin. apply Sh. rewrite Es. apply in_app_iff. right. apply in_app_iff. now left. }
  destruct (fruit_features K W h f x X cbs cache A h1 Re Ex Sh Cf EA) as (As & wa & A1 & A2 & A3 & A4 & A5 & A6).
  destruct (fruit_features K W h g y X cbs' cache B h2 Re Ey Sh' Cf EB) as (Bs & wb & B1 & B2 & B3 & B4 & B5 & B6).
  rewrite Es in A1, A2. apply Forall2_app_inv_l in A1 as (As1 & As2 & A11 & A12 & ->). apply Forall2_app_inv_l in A12 as (As3 & As4 & A12 & A13 & ->).
  apply Forall2_app_inv_l in A2 as (wa1 & wa2 & A21 & A22 & ->). apply Forall2_app_inv_l in A22 as (wa3 & wa4 & A22 & A23 & ->).
  assert (wa3 = wb) as ->. { clear - A22 B2. revert wb B2. induction A22 as [|sl w l ws E F IH]; intros wb G; inversion G; subst; [reflexivity|]. f_equal; [congruence|auto]. }
  assert (AB : Forall2 (fun a b => a = b) As3 Bs).
  { assert (Gen : forall sl, fst (slice_transform K sl X cbs (Some (match cache with Some c => c | None => X end)) h) = fst (slice_transform K sl X cbs' (Some (match cache with Some c => c | None => X end)) h)).
    { intros sl. destruct (nth_error (h_sl K h) sl) as [s|] eqn:E.
      - eapply slice_transform_repeatable; [exact Re|constructor|exact E].
      - unfold slice_transform. now rewrite !(bind_err K _ _ h AttributeError h) by (unfold look; now rewrite E). }
    clear - A12 B1 Gen. revert Bs B1. induction A12 as [|sl a l As E F IH]; intros Bs G; inversion G as [|? b ? Bs' Hb G']; subst; constructor; [|now apply IH].
    rewrite Gen in E. congruence. }
  assert (As3 = Bs) as -> by (clear - AB; induction AB; congruence).
  exists wa1, (list_sum wb). split; [exact A21|]. split; [exact B3|]. split; [congruence|]. intros q Hq.
  destruct (offset_ex wb q Hq) as (j & r & Hj & Hr & ->).
  pose proof (Forall2_len _ _ _ B1) as L1. pose proof (Forall2_len _ _ _ B2) as L2. pose proof (Forall2_len _ _ _ A11) as L3. pose proof (Forall2_len _ _ _ A21) as L4.
  destruct (nth_error wb j) as [w|] eqn:Ew; [|apply nth_error_None in Ew; lia]. destruct (nth_error Bs j) as [b|] eqn:Eb; [|apply nth_error_None in Eb; lia].
  rewrite (nth_error_nth _ _ 0 Ew) in Hr. rewrite (B6 j b w r Eb Ew Hr).
  rewrite <- (A6 (length pre + j) b w r).
  - rewrite L4, firstn_app_2, firstn_app, list_sum_app. rewrite Nat.add_assoc. f_equal. f_equal. f_equal.
    assert (j - length wb = 0) as -> by lia. cbn. now rewrite app_nil_r.
  - rewrite L3. rewrite nth_error_app2 by lia. replace (length As1 + j - length As1) with j by lia. rewrite nth_error_app1; [exact Eb|]. apply nth_error_Some. congruence.
  - rewrite L4. rewrite nth_error_app2 by lia. replace (length wa1 + j - length wa1) with j by lia. rewrite nth_error_app1; [exact Ew|]. apply nth_error_Some. congruence.
  - exact Hr.
Qed.
End C60.
Print Assumptions transform_repeatable.
Print Assumptions slice_transform_repeatable.
Print Assumptions fit_transform_consistent.
Print Assumptions slice_fit_transform_consistent.
Print Assumptions column_blocks.
