(** Seeds in a history: what holds for all seeds a history starts with and is
    kept by their methods holds for all seeds at any time. *)
From Coq Require Import Ascii String List Arith ZArith Bool RelationClasses Lia.
From Verif Require Import Num Arr M_Str M_Np M_Fruit S_Fruit L_Arr.
Import ListNotations.

Section All.
Context {T : Type} `{Num T}.
Variable K : kit T.
Notation heap := (heap K).
Variables (QP : prepT K -> Prop) (QI : issT K -> Prop) (QS : sieveT K -> Prop).
Record closed := {
  cl_pa : forall c p, QP p -> QP (p_attach K c p);
  cl_pf : forall g X p, QP p -> QP (snd (fst (p_fit K g X p)));
  cl_pt : forall X p, QP p -> QP (snd (p_transform K X p));
  cl_pc : forall p q, QP p -> p_copy K p = Ok q -> QP q;
  cl_ia : forall c p, QI p -> QI (i_attach K c p);
  cl_if : forall g X p, QI p -> QI (snd (fst (i_fit K g X p)));
  cl_ic : forall p q, QI p -> i_copy K p = Ok q -> QI q;
  cl_sa : forall c p, QS p -> QS (s_attach K c p);
  cl_sf : forall g Y p, QS p -> QS (snd (fst (s_fit K g Y p)));
  cl_st : forall Y p, QS p -> QS (snd (s_transform K Y p));
  cl_sc : forall p q, QS p -> s_copy K p = Ok q -> QS q }.
Variable C : closed.
(** The seeds a call creates from what the caller gives it. *)
Definition brings_arg (a : arg K) : Prop :=
  match a with ClsP _ (Ok v) => QP v | ClsI _ (Ok v) => QI v | ClsS _ (Ok v) => QS v | _ => True end.
Definition brings (o : op K) : Prop :=
  match o with
  | ONewPrep _ v => QP v | ONewIss _ v => QI v | ONewSieve _ v => QS v
  | OAdd _ _ l | FAdd _ _ l => forall a, In a l -> brings_arg a
  | _ => True
  end.
Definition all (h : heap) : Prop := Forall QP (h_p K h) /\ Forall QI (h_i K h) /\ Forall QS (h_s K h).
Definition safe {A} (m : M K A) (post : A -> Prop) : Prop :=
  forall h, all h -> all (snd (m h)) /\ forall a, fst (m h) = Ok a -> post a.
Definition any {A} (_ : A) : Prop := True.
Lemma safe_bind {A B} (m : M K A) (f : A -> M K B) Q P : safe m Q -> (forall a, Q a -> safe (f a) P) -> safe (bindM K m f) P.
Proof.
  intros Hm Hf h Hh. destruct (Hm h Hh) as (H1 & H2). unfold bindM. destruct (m h) as [[a|e] h1]; cbn in *.
  - exact (Hf a (H2 a eq_refl) h1 H1).
  - split; [exact H1|]. discriminate.
Qed.
Lemma safe_w {A} (m : M K A) (Q P : A -> Prop) : safe m Q -> (forall a, Q a -> P a) -> safe m P.
Proof. intros Hm Hf h Hh. destruct (Hm h Hh) as (H1 & H2). split; [exact H1|]. auto. Qed.
Lemma safe_ret {A} (a : A) (P : A -> Prop) : P a -> safe (ret K a) P.
Proof. intros Ha h Hh. split; [exact Hh|]. cbn. intros b E. injection E as <-. exact Ha. Qed.
Lemma safe_raise {A} e (P : A -> Prop) : safe (raise K e) P.
Proof. intros h Hh. split; [exact Hh|discriminate]. Qed.
Lemma safe_lift {A} (r : res A) (P : A -> Prop) : (forall a, r = Ok a -> P a) -> safe (liftR K r) P.
Proof. intros Ha h Hh. split; [exact Hh|exact Ha]. Qed.
Lemma safe_get_g : safe (get_g K) any.
Proof. intros h Hh. split; [exact Hh|]. intros; exact Logic.I. Qed.
Lemma nth_Forall {A} (P : A -> Prop) l i a : Forall P l -> nth_error l i = Some a -> P a.
Proof. intros HF E. apply nth_error_In in E. rewrite Forall_forall in HF. auto. Qed.
Lemma safe_look_p i : safe (look K (h_p K) i) QP.
Proof. intros h Hh. unfold look. destruct (nth_error (h_p K h) i) as [a|] eqn:E; (split; [exact Hh|]); cbn; [|discriminate]. intros b F. injection F as <-. exact (nth_Forall _ _ _ _ (proj1 Hh) E). Qed.
Lemma safe_look_i i : safe (look K (h_i K) i) QI.
Proof. intros h Hh. unfold look. destruct (nth_error (h_i K h) i) as [a|] eqn:E; (split; [exact Hh|]); cbn; [|discriminate]. intros b F. injection F as <-. exact (nth_Forall _ _ _ _ (proj1 (proj2 Hh)) E). Qed.
Lemma safe_look_s i : safe (look K (h_s K) i) QS.
Proof. intros h Hh. unfold look. destruct (nth_error (h_s K h) i) as [a|] eqn:E; (split; [exact Hh|]); cbn; [|discriminate]. intros b F. injection F as <-. exact (nth_Forall _ _ _ _ (proj2 (proj2 Hh)) E). Qed.
Lemma safe_look {A} (sel : heap -> list A) i : safe (look K sel i) any.
Proof. intros h Hh. unfold look. destruct (nth_error (sel h) i); (split; [exact Hh|intros; exact Logic.I]). Qed.
Lemma upd_Forall {A} (P : A -> Prop) l i v : Forall P l -> P v -> Forall P (upd i v l).
Proof. intros HF Hv. revert i. induction HF as [|x l Hx Hl IH]; intros [|i]; cbn; auto. Qed.
Lemma safe_set_p i v : QP v -> safe (set_p K i v) any.
Proof. intros Hv h (A1 & A2 & A3). split; [|intros; exact Logic.I]. split; [|split]; cbn; auto using upd_Forall. Qed.
Lemma safe_set_i i v : QI v -> safe (set_i K i v) any.
Proof. intros Hv h (A1 & A2 & A3). split; [|intros; exact Logic.I]. split; [|split]; cbn; auto using upd_Forall. Qed.
Lemma safe_set_s i v : QS v -> safe (set_s K i v) any.
Proof. intros Hv h (A1 & A2 & A3). split; [|intros; exact Logic.I]. split; [|split]; cbn; auto using upd_Forall. Qed.
Lemma safe_new_p v : QP v -> safe (new_p K v) any.
Proof. intros Hv h (A1 & A2 & A3). split; [|intros; exact Logic.I]. split; [|split]; cbn; auto. apply Forall_app; auto. Qed.
Lemma safe_new_i v : QI v -> safe (new_i K v) any.
Proof. intros Hv h (A1 & A2 & A3). split; [|intros; exact Logic.I]. split; [|split]; cbn; auto. apply Forall_app; auto. Qed.
Lemma safe_new_s v : QS v -> safe (new_s K v) any.
Proof. intros Hv h (A1 & A2 & A3). split; [|intros; exact Logic.I]. split; [|split]; cbn; auto. apply Forall_app; auto. Qed.
Lemma safe_set_g g : safe (set_g K g) any. Proof. intros h Hh. split; [exact Hh|]. intros; exact Logic.I. Qed.
Lemma safe_set_sl i v : safe (set_sl K i v) any. Proof. intros h Hh. split; [exact Hh|]. intros; exact Logic.I. Qed.
Lemma safe_set_fr i v : safe (set_fr K i v) any. Proof. intros h Hh. split; [exact Hh|]. intros; exact Logic.I. Qed.
Lemma safe_new_sl v : safe (new_sl K v) any. Proof. intros h Hh. split; [exact Hh|]. intros; exact Logic.I. Qed.
Lemma safe_new_fr v : safe (new_fr K v) any. Proof. intros h Hh. split; [exact Hh|]. intros; exact Logic.I. Qed.
Lemma safe_emit c e : safe (emit K c e) any. Proof. intros h Hh. split; [exact Hh|]. intros; exact Logic.I. Qed.
Lemma safe_forM {A} (l : list A) f : (forall a, In a l -> safe (f a) any) -> safe (forM K l f) any.
Proof.
  induction l as [|x l IH]; intros E; cbn [forM]; [apply safe_ret; exact Logic.I|].
  eapply safe_bind; [apply E; now left|]. intros _ _. apply IH. intros a Ha. apply E. now right.
Qed.
Lemma safe_collect {A B} (l : list A) (f : A -> M K B) (Q : B -> Prop) : (forall a, In a l -> safe (f a) Q) -> safe (collect K l f) any.
Proof.
  induction l as [|x l IH]; intros E; cbn [collect]; [apply safe_ret; exact Logic.I|].
  eapply safe_bind; [apply E; now left|]. intros y _. eapply safe_bind; [apply IH; intros a Ha; apply E; now right|]. intros; apply safe_ret; exact Logic.I.
Qed.

Ltac sv := repeat lazymatch goal with
  | |- safe (bindM _ (look _ (h_p _) _) _) _ => eapply safe_bind; [apply safe_look_p|intros]
  | |- safe (bindM _ (look _ (h_i _) _) _) _ => eapply safe_bind; [apply safe_look_i|intros]
  | |- safe (bindM _ (look _ (h_s _) _) _) _ => eapply safe_bind; [apply safe_look_s|intros]
  | |- safe (bindM _ (look _ _ _) _) _ => eapply safe_bind; [apply safe_look|intros]
  | |- safe (bindM _ (liftR _ (p_copy _ _)) _) _ => eapply (safe_bind _ _ QP); [apply safe_lift; intros ? ?; eapply (cl_pc C); eassumption|intros]
  | |- safe (bindM _ (liftR _ (i_copy _ _)) _) _ => eapply (safe_bind _ _ QI); [apply safe_lift; intros ? ?; eapply (cl_ic C); eassumption|intros]
  | |- safe (bindM _ (liftR _ (s_copy _ _)) _) _ => eapply (safe_bind _ _ QS); [apply safe_lift; intros ? ?; eapply (cl_sc C); eassumption|intros]
  | |- safe (bindM _ _ _) _ => eapply (safe_bind _ _ any); [|intros]
  | |- safe (forM _ _ _) _ => apply safe_forM; intros
  | |- safe (collect _ _ _) _ => apply (safe_collect _ _ any); intros
  | |- safe (ret _ _) _ => apply safe_ret; exact Logic.I
  | |- safe (raise _ _) _ => apply safe_raise
  | |- safe (liftR _ _) _ => apply safe_lift; intros; exact Logic.I
  | |- safe (look _ _ _) _ => apply safe_look
  | |- safe (get_g _) _ => apply safe_get_g
  | |- safe (set_g _ _) _ => apply safe_set_g
  | |- safe (set_p _ _ _) _ => apply safe_set_p
  | |- safe (set_i _ _ _) _ => apply safe_set_i
  | |- safe (set_s _ _ _) _ => apply safe_set_s
  | |- safe (new_p _ _) _ => apply safe_new_p
  | |- safe (new_i _ _) _ => apply safe_new_i
  | |- safe (new_s _ _) _ => apply safe_new_s
  | |- safe (set_sl _ _ _) _ => apply safe_set_sl
  | |- safe (set_fr _ _ _) _ => apply safe_set_fr
  | |- safe (new_sl _ _) _ => apply safe_new_sl
  | |- safe (new_fr _ _) _ => apply safe_new_fr
  | |- safe (emit _ _ _) _ => apply safe_emit
  end.
Hint Resolve cl_pa cl_pf cl_pt cl_pc cl_ia cl_if cl_ic cl_sa cl_sf cl_st cl_sc : core.
Lemma safe_upd_sl i f : safe (upd_sl K i f) any. Proof. unfold upd_sl. sv. Qed.
Lemma safe_upd_fr i f : safe (upd_fr K i f) any. Proof. unfold upd_fr. sv. Qed.
Hint Resolve safe_upd_sl safe_upd_fr : core.
Lemma safe_add1 sl a : brings_arg a -> safe (add1 K sl a) any.
Proof.
  intros Hb. destruct a as [id|id|id|r|r|r|]; cbn [add1 brings_arg] in *.
  1-3,7: sv; unfold add_p, add_i, add_s; auto.
  - eapply (safe_bind _ _ QP); [apply safe_lift; intros v ->; exact Hb|]. intros v Hv. sv; unfold add_p; auto.
  - eapply (safe_bind _ _ QI); [apply safe_lift; intros v ->; exact Hb|]. intros v Hv. sv; unfold add_i; auto.
  - eapply (safe_bind _ _ QS); [apply safe_lift; intros v ->; exact Hb|]. intros v Hv. sv; unfold add_s; auto.
Qed.
Lemma safe_add sl l : (forall a, In a l -> brings_arg a) -> safe (slice_add K sl l) any.
Proof. intros Hb. unfold slice_add. sv. apply safe_add1. auto. Qed.
Lemma safe_fit_preps c ids : forall Y, safe (fit_preps K c ids Y) any.
Proof.
  induction ids as [|id ids IH]; intros Y; cbn [fit_preps]; sv. pose proof (cl_pf C a0 Y _ (cl_pa C c a H0)) as F.
  destruct (p_fit K a0 Y (p_attach K c a)) as [[x p1] g']. cbn in F. sv; [exact F|]. pose proof (cl_pt C Y p1 F) as F2.
  destruct (p_transform K Y p1) as [y p2]. cbn in F2. sv; [exact F2|]. apply IH.
Qed.
Lemma safe_fit_iss c Y id : safe (fit_iss K c Y id) any.
Proof.
  unfold fit_iss. sv. pose proof (cl_if C a0 Y _ (cl_ia C c a H0)) as F. destruct (i_requires K (i_attach K c a)); [|sv; now apply (cl_ia C)].
  destruct (i_fit K a0 Y (i_attach K c a)) as [[x p1] g']. cbn in F. sv. exact F.
Qed.
Lemma safe_fit_sieve c Y id : safe (fit_sieve K c Y id) any.
Proof.
  unfold fit_sieve. sv. pose proof (cl_sf C a0 Y _ (cl_sa C c a H0)) as F.
  destruct (s_fit K a0 Y (s_attach K c a)) as [[x p1] g']. cbn in F. sv. exact F.
Qed.
Lemma safe_copy_sieve id : safe (copy_sieve K id) any.
Proof. unfold copy_sieve. eapply safe_bind; [apply safe_look_s|]. intros s Hs. eapply (safe_bind _ _ QS); [apply safe_lift; intros a E; exact (cl_sc C s a Hs E)|]. intros a Ha. sv. exact Ha. Qed.
Lemma safe_fit_ext c sl sv its : safe (fit_ext K c sl sv its) any.
Proof.
  induction its as [|[Y|e] its IH]; cbn [fit_ext]; sv; [apply safe_copy_sieve|apply safe_fit_sieve|apply safe_upd_sl|exact IH].
Qed.
Lemma safe_select size n : safe (select_sample K size n) any.
Proof.
  unfold select_sample. sv. destruct size as [|f]; [destruct (n =? 0); [sv|destruct (k_randint K a n); sv]|
    destruct (n <? Nat.max (f n) 1); [sv|destruct (k_choice K a n (Nat.max (f n) 1)); sv]].
Qed.
Lemma safe_slice_fit sl X c : safe (slice_fit K sl X c) any.
Proof.
  unfold slice_fit. sv. destruct (negb (nonempty (sl_i a))); [sv|]. destruct (negb (nonempty (sl_s a))); [sv|]. sv.
  - apply safe_select. - apply safe_fit_preps. - apply safe_fit_iss.
  - destruct (negb _); sv; auto using safe_fit_ext.
Qed.
Lemma safe_run_preps c cbs ids : forall Y, safe (run_preps K c cbs ids Y) any.
Proof.
  induction ids as [|id ids IH]; intros Y; cbn [run_preps]; sv. pose proof (cl_pt C Y _ (cl_pa C c a H0)) as F.
  destruct (p_transform K Y (p_attach K c a)) as [y p1]. cbn in F. sv; [exact F|apply IH].
Qed.
Lemma safe_run_sieves c cbs ids Y : forall kA, safe (run_sieves K c cbs ids Y kA) any.
Proof.
  induction ids as [|id ids IH]; intros [k A]; cbn [run_sieves]; sv. pose proof (cl_st C Y _ (cl_sa C c a H0)) as F.
  destruct (s_transform K Y (s_attach K c a)) as [y p1]. cbn in F. sv; [exact F|apply IH].
Qed.
Lemma safe_run_itsums c cbs s its : forall i kA, safe (run_itsums K c cbs s i its kA) any.
Proof.
  induction its as [|[Y|e] its IH]; intros i kA; cbn [run_itsums]; sv; [|apply safe_run_sieves|apply IH].
  destruct (nonempty (sl_ext s)); [|sv]. destruct (nth_error (sl_ext s) i); sv.
Qed.
Lemma safe_nf sl : safe (slice_nfeatures K sl) any.
Proof. unfold slice_nfeatures, sum_nf, niteratedsums. sv. Qed.
Lemma safe_slice_transform sl X cbs c : safe (slice_transform K sl X cbs c) any.
Proof.
  unfold slice_transform. sv. destruct (negb (sl_fitted a)); sv; [apply safe_run_preps|apply safe_nf| |apply safe_run_itsums]. now apply (cl_ia C).
Qed.
Lemma safe_slice_copy sl : safe (slice_copy K sl) any.
Proof. unfold slice_copy. sv; apply safe_add; intros x Hx; apply in_map_iff in Hx as (y & <- & _); exact Logic.I. Qed.
Lemma safe_slice_deepcopy sl : safe (slice_deepcopy K sl) any.
Proof.
  unfold slice_deepcopy. sv; unfold add_p, add_i, add_s; auto.
Qed.
Lemma safe_cut f sl : safe (fruit_cut K f sl) any.
Proof. unfold fruit_cut. sv; auto. destruct sl; sv. Qed.
Lemma safe_get_slice f i : safe (fruit_get_slice K f i) any.
Proof. unfold fruit_get_slice. sv. destruct i; [sv; destruct (nth_error _ _); sv|]. destruct (nth_error _ _); sv. Qed.
Lemma safe_run_slices c X cbs ids : forall i A, safe (run_slices K c X cbs ids i A) any.
Proof. induction ids as [|id ids IH]; intros i A; cbn [run_slices]; sv; auto using safe_nf, safe_slice_transform. Qed.
Lemma safe_void {A} (m : M K A) P : safe m P -> safe (void K m) any.
Proof. intros Hm h Hh. destruct (Hm h Hh) as (H1 & _). unfold void. destruct (m h) as [[a|e] h']; split; try exact H1; intros; exact Logic.I. Qed.
Lemma safe_fruit_fit f X c : safe (fruit_fit K f X c) any.
Proof. unfold fruit_fit. sv; auto using safe_slice_fit. Qed.
Lemma safe_fruit_transform f X cbs c : safe (fruit_transform K f X cbs c) any.
Proof. unfold fruit_transform. sv. destruct (negb (f_fitted a)); sv; [|apply safe_run_slices]. unfold fruit_nfeatures. sv. apply safe_nf. Qed.
Lemma safe_exec o : brings o -> safe (exec K o) any.
Proof.
  destruct o; cbn [exec brings]; intros Hb.
  all: try (eapply safe_void with (P := any)).
  all: unfold clear, clear_p, clear_i, clear_s; sv; auto using safe_add, safe_upd_sl, safe_slice_fit, safe_slice_transform, safe_slice_copy, safe_slice_deepcopy, safe_cut, safe_fruit_fit, safe_fruit_transform.
  - pose proof (cl_pf C a0 X a H0) as F. destruct (p_fit K a0 X a) as [[x p'] g']. sv. exact F.
  - pose proof (cl_pt C X a H0) as F. destruct (p_transform K X a) as [x p']. sv; [exact F|]. eapply safe_void with (P := any). sv.
  - pose proof (cl_if C a0 X a H0) as F. destruct (i_fit K a0 X a) as [[x p'] g']. sv. exact F.
  - pose proof (cl_sf C a0 Y a H0) as F. destruct (s_fit K a0 Y a) as [[x p'] g']. sv. exact F.
  - pose proof (cl_st C Y a H0) as F. destruct (s_transform K Y a) as [x p']. sv; [exact F|]. eapply safe_void with (P := any). sv.
  - unfold slice_fit_transform. sv; auto using safe_slice_fit, safe_slice_transform.
  - unfold fruit_copycut. sv; auto using safe_get_slice, safe_slice_deepcopy, safe_cut.
  - unfold fruit_switch. sv. destruct (_ && _); sv.
  - unfold fruit_add. sv; auto using safe_get_slice, safe_add. destruct (nonempty (f_slices a)); sv. apply safe_cut.
  - unfold fruit_fit_transform. sv; auto using safe_fruit_fit, safe_fruit_transform.
  - unfold fruit_copy. sv; auto using safe_slice_copy, safe_cut.
  - unfold fruit_deepcopy. sv; auto using safe_slice_deepcopy, safe_cut.
Qed.
Lemma run_all ops : Forall brings ops -> forall h, all h -> all (run K h ops).
Proof.
  unfold run. induction 1 as [|o ops Ho Hops IH]; intros h Hh; [exact Hh|]. cbn [fold_left]. apply IH. exact (proj1 (safe_exec o Ho h Hh)).
Qed.
Lemma all_heap0 g : all (heap0 K g). Proof. repeat split; constructor. Qed.
End All.
