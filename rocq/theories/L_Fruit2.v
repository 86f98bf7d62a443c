(** Invariants of heaps under the API calls of fruit.py. *)
From Coq Require Import Ascii String List Arith ZArith Bool RelationClasses Lia.
From Verif Require Import Num Arr M_Str M_Words M_Np M_Fruit S_Fruit L_Arr L_Fruit.
Import ListNotations.

Section Inv.
Context {T : Type} `{Num T}.
Variable K : kit T.
Notation heap := (heap K).
Variable W : lawful K.

(** ** Preorders on heaps *)
Definition pres {A} (R : heap -> heap -> Prop) (m : M K A) : Prop := forall h, R h (snd (m h)).
Section Pre.
Variable R : heap -> heap -> Prop.
Hypothesis Rr : forall h, R h h.
Hypothesis Rt : forall a b c, R a b -> R b c -> R a c.
Lemma pres_ret {A} (a : A) : pres R (ret K a). Proof. intros h. apply Rr. Qed.
Lemma pres_raise {A} e : pres R (@raise T K A e). Proof. intros h. apply Rr. Qed.
Lemma pres_liftR {A} (x : res A) : pres R (liftR K x). Proof. intros h. apply Rr. Qed.
Lemma pres_look {A} (sel : heap -> list A) i : pres R (look K sel i).
Proof. intros h. unfold look. destruct (nth_error (sel h) i); apply Rr. Qed.
Lemma pres_get_g : pres R (get_g K). Proof. intros h. apply Rr. Qed.
Lemma pres_bind {A B} (m : M K A) (f : A -> M K B) : pres R m -> (forall a, pres R (f a)) -> pres R (bindM K m f).
Proof.
  intros Em Ef h. specialize (Em h). unfold bindM. destruct (m h) as [[a|e] h1]; cbn in *; [|exact Em].
  eapply Rt; [exact Em|apply Ef].
Qed.
Lemma pres_forM {A} (l : list A) f : (forall a, In a l -> pres R (f a)) -> pres R (forM K l f).
Proof.
  induction l as [|x l IH]; intros E; cbn [forM]; [apply pres_ret|].
  apply pres_bind; [apply E; now left|]. intros _. apply IH. intros a Ha. apply E. now right.
Qed.
Lemma pres_collect {A B} (l : list A) (f : A -> M K B) : (forall a, In a l -> pres R (f a)) -> pres R (collect K l f).
Proof.
  induction l as [|x l IH]; intros E; cbn [collect]; [apply pres_ret|].
  apply pres_bind; [apply E; now left|]. intros y. apply pres_bind; [|intros; apply pres_ret]. apply IH. intros a Ha. apply E. now right.
Qed.
End Pre.

(** Objects are never removed; counts of ISS and sieves do not change. *)
Definition keepI (i j : issT K) : Prop := i_n K j = i_n K i.
Definition keepS (s t : sieveT K) : Prop := s_nf K t = s_nf K s /\ s_requires K t = s_requires K s /\ s_label K t = s_label K s.
Definition incl_by {A} (R : A -> A -> Prop) (l l' : list A) : Prop :=
  forall id o, nth_error l id = Some o -> exists o', nth_error l' id = Some o' /\ R o o'.
Definition grow (h h' : heap) : Prop :=
  incl_by (fun _ _ => True) (h_p K h) (h_p K h') /\ incl_by keepI (h_i K h) (h_i K h') /\ incl_by keepS (h_s K h) (h_s K h').
Definition quiet (h h' : heap) : Prop := grow h h' /\ h_sl K h' = h_sl K h /\ h_fr K h' = h_fr K h.
Lemma incl_refl {A} (R : A -> A -> Prop) l : (forall x, R x x) -> incl_by R l l.
Proof. intros E id o Ho. eauto. Qed.
Lemma incl_trans' {A} (R : A -> A -> Prop) a b c : (forall x y z, R x y -> R y z -> R x z) -> incl_by R a b -> incl_by R b c -> incl_by R a c.
Proof. intros E E1 E2 id o Ho. destruct (E1 id o Ho) as (o1 & H1 & R1). destruct (E2 id o1 H1) as (o2 & H2 & R2). eauto. Qed.
Lemma incl_app {A} (R : A -> A -> Prop) l v : (forall x, R x x) -> incl_by R l (l ++ v).
Proof. intros E id o Ho. exists o. split; [|apply E]. rewrite nth_error_app1; [exact Ho|]. apply nth_error_Some. congruence. Qed.
Lemma incl_upd {A} (R : A -> A -> Prop) l i v x : (forall x, R x x) -> nth_error l i = Some x -> R x v -> incl_by R l (upd i v l).
Proof.
  intros E Hi Hv id o Ho. destruct (Nat.eq_dec i id) as [->|Hn].
  - exists v. rewrite upd_nth_error_eq by (apply nth_error_Some; congruence). split; [reflexivity|]. congruence.
  - exists o. rewrite upd_nth_error_neq by exact Hn. split; [exact Ho|apply E].
Qed.
Lemma keepI_refl i : keepI i i. Proof. reflexivity. Qed.
Lemma keepS_refl s : keepS s s. Proof. repeat split. Qed.
Lemma keepI_trans i j k : keepI i j -> keepI j k -> keepI i k. Proof. unfold keepI. congruence. Qed.
Lemma keepS_trans i j k : keepS i j -> keepS j k -> keepS i k. Proof. unfold keepS. intuition congruence. Qed.
Lemma grow_refl h : grow h h.
Proof. split; [|split]; apply incl_refl; auto using keepI_refl, keepS_refl. Qed.
Lemma grow_trans a b c : grow a b -> grow b c -> grow a c.
Proof.
  intros (A1 & A2 & A3) (B1 & B2 & B3). split; [|split].
  - eapply incl_trans'; [|exact A1|exact B1]. auto.
  - eapply incl_trans'; [|exact A2|exact B2]. apply keepI_trans.
  - eapply incl_trans'; [|exact A3|exact B3]. apply keepS_trans.
Qed.
Lemma quiet_refl h : quiet h h. Proof. split; [apply grow_refl|split; reflexivity]. Qed.
Lemma quiet_trans a b c : quiet a b -> quiet b c -> quiet a c.
Proof. intros (A & A1 & A2) (B & B1 & B2). split; [eapply grow_trans; eassumption|]. split; congruence. Qed.

Ltac same := try (apply incl_refl; auto using keepI_refl, keepS_refl).
Lemma quiet_set_p i v : pres quiet (set_p K i v).
Proof.
  intros h. cbn. split; [|split; reflexivity]. split; [|split]; cbn; same.
  intros id o Ho. destruct (nth_error (upd i v (h_p K h)) id) as [o'|] eqn:E; [eauto|].
  apply nth_error_None in E. rewrite upd_length in E. assert (id < length (h_p K h)) by (apply nth_error_Some; congruence). lia.
Qed.
Lemma quiet_new_p v : pres quiet (new_p K v).
Proof. intros h. split; [|split; reflexivity]. split; [|split]; cbn; same. apply incl_app. auto. Qed.
Lemma quiet_new_i v : pres quiet (new_i K v).
Proof. intros h. split; [|split; reflexivity]. split; [|split]; cbn; same. apply incl_app. apply keepI_refl. Qed.
Lemma quiet_new_s v : pres quiet (new_s K v).
Proof. intros h. split; [|split; reflexivity]. split; [|split]; cbn; same. apply incl_app. apply keepS_refl. Qed.
Lemma quiet_set_g g : pres quiet (set_g K g).
Proof. intros h. split; [|split; reflexivity]. split; [|split]; cbn; same. Qed.
Lemma quiet_emit c e : pres quiet (emit K c e).
Proof. intros h. split; [|split; reflexivity]. split; [|split]; cbn; same. Qed.
Lemma quiet_set_i i v x h : nth_error (h_i K h) i = Some x -> keepI x v -> quiet h (snd (set_i K i v h)).
Proof. intros E1 E2. split; [|split; reflexivity]. split; [|split]; cbn; same. eapply incl_upd; eauto using keepI_refl. Qed.
Lemma quiet_set_s i v x h : nth_error (h_s K h) i = Some x -> keepS x v -> quiet h (snd (set_s K i v h)).
Proof. intros E1 E2. split; [|split; reflexivity]. split; [|split]; cbn; same. eapply incl_upd; eauto using keepS_refl. Qed.

(** Bind after a lookup: the object looked up is known. *)
Lemma pres_look_bind {A B} (R : heap -> heap -> Prop) (Rr : forall h, R h h) (sel : heap -> list A) i (f : A -> M K B) :
  (forall a h, nth_error (sel h) i = Some a -> R h (snd (f a h))) -> pres R (bindM K (look K sel i) f).
Proof. intros E h. unfold bindM, look. destruct (nth_error (sel h) i) as [a|] eqn:Ea; [|apply Rr]. now apply E. Qed.
(** One step inside a computation. *)
Lemma step {A B} (R : heap -> heap -> Prop) (Rt : forall a b c, R a b -> R b c -> R a c) (m : M K A) (f : A -> M K B) h :
  R h (snd (m h)) -> (forall a h', m h = (Ok a, h') -> R h' (snd (f a h'))) -> R h (snd (bindM K m f h)).
Proof. intros E1 E2. unfold bindM. destruct (m h) as [[a|e] h1]; cbn in *; [|exact E1]. eapply Rt; [exact E1|]. now apply E2. Qed.

Ltac qpres := repeat lazymatch goal with
  | |- quiet ?h (snd (?m ?h)) => let G := fresh in enough (G : pres quiet m) by exact (G h)
  | |- pres quiet (bindM _ _ _) => apply (pres_bind quiet quiet_trans); [|intros]
  | |- pres quiet (forM _ _ _) => apply (pres_forM quiet quiet_refl quiet_trans); intros
  | |- pres quiet (collect _ _ _) => apply (pres_collect quiet quiet_refl quiet_trans); intros
  | |- pres quiet (ret _ _) => apply (pres_ret quiet quiet_refl)
  | |- pres quiet (raise _ _) => apply (pres_raise quiet quiet_refl)
  | |- pres quiet (liftR _ _) => apply (pres_liftR quiet quiet_refl)
  | |- pres quiet (look _ _ _) => apply (pres_look quiet quiet_refl)
  | |- pres quiet (get_g _) => apply (pres_get_g quiet quiet_refl)
  | |- pres quiet (set_p _ _ _) => apply quiet_set_p
  | |- pres quiet (new_p _ _) => apply quiet_new_p
  | |- pres quiet (new_i _ _) => apply quiet_new_i
  | |- pres quiet (new_s _ _) => apply quiet_new_s
  | |- pres quiet (set_g _ _) => apply quiet_set_g
  | |- pres quiet (emit _ _ _) => apply quiet_emit
  end.

Lemma keepS_attach c s : keepS s (s_attach K c s).
Proof. split; [|split]; [apply (eqS_nf K W)|apply (eqS_requires K W)|apply (eqS_label K W)]; apply (eqS_attach K W). Qed.
Lemma keepI_attach c i : keepI i (i_attach K c i).
Proof. apply (eqI_n K W), (eqI_attach K W). Qed.

Lemma quiet_fit_preps c ids Y : pres quiet (fit_preps K c ids Y).
Proof.
  revert Y. induction ids as [|id ids IH]; intros Y; cbn [fit_preps]; qpres.
  destruct (p_fit K a0 Y (p_attach K c a)) as [[x p1] g']. qpres. destruct (p_transform K Y p1) as [y p2]. qpres. apply IH.
Qed.
Lemma quiet_fit_iss c Y id : pres quiet (fit_iss K c Y id).
Proof.
  unfold fit_iss. apply (pres_look_bind quiet quiet_refl). intros i h Ei.
  apply (step quiet quiet_trans); [apply (pres_get_g quiet quiet_refl)|]. intros g h' E. injection E as <- <-.
  destruct (i_requires K (i_attach K c i)).
  - destruct (i_fit K (h_g K h) Y (i_attach K c i)) as [[x i1] g'] eqn:Ef.
    apply (step quiet quiet_trans); [|intros; qpres].
    apply (quiet_set_i _ _ i); [exact Ei|]. eapply keepI_trans; [apply (keepI_attach c)|].
    pose proof (i_fit_n K W (h_g K h) Y (i_attach K c i)) as E. rewrite Ef in E. exact E.
  - apply (quiet_set_i _ _ i); [exact Ei|apply keepI_attach].
Qed.
Lemma quiet_fit_sieve c Y id : pres quiet (fit_sieve K c Y id).
Proof.
  unfold fit_sieve. apply (pres_look_bind quiet quiet_refl). intros s h Es.
  apply (step quiet quiet_trans); [apply (pres_get_g quiet quiet_refl)|]. intros g h' E. injection E as <- <-.
  destruct (s_fit K (h_g K h) Y (s_attach K c s)) as [[x s1] g'] eqn:Ef.
  apply (step quiet quiet_trans); [|intros; qpres].
  apply (quiet_set_s _ _ s); [exact Es|]. eapply keepS_trans; [apply (keepS_attach c)|].
  pose proof (s_fit_nf K W (h_g K h) Y (s_attach K c s)) as E1. pose proof (s_fit_requires K W (h_g K h) Y (s_attach K c s)) as E2.
  pose proof (s_fit_label K W (h_g K h) Y (s_attach K c s)) as E3. rewrite Ef in E1, E2, E3. split; [|split]; assumption.
Qed.
Lemma quiet_copy_sieve id : pres quiet (copy_sieve K id).
Proof. unfold copy_sieve. qpres. Qed.
Lemma quiet_select_sample size n : pres quiet (select_sample K size n).
Proof.
  unfold select_sample. qpres. destruct size as [|f].
  - destruct (n =? 0); qpres. destruct (k_randint K a n). qpres.
  - destruct (n <? Nat.max (f n) 1); qpres. destruct (k_choice K a n (Nat.max (f n) 1)). qpres.
Qed.
Lemma quiet_run_preps c cbs ids Y : pres quiet (run_preps K c cbs ids Y).
Proof.
  revert Y. induction ids as [|id ids IH]; intros Y; cbn [run_preps]; qpres.
  destruct (p_transform K Y (p_attach K c a)) as [y p1]. qpres. apply IH.
Qed.
Lemma quiet_run_sieves c cbs ids Y kA : pres quiet (run_sieves K c cbs ids Y kA).
Proof.
  revert kA. induction ids as [|id ids IH]; intros kA; cbn [run_sieves]; [qpres|].
  apply (pres_look_bind quiet quiet_refl). intros s h Es. destruct kA as [k A].
  destruct (s_transform K Y (s_attach K c s)) as [y s1] eqn:Ef.
  apply (step quiet quiet_trans).
  - apply (quiet_set_s _ _ s); [exact Es|]. eapply keepS_trans; [apply (keepS_attach c)|].
    pose proof (s_transform_nf K W Y (s_attach K c s)) as E1. pose proof (s_transform_requires K W Y (s_attach K c s)) as E2.
    pose proof (s_transform_label K W Y (s_attach K c s)) as E3. rewrite Ef in E1, E2, E3. split; [|split]; assumption.
  - intros _ h' _. revert h'. change (pres quiet (bindM K (liftR K y) (fun R => bindM K (liftR K (set_cols k (s_nf K (s_attach K c s)) R A))
      (fun A' => bindM K (emit K cbs (ESieve (py_slice (Some (Z.of_nat k)) (Some (Z.of_nat (k + s_nf K (s_attach K c s)))) A')))
      (fun _ => run_sieves K c cbs ids Y (k + s_nf K (s_attach K c s), A')))))). qpres. apply IH.
Qed.
Lemma quiet_run_itsums c cbs s i its kA : pres quiet (run_itsums K c cbs s i its kA).
Proof.
  revert i kA. induction its as [|[Y|e] its IH]; intros i kA; cbn [run_itsums]; qpres.
  - destruct (nonempty (sl_ext s)); qpres. destruct (nth_error (sl_ext s) i); qpres.
  - apply quiet_run_sieves.
  - apply IH.
Qed.
Lemma quiet_nfeatures sl : pres quiet (slice_nfeatures K sl).
Proof. unfold slice_nfeatures, sum_nf, niteratedsums. qpres. Qed.
Lemma quiet_attach_i c id : pres quiet (bindM K (look K (h_i K) id) (fun i => set_i K id (i_attach K c i))).
Proof. apply (pres_look_bind quiet quiet_refl). intros i h Ei. apply (quiet_set_i _ _ i); [exact Ei|apply keepI_attach]. Qed.
Lemma quiet_slice_transform sl X cbs cache : pres quiet (slice_transform K sl X cbs cache).
Proof.
  unfold slice_transform. apply (pres_bind quiet quiet_trans); [qpres|]. intros a. destruct (negb (sl_fitted a)); [qpres|].
  apply (pres_bind quiet quiet_trans); [apply quiet_run_preps|]. intros Y.
  apply (pres_bind quiet quiet_trans); [qpres|]. intros _.
  apply (pres_bind quiet quiet_trans); [apply quiet_nfeatures|]. intros nf.
  apply (pres_bind quiet quiet_trans); [apply (pres_forM quiet quiet_refl quiet_trans); intros; apply quiet_attach_i|]. intros _.
  qpres. apply quiet_run_itsums.
Qed.
Lemma quiet_run_slices c X cbs ids index A : pres quiet (run_slices K c X cbs ids index A).
Proof.
  revert index A. induction ids as [|id ids IH]; intros index A; cbn [run_slices]; qpres.
  - apply quiet_nfeatures. - apply quiet_slice_transform. - apply IH.
Qed.
Lemma quiet_fruit_transform f X cbs cache : pres quiet (fruit_transform K f X cbs cache).
Proof.
  unfold fruit_transform, fruit_nfeatures. qpres. destruct (negb (f_fitted a)); qpres.
  - apply quiet_nfeatures. - apply quiet_run_slices.
Qed.
End Inv.
