(** The seeds of the library satisfy the laws of S_Fruit. *)
From Coq Require Import Ascii String List Arith ZArith Bool RelationClasses Lia.
From Verif Require Import Num Arr M_Str M_Semiring M_Words M_ISS M_Np M_Prep M_Cache M_Sieve M_PrepObj M_Cos M_Fruit M_Seeds
  S_Fruit P_Copy.
Import ListNotations.

Section Lib.
Context {T : Type} `{N : Num T}.
Variable W : oracles T.
Variable parse : pystr -> res T.
Variable powf : T -> T -> T.
Variable qf : T -> list T -> T.
Variable eps5 : T.
Variable order : list T -> list T.
Variable show_prep : prep T -> pystr.
Variable show_cut : cut_arg -> pystr.
Variable show_q : q_arg -> pystr.
Variable show_num : T -> pystr.
Variable show_ppv : ppv_cfg T -> pystr.
Notation lib := (library W parse powf qf eps5 order show_prep show_cut show_q show_num show_ppv).
Notation lbl := (sv_label show_cut show_q show_ppv).

(** Equal up to the attached cache. *)
Definition same_prep (p q : prep T) : Prop := pr_set_cache p None = pr_set_cache q None.
Definition same_iss (i j : issO T) : Prop := iss_set_cache None i = iss_set_cache None j.
Definition same_sieve0 (s t : sieve T) : Prop := sv_eqv (sv_set_cache s None) (sv_set_cache t None).
Definition same_sieve (s t : sieveO order) : Prop := same_sieve0 (so order s) (so order t).

Lemma set_cache_twice_p p a b : pr_set_cache (pr_set_cache p a) b = pr_set_cache (T := T) p b.
Proof. now destruct p. Qed.
Lemma set_cache_twice_i i a b : iss_set_cache a (iss_set_cache b i) = iss_set_cache (T := T) a i.
Proof. now destruct i. Qed.
Lemma set_cache_twice_s (s : sieve T) a b : sv_set_cache (sv_set_cache s a) b = sv_set_cache s b.
Proof. now destruct s. Qed.
Lemma same_prep_set p q ca : same_prep p q -> pr_set_cache p ca = pr_set_cache q ca.
Proof. intros E. unfold same_prep in E. rewrite <- (set_cache_twice_p p None ca), E. apply set_cache_twice_p. Qed.
Lemma same_iss_set i j ca : same_iss i j -> iss_set_cache ca i = iss_set_cache ca j.
Proof. intros E. unfold same_iss in E. rewrite <- (set_cache_twice_i i ca None), E. apply set_cache_twice_i. Qed.
Lemma sv_eqv_set (s t : sieve T) ca : sv_eqv s t -> sv_eqv (sv_set_cache s ca) (sv_set_cache t ca).
Proof. destruct s, t; cbn; intuition. Qed.
Lemma same_sieve_set (s t : sieve T) ca : same_sieve0 s t -> sv_eqv (sv_set_cache s ca) (sv_set_cache t ca).
Proof.
  intros E. apply (sv_eqv_set _ _ ca) in E. now rewrite !set_cache_twice_s in E.
Qed.
Lemma eqv_refl (s : sieve T) : sv_eqv s s.
Proof. exact (sv_eqv_refl qf powf eps5 s). Qed.
Lemma eqv_trans (s t u : sieve T) : sv_eqv s t -> sv_eqv t u -> sv_eqv s u.
Proof. exact (sv_eqv_trans qf powf eps5 s t u). Qed.
Lemma sv_eqv_sym s t : sv_eqv (T := T) s t -> sv_eqv t s.
Proof.
  revert t. induction s as [c st ca|c st ca|i IH d k ca|i IH ca]; intros [c' st' ca'|c' st' ca'|i' d' k' ca'|i' ca']; cbn; try tauto.
  - intros (-> & -> & A). repeat split. intros R. symmetry. now apply A.
  - intros (-> & -> & ->). auto.
  - intros (A & -> & -> & ->). auto.
  - intros (A & ->). auto.
Qed.

(** What depends on the configuration only. *)
Fixpoint same_cfg (s t : sieve T) : Prop :=
  match s, t with
  | SSeg c _ _, SSeg c' _ _ => sg_kind c = sg_kind c' /\ sg_cut c = sg_cut c' /\ sg_q c = sg_q c'
  | SPpv c _ _, SPpv c' _ _ => c = c'
  | SInc i d k _, SInc j d' k' _ => same_cfg i j
  | SInt i _, SInt j _ => same_cfg i j
  | _, _ => False
  end.
Lemma same_cfg_obs s : forall t, same_cfg s t -> sv_nfeatures s = sv_nfeatures t /\ sv_requires s = sv_requires t /\ lbl s = lbl t.
Proof.
  induction s as [c st ca|c st ca|i IH d k ca|i IH ca]; intros [c' st' ca'|c' st' ca'|i' d' k' ca'|i' ca'] E; cbn [same_cfg] in E; try contradiction;
    cbn [sv_nfeatures sv_requires sv_label].
  - destruct E as (E1 & E2 & E3). unfold seg_nfeatures, seg_requires. rewrite E1, E2, E3. auto.
  - subst. auto.
  - destruct (IH i' E) as (E1 & E2 & E3). repeat split; auto. now rewrite E3.
  - destruct (IH i' E) as (E1 & E2 & E3). repeat split; auto. now rewrite E3.
Qed.
Lemma same_cfg_refl s : same_cfg s s.
Proof. induction s; cbn; auto. Qed.
Lemma same_cfg_eqv s : forall t, sv_eqv s t -> same_cfg s t.
Proof.
  induction s as [c st ca|c st ca|i IH d k ca|i IH ca]; intros [c' st' ca'|c' st' ca'|i' d' k' ca'|i' ca'] E; cbn in E |- *; try contradiction;
    try (now apply IH, E); try tauto. destruct E as (-> & _). auto.
Qed.
Lemma same_cfg_same s t : same_sieve0 s t -> same_cfg s t.
Proof. intros E. apply same_cfg_eqv in E. destruct s, t; exact E. Qed.
Lemma same_cfg_fit sel s : forall X, same_cfg (snd (sv_fit qf sel s X)) s.
Proof.
  induction s as [c st ca|c st ca|i IH d k ca|i IH ca]; intros X; cbn [sv_fit].
  - cbn. auto.
  - now destruct (ppv_fit qf c sel X) as [[[]|e] q].
  - destruct (wrap_inc d k X X) as [Y|e]; [|exact (same_cfg_refl i)]. specialize (IH Y). now destruct (sv_fit qf sel i Y) as [[[]|e] i'].
  - specialize (IH (map cumsum X)). now destruct (sv_fit qf sel i (map cumsum X)) as [[[]|e] i'].
Qed.
Lemma same_cfg_transform s : forall X, same_cfg (snd (sv_transform parse s X)) s.
Proof.
  induction s as [c st ca|c st ca|i IH d k ca|i IH ca]; intros X; cbn [sv_transform].
  - destruct (seg_transform c _ st X) as [[r|e] st']; cbn; auto.
  - destruct (ppv_transform c st X); cbn; auto.
  - destruct (wrap_inc d k X X) as [Y|e]; [|exact (same_cfg_refl i)]. specialize (IH Y). now destruct (sv_transform parse i Y) as [[r|e] i'].
  - specialize (IH (map cumsum X)). now destruct (sv_transform parse i (map cumsum X)) as [[r|e] i'].
Qed.
Lemma same_cfg_copy s : forall s', regular order s -> sv_copy order s = Ok s' -> same_cfg s' s.
Proof.
  induction s as [c st ca|c st ca|i IH d k ca|i IH ca]; intros s' Hr E; cbn [sv_copy regular] in *.
  - injection E as <-. cbn. auto.
  - destruct (ppv_new _ _ _ _ _) as [c'|e] eqn:Ec; [|discriminate]. injection E as <-. apply regular_ppv_copy in Ec; [exact Ec|apply Hr].
  - destruct (sv_copy order i) as [i'|e]; [|discriminate]. injection E as <-. cbn. eauto.
  - destruct (sv_copy order i) as [i'|e]; [|discriminate]. injection E as <-. cbn. eauto.
Qed.
Lemma sieve_copy_aux s r (E0 : sv_copy order (so order s) = r) s' :
  (match r as r0 return sv_copy order (so order s) = r0 -> res (sieveO order) with
   | Ok v => fun E => Ok (exist _ v (regular_copy order (so order s) v (proj2_sig s) E))
   | Err e => fun _ => Err e end E0) = Ok s' -> sv_copy order (so order s) = Ok (so order s').
Proof. destruct r as [v|e]; [|discriminate]. intros E. injection E as <-. exact E0. Qed.
Lemma sieve_copy_inv s s' : sieve_copy order s = Ok s' -> sv_copy order (so order s) = Ok (so order s').
Proof. exact (sieve_copy_aux s _ eq_refl s'). Qed.

Lemma iss_fit_n g X i : iss_n eps5 (snd (fst (iss_fit W g X i))) = iss_n eps5 i.
Proof. destruct i as [c ca|c st ca]; cbn; [reflexivity|]. now destruct (cos_fit c _ _ X st) as [[[]|e] st']. Qed.
Lemma same_iss_name (i j : issO T) k : same_iss i j -> iss_name eps5 show_num i k = iss_name eps5 show_num j k.
Proof. destruct i, j; intros E; try discriminate; injection E; intros; subst; reflexivity. Qed.
Lemma same_iss_n (i j : issO T) : same_iss i j -> iss_n eps5 i = iss_n eps5 j.
Proof. destruct i, j; intros E; try discriminate; injection E; intros; subst; reflexivity. Qed.
Lemma transform_keeps_p X p Z : fst (pr_transform parse powf p X) = Ok Z -> snd (pr_transform parse powf p X) = p.
Proof.
  intros E. pose proof (pr_transform_same parse powf eps5 p X) as K. unfold pr_call in K.
  destruct (pr_transform parse powf p X) as [x p']. cbn in *. subst. now apply K.
Qed.
Lemma transform_keeps_s X s Z : fst (sv_transform parse s X) = Ok Z -> sv_eqv (snd (sv_transform parse s X)) s.
Proof.
  intros E. pose proof (sv_transform_same parse qf powf eps5 s X) as K. unfold sv_call in K.
  destruct (sv_transform parse s X) as [x p']. cbn in *. subst. now apply K.
Qed.

Definition library_lawful : lawful lib.
Proof.
  refine {| eqP := (same_prep : prepT lib -> prepT lib -> Prop); eqI := (same_iss : issT lib -> issT lib -> Prop);
            eqS := (same_sieve : sieveT lib -> sieveT lib -> Prop) |}.
  - split; unfold same_prep; [intros p|intros p q E|intros p q r E F]; congruence.
  - split; unfold same_iss; [intros p|intros p q E|intros p q r E F]; congruence.
  - split; unfold same_sieve, same_sieve0; [intros p|intros p q E|intros p q r E F];
      [apply eqv_refl|now apply sv_eqv_sym|eapply eqv_trans; eauto].
  - intros c p. apply set_cache_twice_p.
  - intros c i. apply set_cache_twice_i.
  - intros c s. unfold same_sieve, same_sieve0. cbn. rewrite set_cache_twice_s. apply eqv_refl.
  - intros c X p q E. cbn. now rewrite (same_prep_set p q _ E).
  - intros c Y s t E. cbn. apply (sv_transform_eqv parse qf powf eps5), same_sieve_set; exact E.
  - intros c X i j E. cbn. now rewrite (same_iss_set i j _ E).
  - intros X p Z E. cbn in *. unfold same_prep. now rewrite (transform_keeps_p X p Z E).
  - intros Y s R E. cbn in *. unfold same_sieve, same_sieve0. apply sv_eqv_set. exact (transform_keeps_s Y _ R E).
  - exact same_iss_n.
  - intros s t E. cbn. now apply same_cfg_obs, same_cfg_same.
  - intros s t E. cbn. now apply same_cfg_obs, same_cfg_same.
  - intros i j k E. now apply same_iss_name.
  - intros p q E. cbn. f_equal. exact E.
  - intros s t E. cbn. now apply same_cfg_obs, same_cfg_same.
  - intros g X i. apply iss_fit_n.
  - intros g Y s. cbn. apply same_cfg_obs, same_cfg_fit.
  - intros g Y s. cbn. apply same_cfg_obs, same_cfg_fit.
  - intros Y s. cbn. apply same_cfg_obs, same_cfg_transform.
  - intros Y s. cbn. apply same_cfg_obs, same_cfg_transform.
  - intros s s' E. cbn in *. apply same_cfg_obs, same_cfg_copy; [exact (proj2_sig s)|now apply sieve_copy_inv].
  - intros s s' E. cbn in *. apply same_cfg_obs, same_cfg_copy; [exact (proj2_sig s)|now apply sieve_copy_inv].
  - intros g Y s. cbn. apply same_cfg_obs, same_cfg_fit.
  - intros Y s. cbn. apply same_cfg_obs, same_cfg_transform.
  - intros s s' E. cbn in *. apply same_cfg_obs, same_cfg_copy; [exact (proj2_sig s)|now apply sieve_copy_inv].
Defined.
End Lib.
