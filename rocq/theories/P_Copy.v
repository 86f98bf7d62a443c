(** * C30, C32: copies and standalone use of seeds *)
From Coq Require Import Ascii String List Arith ZArith Bool Reals Permutation Sorting Lia Lra.
From Verif Require Import Num Arr M_Str M_Np M_Prep M_Cache M_Sieve M_PrepObj S_ISS S_Prep S_Sieve
  L_Arr L_Tuples L_Str L_Np L_Prep L_Prep2 L_Sieve L_Sieve2 L_RComp.
Import ListNotations.

(** A call of the public interface of a seed; [A] is the type of its array
    argument. *)
Inductive call (T A : Type) := Fit (r : rand T) (X : A) | Transform (X : A).
Arguments Fit {T A} r X. Arguments Transform {T A} X.
Definition is_fit {T A} (c : call T A) : bool := match c with Fit _ _ => true | _ => false end.
(** The last call of [fit] in a history, if there is one. *)
Definition last_fit {T A} (h : list (call T A)) : list (call T A) :=
  match rev (filter is_fit h) with [] => [] | c :: _ => [c] end.

Section Generic.
Context {T : Type} `{Num T}.
Variable parse : pystr -> res T.
Variable qf : T -> list T -> T.
Variable powf : T -> T -> T.
Variable eps0 : T.

(** ** One call: did it return normally, and the object afterwards. *)
Definition sv_call (s : sieve T) (c : call T (list (list T))) : bool * sieve T :=
  match c with
  | Fit r X => let (x, s') := sv_fit qf (r_idx r) s X in (match x with Ok _ => true | Err _ => false end, s')
  | Transform X => let (x, s') := sv_transform parse s X in (match x with Ok _ => true | Err _ => false end, s')
  end.
Definition pr_call (p : prep T) (c : call T (list (list (list T)))) : bool * prep T :=
  match c with
  | Fit r X => let (x, s') := pr_fit eps0 r p X in (match x with Ok _ => true | Err _ => false end, s')
  | Transform X => let (x, s') := pr_transform parse powf p X in (match x with Ok _ => true | Err _ => false end, s')
  end.
(** The object after a history of calls; no call of a history raises. *)
Definition sv_after (s : sieve T) h : sieve T := fold_left (fun s c => snd (sv_call s c)) h s.
Definition pr_after (p : prep T) h : prep T := fold_left (fun p c => snd (pr_call p c)) h p.
Fixpoint sv_no_raise (s : sieve T) h : Prop :=
  match h with [] => True | c :: r => fst (sv_call s c) = true /\ sv_no_raise (snd (sv_call s c)) r end.
Fixpoint pr_no_raise (p : prep T) h : Prop :=
  match h with [] => True | c :: r => fst (pr_call p c) = true /\ pr_no_raise (snd (pr_call p c)) r end.

(** ** Newly constructed objects: no fitted attribute, no cache, and the same
    holds for the objects they wrap. *)
Fixpoint sv_new (s : sieve T) : Prop :=
  match s with
  | SSeg _ st ca => st = None /\ ca = None | SPpv _ st ca => st = None /\ ca = None
  | SInc i _ _ ca => sv_new i /\ ca = None | SInt i ca => sv_new i /\ ca = None
  end.
Definition leaf_new (f : leaf T) : Prop :=
  match f with
  | LSTD _ st => st = None | LMAV _ st => st = None | LFFN _ _ _ st => st = None | LRIN _ _ _ _ _ st => st = None
  | LRDW _ st => st = None | LJLD _ _ _ st => st = None | LQTC _ _ _ _ st => st = None | LDIL _ st => st = None
  | LDOT _ _ st => st = None | LPDD _ _ _ _ st => st = None
  | _ => True
  end.
Fixpoint pr_new (p : prep T) : Prop :=
  match p with
  | PLeaf f ca => leaf_new f /\ ca = None
  | PDim q _ ca => pr_new q /\ ca = None
  | PNew0 ca => ca = None
  | PNew q ca => pr_new q /\ ca = None
  end.
(** No cache is left in the object or in a wrapped one. *)
Fixpoint sv_no_cache (s : sieve T) : Prop :=
  sv_cache s = None /\ match s with SInc i _ _ _ => sv_no_cache i | SInt i _ => sv_no_cache i | _ => True end.
Fixpoint pr_no_cache (p : prep T) : Prop :=
  pr_cache p = None /\ match p with PDim q _ _ => pr_no_cache q | PNew q _ => pr_no_cache q | _ => True end.
Lemma sv_new_no_cache s : sv_new s -> sv_no_cache s.
Proof. induction s; cbn; intuition. Qed.
Lemma pr_new_no_cache p : pr_new p -> pr_no_cache p.
Proof. induction p; cbn; intuition. Qed.

(** ** C32: nothing is left behind by calls that do not raise *)
Lemma sv_call_no_cache s c : sv_no_cache s -> fst (sv_call s c) = true -> sv_no_cache (snd (sv_call s c)).
Proof.
  destruct c as [r X|X]; unfold sv_call.
  - destruct (sv_fit qf (r_idx r) s X) as [x s'] eqn:E. intros HC HO. cbn [fst snd] in *.
    destruct x as [[]|]; [|discriminate]. clear HO. revert X s' E.
    induction s as [c st ca|c st ca|i IH d k ca|i IH ca]; intros X s' E; cbn [sv_fit sv_cache] in E; destruct HC as [HC HI]; cbn [sv_cache] in HC; subst ca.
    + injection E as <-. split; [reflexivity|exact I].
    + destruct (ppv_fit qf c (r_idx r) X) as [[[]|e] q]; [|discriminate]; injection E as <-; split; (reflexivity || exact I).
    + destruct (wrap_inc d k X X) as [Y|e]; [|discriminate].
      destruct (sv_fit qf (r_idx r) i Y) as [[[]|e] i'] eqn:Ei; [|discriminate]. injection E as <-.
      split; [reflexivity|]. apply (IH HI Y). exact Ei.
    + destruct (sv_fit qf (r_idx r) i (map cumsum X)) as [[[]|e] i'] eqn:Ei; [|discriminate]. injection E as <-.
      split; [reflexivity|]. apply (IH HI _ i' Ei).
  - destruct (sv_transform parse s X) as [x s'] eqn:E. intros HC HO. cbn [fst snd] in *.
    destruct x as [y|]; [|discriminate]. clear HO. revert X s' y E.
    induction s as [c st ca|c st ca|i IH d k ca|i IH ca]; intros X s' y E; cbn [sv_transform sv_cache] in E; destruct HC as [HC HI]; cbn [sv_cache] in HC; subst ca.
    + destruct (seg_transform c (get_on parse (map (fun x => [x]) X)) st X) as [[z|e] st']; [|discriminate]. injection E as <- <-. split; [reflexivity|exact I].
    + destruct (ppv_transform c st X) as [z|e]; [|discriminate]. injection E as <- <-. split; [reflexivity|exact I].
    + destruct (wrap_inc d k X X) as [Y|e]; [|discriminate].
      destruct (sv_transform parse i Y) as [[z|e] i'] eqn:Ei; [|discriminate]. injection E as <- <-.
      split; [reflexivity|]. apply (IH HI _ i' z Ei).
    + destruct (sv_transform parse i (map cumsum X)) as [[z|e] i'] eqn:Ei; [|discriminate]. injection E as <- <-.
      split; [reflexivity|]. apply (IH HI _ i' z Ei).
Qed.
Lemma pr_call_no_cache p c : pr_no_cache p -> fst (pr_call p c) = true -> pr_no_cache (snd (pr_call p c)).
Proof.
  destruct c as [r X|X]; unfold pr_call.
  - destruct (pr_fit eps0 r p X) as [x s'] eqn:E. intros HC HO. cbn [fst snd] in *.
    destruct x as [[]|]; [|discriminate]. clear HO. revert X s' E.
    induction p as [f ca|q IH d ca|ca|q IH ca]; intros X s' E; cbn [pr_fit pr_cache] in E; destruct HC as [HC HI]; cbn [pr_cache] in HC; subst ca.
    + destruct (leaf_fit eps0 r f X); [|discriminate]. injection E as <-. split; [reflexivity|exact I].
    + destruct (mapM (py_index (dimX X)) d) as [dims|e]; [|discriminate].
      destruct (pr_fit eps0 r q (map (select_dims dims) X)) as [[[]|e] q'] eqn:Eq; [|discriminate]. injection E as <-.
      split; [reflexivity|]. apply (IH HI _ q' Eq).
    + injection E as <-. split; [reflexivity|exact I].
    + destruct (pr_fit eps0 r q X) as [[[]|e] q'] eqn:Eq; [|discriminate]. injection E as <-.
      split; [reflexivity|]. apply (IH HI _ q' Eq).
  - destruct (pr_transform parse powf p X) as [x s'] eqn:E. intros HC HO. cbn [fst snd] in *.
    destruct x as [y|]; [|discriminate]. clear HO. revert X s' y E.
    induction p as [f ca|q IH d ca|ca|q IH ca]; intros X s' y E; cbn [pr_transform pr_cache] in E; destruct HC as [HC HI]; cbn [pr_cache] in HC; subst ca.
    + destruct (leaf_transform parse powf X f X); [|discriminate]. injection E as <- <-. split; [reflexivity|exact I].
    + destruct (mapM (py_index (dimX X)) d) as [dims|e] eqn:Ed; [|discriminate].
      destruct (pr_transform parse powf q (map (select_dims dims) X)) as [[z|e] q'] eqn:Eq.
      * destruct (dim_transform d (fun _ => Ok z) X); [|discriminate]. injection E as <- <-.
        split; [reflexivity|]. apply (IH HI _ q' z Eq).
      * exfalso. unfold dim_transform in E. rewrite Ed in E. cbn [bind] in E. discriminate.
    + destruct (new_transform None X); [|discriminate]. injection E as <- <-. split; [reflexivity|exact I].
    + destruct (pr_transform parse powf q X) as [[z|e] q'] eqn:Eq.
      * destruct (new_transform (Some (fun _ => Ok z)) X); [|discriminate]. injection E as <- <-.
        split; [reflexivity|]. apply (IH HI _ q' z Eq).
      * exfalso. unfold new_transform in E. cbn [bind] in E. discriminate.
Qed.
Theorem C32_sieve_leaves_no_cache s h : sv_new s -> sv_no_raise s h -> sv_no_cache (sv_after s h).
Proof.
  intros HN. apply sv_new_no_cache in HN. revert s HN. induction h as [|c h IH]; intros s HN HO; [exact HN|].
  destruct HO as [HO HR]. unfold sv_after. cbn [fold_left]. apply (IH _ (sv_call_no_cache s c HN HO) HR).
Qed.
Theorem C32_preparateur_leaves_no_cache p h : pr_new p -> pr_no_raise p h -> pr_no_cache (pr_after p h).
Proof.
  intros HN. apply pr_new_no_cache in HN. revert p HN. induction h as [|c h IH]; intros s HN HO; [exact HN|].
  destruct HO as [HO HR]. unfold pr_after. cbn [fold_left]. apply (IH _ (pr_call_no_cache s c HN HO) HR).
Qed.

(** ** The result depends only on the last fit and the argument *)
(** Two sieves that cannot be told apart: the remembered edges of a sieve that
    needs no fitting are recomputed by every transform. *)
Fixpoint sv_eqv (s t : sieve T) : Prop :=
  match s, t with
  | SSeg c st ca, SSeg c' st' ca' => c = c' /\ ca = ca' /\ (seg_requires c = true -> st = st')
  | SPpv c st ca, SPpv c' st' ca' => c = c' /\ ca = ca' /\ st = st'
  | SInc i d k ca, SInc j d' k' ca' => sv_eqv i j /\ d = d' /\ k = k' /\ ca = ca'
  | SInt i ca, SInt j ca' => sv_eqv i j /\ ca = ca'
  | _, _ => False
  end.
Lemma sv_eqv_refl s : sv_eqv s s.
Proof. induction s; cbn; intuition. Qed.
Lemma sv_eqv_trans s t u : sv_eqv s t -> sv_eqv t u -> sv_eqv s u.
Proof.
  revert t u; induction s as [c st ca|c st ca|i IH d k ca|i IH ca]; intros [| | |] [| | |]; cbn; try tauto.
  - intros (-> & -> & A) (-> & -> & B). repeat split. intros R. rewrite A by exact R. now apply B.
  - intros (-> & -> & ->) (-> & -> & ->). auto.
  - intros (A & -> & -> & ->) (B & -> & -> & ->). repeat split. eapply IH; eassumption.
  - intros (A & ->) (B & ->). split; [eapply IH; eassumption|reflexivity].
Qed.
Lemma sv_eqv_cache s t : sv_eqv s t -> sv_cache s = sv_cache t.
Proof. destruct s, t; cbn; try tauto; intuition congruence. Qed.
Lemma seg_transform_eqv c get st st' X : (seg_requires c = true -> st = st') ->
  fst (seg_transform c get st X) = fst (seg_transform c get st' X) /\
  (seg_requires c = true -> snd (seg_transform c get st X) = snd (seg_transform c get st' X)).
Proof.
  intros E. unfold seg_transform. destruct (seg_requires c) eqn:Q.
  - rewrite (E eq_refl). split; reflexivity.
  - destruct (sg_kind c); (split; [|discriminate]); try reflexivity;
      (destruct (let! e := mapM edge_plain (sg_q c) in Ok (Some e)) as [st1|e]; reflexivity).
Qed.
Lemma sv_transform_eqv s t X : sv_eqv s t ->
  fst (sv_transform parse s X) = fst (sv_transform parse t X) /\
  sv_eqv (snd (sv_transform parse s X)) (snd (sv_transform parse t X)).
Proof.
  revert t X. induction s as [c st ca|c st ca|i IH d k ca|i IH ca]; intros [c' st' ca'|c' st' ca'|i' d' k' ca'|i' ca'] X E; try contradiction.
  - destruct E as (<- & <- & E). cbn [sv_transform sv_cache].
    set (inp := match ca with Some i => i | None => map (fun x => [x]) X end).
    destruct (seg_transform_eqv c (get_on parse inp) st st' X E) as [E1 E2].
    destruct (seg_transform c (get_on parse inp) st X) as [[r|e] s1], (seg_transform c (get_on parse inp) st' X) as [[r'|e'] s2];
      cbn [fst snd] in *; try discriminate; (split; [congruence|]); cbn; auto.
  - destruct E as (<- & <- & <-). split; [reflexivity|apply sv_eqv_refl].
  - destruct E as (E & <- & <- & <-). cbn [sv_transform sv_cache].
    destruct (wrap_inc d k X X) as [Y|e]; [|cbn; repeat split; exact E].
    destruct (IH i' Y E) as [E1 E2]. destruct (sv_transform parse i Y) as [[r|e] i1], (sv_transform parse i' Y) as [[r'|e'] i2];
      cbn [fst snd] in *; try discriminate; (split; [congruence|]); cbn; auto.
  - destruct E as (E & <-). cbn [sv_transform sv_cache].
    destruct (IH i' (map cumsum X) E) as [E1 E2].
    destruct (sv_transform parse i (map cumsum X)) as [[r|e] i1], (sv_transform parse i' (map cumsum X)) as [[r'|e'] i2];
      cbn [fst snd] in *; try discriminate; (split; [congruence|]); cbn; auto.
Qed.
(** A transform that does not raise leaves the object as it was. *)
Lemma sv_transform_same s X : fst (sv_call s (Transform X)) = true -> sv_eqv (snd (sv_call s (Transform X))) s.
Proof.
  unfold sv_call. destruct (sv_transform parse s X) as [x s'] eqn:E. cbn [fst snd]. destruct x as [y|]; [|discriminate].
  intros _. revert X y s' E. induction s as [c st ca|c st ca|i IH d k ca|i IH ca]; intros X y s' E; cbn [sv_transform sv_cache] in E.
  - set (inp := match ca with Some i => i | None => map (fun x => [x]) X end) in *.
    assert (G : seg_requires c = true -> snd (seg_transform c (get_on parse inp) st X) = st).
    { intros Q. unfold seg_transform. rewrite Q. destruct (sg_kind c); reflexivity. }
    destruct (seg_transform c (get_on parse inp) st X) as [[r|e] s1]; [|discriminate]. injection E as <- <-. cbn in *. auto.
  - destruct (ppv_transform c st X); [|discriminate]. injection E as <- <-. apply sv_eqv_refl.
  - destruct (wrap_inc d k X X) as [Y|e]; [|discriminate].
    destruct (sv_transform parse i Y) as [[r|e] i1] eqn:Ei; [|discriminate]. injection E as <- <-.
    cbn. repeat split. exact (IH _ _ _ Ei).
  - destruct (sv_transform parse i (map cumsum X)) as [[r|e] i1] eqn:Ei; [|discriminate]. injection E as <- <-.
    cbn. repeat split. exact (IH _ _ _ Ei).
Qed.
(** Same configuration (and no caches). *)
Fixpoint sv_samecfg (s t : sieve T) : Prop :=
  match s, t with
  | SSeg c _ ca, SSeg c' _ ca' => c = c' /\ ca = ca'
  | SPpv c _ ca, SPpv c' _ ca' => c = c' /\ ca = ca'
  | SInc i d k ca, SInc j d' k' ca' => sv_samecfg i j /\ d = d' /\ k = k' /\ ca = ca'
  | SInt i ca, SInt j ca' => sv_samecfg i j /\ ca = ca'
  | _, _ => False
  end.
Lemma sv_eqv_samecfg s t : sv_eqv s t -> sv_samecfg s t.
Proof. revert t; induction s; intros [| | |]; cbn; intuition. Qed.
Lemma sv_samecfg_trans s t u : sv_samecfg s t -> sv_samecfg t u -> sv_samecfg s u.
Proof. revert t u; induction s; intros [| | |] [| | |]; cbn; try tauto; intuition (try congruence); eauto. Qed.
Lemma sv_fit_samecfg r s t X : sv_samecfg s t -> fst (sv_fit qf r s X) = fst (sv_fit qf r t X) /\
  (fst (sv_fit qf r s X) = Ok tt -> snd (sv_fit qf r s X) = snd (sv_fit qf r t X)).
Proof.
  revert t X. induction s as [c st ca|c st ca|i IH d k ca|i IH ca]; intros [c' st' ca'|c' st' ca'|i' d' k' ca'|i' ca'] X E; try contradiction.
  - destruct E as (<- & <-). split; reflexivity.
  - destruct E as (<- & <-). split; reflexivity.
  - destruct E as (E & <- & <- & <-). cbn [sv_fit sv_cache]. destruct (wrap_inc d k X X) as [Y|e]; [|split; [reflexivity|discriminate]].
    destruct (IH i' Y E) as [E1 E2]. destruct (sv_fit qf r i Y) as [[[]|e] i1], (sv_fit qf r i' Y) as [[[]|e'] i2]; cbn [fst snd] in *; try discriminate.
    + split; [reflexivity|]. intros _. now rewrite E2.
    + split; [congruence|discriminate].
  - destruct E as (E & <-). cbn [sv_fit sv_cache].
    destruct (IH i' (map cumsum X) E) as [E1 E2]. destruct (sv_fit qf r i (map cumsum X)) as [[[]|e] i1], (sv_fit qf r i' (map cumsum X)) as [[[]|e'] i2]; cbn [fst snd] in *; try discriminate.
    + split; [reflexivity|]. intros _. now rewrite E2.
    + split; [congruence|discriminate].
Qed.
Lemma sv_fit_keeps_cfg r s X : fst (sv_fit qf r s X) = Ok tt -> sv_samecfg (snd (sv_fit qf r s X)) s.
Proof.
  revert X. induction s as [c st ca|c st ca|i IH d k ca|i IH ca]; intros X E; cbn [sv_fit sv_cache] in *.
  - cbn. auto.
  - destruct (ppv_fit qf c r X) as [[[]|e] q]; [|discriminate]. cbn. auto.
  - destruct (wrap_inc d k X X) as [Y|e]; [|discriminate]. specialize (IH Y).
    destruct (sv_fit qf r i Y) as [[[]|e] i1]; [|discriminate]. cbn in *. auto.
  - specialize (IH (map cumsum X)). destruct (sv_fit qf r i (map cumsum X)) as [[[]|e] i1]; [|discriminate]. cbn in *. auto.
Qed.

Lemma filter_fit_app {A} (h : list (call T A)) c : last_fit (h ++ [c]) = if is_fit c then [c] else last_fit h.
Proof. unfold last_fit. rewrite filter_app. cbn [filter]. destruct (is_fit c); [now rewrite rev_app_distr|now rewrite app_nil_r]. Qed.
Lemma last_fit_or {A} (h : list (call T A)) : last_fit h = [] \/ exists r X, last_fit h = [Fit r X] /\ In (Fit r X) h.
Proof.
  unfold last_fit. destruct (rev (filter is_fit h)) as [|c l] eqn:E; [now left|]. right.
  assert (Hc : In c (filter is_fit h)) by (apply in_rev; rewrite E; now left).
  apply filter_In in Hc as [Hc Hf]. destruct c as [r X|]; [|discriminate]. now exists r, X.
Qed.
Lemma sv_no_raise_app s h1 h2 : sv_no_raise s (h1 ++ h2) <-> sv_no_raise s h1 /\ sv_no_raise (sv_after s h1) h2.
Proof. revert s. induction h1 as [|c h1 IH]; intros s; cbn [app sv_no_raise]; [unfold sv_after; cbn; tauto|]. rewrite IH. unfold sv_after. cbn [fold_left]. tauto. Qed.
Lemma sv_after_snoc s h c : sv_after s (h ++ [c]) = snd (sv_call (sv_after s h) c).
Proof. unfold sv_after. now rewrite fold_left_app. Qed.
Lemma sv_after_one s c : sv_after s [c] = snd (sv_call s c).
Proof. reflexivity. Qed.
Lemma sv_hist s h : sv_no_raise s h ->
  sv_samecfg (sv_after s h) s /\ sv_eqv (sv_after s h) (sv_after s (last_fit h)).
Proof.
  induction h as [|c h IH] using rev_ind; intros HR.
  - split; [apply sv_eqv_samecfg|]; apply sv_eqv_refl.
  - apply sv_no_raise_app in HR as [H1 H2]. destruct (IH H1) as [G1 G2]. destruct H2 as [H2 _].
    rewrite sv_after_snoc, filter_fit_app.
    destruct c as [r X|X]; cbn [is_fit].
    + rewrite sv_after_one. unfold sv_call in *.
      pose proof (sv_fit_keeps_cfg (r_idx r) (sv_after s h) X) as K.
      pose proof (sv_fit_samecfg (r_idx r) (sv_after s h) s X G1) as [K1 K2].
      destruct (sv_fit qf (r_idx r) (sv_after s h) X) as [x s'], (sv_fit qf (r_idx r) s X) as [x' s'']. cbn [fst snd] in *.
      destruct x as [[]|]; [|discriminate]. specialize (K eq_refl). specialize (K2 eq_refl).
      split; [exact (sv_samecfg_trans _ _ _ K G1)|]. rewrite K2. apply sv_eqv_refl.
    + pose proof (sv_transform_same _ _ H2) as K. split.
      * apply (sv_samecfg_trans _ _ _ (sv_eqv_samecfg _ _ K) G1).
      * apply (sv_eqv_trans _ _ _ K G2).
Qed.
Theorem C32_sieve_last_fit_only s h X : sv_no_raise s h ->
  fst (sv_transform parse (sv_after s h) X) = fst (sv_transform parse (sv_after s (last_fit h)) X).
Proof. intros HR. apply sv_transform_eqv. apply (sv_hist s h HR). Qed.

(** Preparateurs: the same. *)
Definition leaf_samecfg (f g : leaf T) : Prop := leaf_copy eps0 f = leaf_copy eps0 g.
Lemma leaf_fit_twice r r' f X Y g g' : leaf_new f -> leaf_fit eps0 r f X = Ok g ->
  leaf_fit eps0 r' f Y = Ok g' -> leaf_fit eps0 r' g Y = Ok g'.
Proof.
  intros HN E E'.
  assert (HX : match f with LRIN _ _ _ _ k _ => match k with None => True | _ => True end | _ => True end) by (destruct f; try exact I; destruct kernel; exact I).
  destruct f; cbn [leaf_fit leaf_new] in *;
    try (destruct kernel);
    try (match type of E with (let! _ := ?q in _) = _ => destruct q as [z1|e1]; cbn [bind] in E; [|discriminate] end);
    injection E as <-; cbn [leaf_fit];
    repeat match goal with
    | H : (let! _ := ?q in _) = Ok _ |- _ => exact H
    end; try exact E'; subst.
  - unfold std_fit in *. destruct (std_separately c); exact E'.
  - unfold mav_fit in *. destruct w as [z|f0]; [destruct (0 <? z)%Z|]; exact E'.
Qed.
Lemma leaf_fit_err r r' f X Y g e : leaf_new f -> leaf_fit eps0 r f X = Ok g -> leaf_fit eps0 r' f Y = Err e -> leaf_fit eps0 r' g Y = Err e.
Proof.
  intros HN E E'.
  destruct f; cbn [leaf_fit] in E, E'; try discriminate;
    try (destruct kernel; [discriminate|]);
    (match type of E with (let! _ := ?q in _) = _ => destruct q as [z1|e1]; cbn [bind] in E; [|discriminate] end);
    injection E as <-; cbn [leaf_fit]; exact E'.
Qed.
(** What a preparateur looks like after being fitted with [r], [X] when new. *)
Fixpoint pr_fitted_from (p q : prep T) : Prop :=     (* q: p after some fits *)
  match p, q with
  | PLeaf f ca, PLeaf g ca' => ca = None /\ ca' = None /\ leaf_new f /\ (g = f \/ exists r X, leaf_fit eps0 r f X = Ok g)
  | PDim p d ca, PDim q d' ca' => ca = None /\ ca' = None /\ d = d' /\ pr_fitted_from p q
  | PNew0 ca, PNew0 ca' => ca = None /\ ca' = None
  | PNew p ca, PNew q ca' => ca = None /\ ca' = None /\ pr_fitted_from p q
  | _, _ => False
  end.
Lemma pr_fitted_refl p : pr_new p -> pr_fitted_from p p.
Proof. induction p; cbn; intuition. Qed.
Lemma pr_fit_from p q r X : pr_fitted_from p q ->
  fst (pr_fit eps0 r q X) = fst (pr_fit eps0 r p X) /\
  (fst (pr_fit eps0 r q X) = Ok tt -> snd (pr_fit eps0 r q X) = snd (pr_fit eps0 r p X) /\ pr_fitted_from p (snd (pr_fit eps0 r q X))).
Proof.
  revert q X. induction p as [f ca|p IH d ca|ca|p IH ca]; intros [g ca'|q d' ca'|ca'|q ca'] X E; try contradiction.
  - destruct E as (-> & -> & HN & E). cbn [pr_fit pr_cache].
    assert (K : leaf_fit eps0 r g X = leaf_fit eps0 r f X).
    { destruct E as [->|(r0 & X0 & E)]; [reflexivity|]. destruct (leaf_fit eps0 r f X) as [h|e] eqn:F.
      - exact (leaf_fit_twice r0 r f X0 X g h HN E F). - exact (leaf_fit_err r0 r f X0 X g e HN E F). }
    rewrite K. destruct (leaf_fit eps0 r f X) as [h|e] eqn:F; cbn [fst snd]; (split; [reflexivity|]); [|discriminate].
    intros _. split; [reflexivity|]. cbn. repeat split; auto. right. now exists r, X.
  - destruct E as (-> & -> & <- & E). cbn [pr_fit pr_cache]. destruct (mapM (py_index (dimX X)) d) as [dims|e]; [|split; [reflexivity|discriminate]].
    destruct (IH q (map (select_dims dims) X) E) as [E1 E2].
    destruct (pr_fit eps0 r q (map (select_dims dims) X)) as [[[]|e] q1], (pr_fit eps0 r p (map (select_dims dims) X)) as [[[]|e'] q2]; cbn [fst snd] in *; try discriminate.
    + split; [reflexivity|]. intros _. destruct (E2 eq_refl) as [-> F]. split; [reflexivity|]. cbn. auto.
    + split; [congruence|discriminate].
  - destruct E as (-> & ->). cbn. auto.
  - destruct E as (-> & -> & E). cbn [pr_fit pr_cache].
    destruct (IH q X E) as [E1 E2].
    destruct (pr_fit eps0 r q X) as [[[]|e] q1], (pr_fit eps0 r p X) as [[[]|e'] q2]; cbn [fst snd] in *; try discriminate.
    + split; [reflexivity|]. intros _. destruct (E2 eq_refl) as [-> F]. split; [reflexivity|]. cbn. auto.
    + split; [congruence|discriminate].
Qed.
Lemma pr_transform_same p X : fst (pr_call p (Transform X)) = true -> snd (pr_call p (Transform X)) = p.
Proof.
  unfold pr_call. destruct (pr_transform parse powf p X) as [x s'] eqn:E. cbn [fst snd]. destruct x as [y|]; [|discriminate].
  intros _. revert X y s' E. induction p as [f ca|p IH d ca|ca|p IH ca]; intros X y s' E; cbn [pr_transform pr_cache] in E.
  - destruct (leaf_transform parse powf _ f X); [|discriminate]. now injection E as <- <-.
  - destruct (mapM (py_index (dimX X)) d) as [dims|e] eqn:Ed; [|discriminate].
    destruct (pr_transform parse powf p (map (select_dims dims) X)) as [[z|e] q'] eqn:Eq.
    + destruct (dim_transform d (fun _ => Ok z) X); [|discriminate]. injection E as <- <-. now rewrite (IH _ _ _ Eq).
    + exfalso. unfold dim_transform in E. rewrite Ed in E. cbn [bind] in E. discriminate.
  - destruct (new_transform None X); [|discriminate]. now injection E as <- <-.
  - destruct (pr_transform parse powf p X) as [[z|e] q'] eqn:Eq.
    + destruct (new_transform (Some (fun _ => Ok z)) X); [|discriminate]. injection E as <- <-. now rewrite (IH _ _ _ Eq).
    + exfalso. unfold new_transform in E. cbn [bind] in E. discriminate.
Qed.
Lemma pr_no_raise_app s h1 h2 : pr_no_raise s (h1 ++ h2) <-> pr_no_raise s h1 /\ pr_no_raise (pr_after s h1) h2.
Proof. revert s. induction h1 as [|c h1 IH]; intros s; cbn [app pr_no_raise]; [unfold pr_after; cbn; tauto|]. rewrite IH. unfold pr_after. cbn [fold_left]. tauto. Qed.
Lemma pr_after_snoc s h c : pr_after s (h ++ [c]) = snd (pr_call (pr_after s h) c).
Proof. unfold pr_after. now rewrite fold_left_app. Qed.
Lemma pr_after_one s c : pr_after s [c] = snd (pr_call s c).
Proof. reflexivity. Qed.
Lemma pr_hist p h : pr_new p -> pr_no_raise p h ->
  pr_fitted_from p (pr_after p h) /\ pr_after p h = pr_after p (last_fit h).
Proof.
  intros HN. induction h as [|c h IH] using rev_ind; intros HR.
  - split; [now apply pr_fitted_refl|reflexivity].
  - apply pr_no_raise_app in HR as [H1 H2]. destruct (IH H1) as [G1 G2]. destruct H2 as [H2 _].
    rewrite pr_after_snoc, filter_fit_app.
    destruct c as [r X|X]; cbn [is_fit].
    + rewrite pr_after_one. unfold pr_call in *.
      destruct (pr_fit_from p (pr_after p h) r X G1) as [K1 K2].
      destruct (pr_fit eps0 r (pr_after p h) X) as [x s'], (pr_fit eps0 r p X) as [x' s'']. cbn [fst snd] in *.
      destruct x as [[]|]; [|discriminate]. destruct (K2 eq_refl) as [-> K3]. split; [exact K3|reflexivity].
    + rewrite (pr_transform_same _ _ H2). split; [exact G1|exact G2].
Qed.
Theorem C32_preparateur_last_fit_only p h X : pr_new p -> pr_no_raise p h ->
  fst (pr_transform parse powf (pr_after p h) X) = fst (pr_transform parse powf (pr_after p (last_fit h)) X).
Proof. intros HN HR. now rewrite <- (proj2 (pr_hist p h HN HR)). Qed.
End Generic.
Print Assumptions C32_sieve_leaves_no_cache.
Print Assumptions C32_preparateur_leaves_no_cache.
Print Assumptions C32_sieve_last_fit_only.
Print Assumptions C32_preparateur_last_fit_only.

(** ** C32, the other half: a cache that stays *)
Open Scope R_scope.
Definition half (_ : pystr) : res R := Ok (1/2).
Definition max_half : sieve R := SSeg (seg_new KMAX [CutF (str "0.5")] (Some [QNeg; QZero]) (str "L2")) None None.
(** MAX of the non-positive values in the first part of the series.  On X2 it
    is -2.  A transform of X1 raises (X1 has no such value); afterwards the
    window of X1 is used for X2.  The same happens after the sieve was used
    inside a fruit that transformed X1. *)
Theorem C32_raising_call_leaves_cache_refuted :
  let X1 := [[1; 1]] in let X2 := [[-2; -1]] in
  sv_new max_half /\
  fst (sv_transform half max_half X2) = Ok [[-2]] /\
  fst (sv_transform half max_half X1) = Err ValueError /\
  fst (sv_transform half (snd (sv_transform half max_half X1)) X2) = Ok [[-1]] /\
  fst (sv_transform half (sv_set_cache max_half (Some [X1])) X2) = Ok [[-1]].
Proof.
  cbv zeta. split; [cbn; auto|]. unfold half.
  split; [|split; [|split]]; rcompute.
Qed.
Print Assumptions C32_raising_call_leaves_cache_refuted.

(** The same for a preparateur: WIN keeps the part of the series between two
    quantiles of its quadratic variation. *)
Definition win_half : prep R := PLeaf (LWIN (str "0.5") (str "0.5")) None.
Theorem C32_attached_preparateur_refuted :
  let X1 := [[[1; 1]]] in let X2 := [[[5; 7]]] in
  pr_new win_half /\
  fst (pr_transform half Rpower win_half X2) = Ok [[[5; 0]]] /\
  fst (pr_transform half Rpower (pr_set_cache win_half (Some X1)) X2) = Ok [[[0; 7]]].
Proof.
  cbv zeta. split; [cbn; auto|]. unfold half. split; rcompute.
Qed.
Print Assumptions C32_attached_preparateur_refuted.
