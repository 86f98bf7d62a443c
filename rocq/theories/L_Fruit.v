(** Evaluation of [slice_transform] and [fruit_transform] without the heap. *)
From Coq Require Import Ascii String List Arith ZArith Bool RelationClasses Lia.
From Verif Require Import Num Arr M_Str M_Words M_Np M_Fruit S_Fruit L_Arr.
Import ListNotations.

Section Fruit.
Context {T : Type} `{Num T}.
Variable K : kit T.
Notation heap := (heap K).
Variable W : lawful K.
Local Instance eP : Equivalence (eqP K W) := eqP_equiv K W.
Local Instance eI : Equivalence (eqI K W) := eqI_equiv K W.
Local Instance eS : Equivalence (eqS K W) := eqS_equiv K W.

(** ** Lists *)
Lemma upd_nth_error_eq {A} i (v : A) l : i < length l -> nth_error (upd i v l) i = Some v.
Proof. revert i; induction l as [|x l IH]; intros [|i] Hi; cbn in *; try lia; [reflexivity|]. apply IH. lia. Qed.
Lemma upd_nth_error_neq {A} i j (v : A) l : i <> j -> nth_error (upd i v l) j = nth_error l j.
Proof. revert i j; induction l as [|x l IH]; intros [|i] [|j] Hi; cbn; try lia; try reflexivity. apply IH. lia. Qed.
Lemma Forall2_refl {A} (R : A -> A -> Prop) l : (forall x, R x x) -> Forall2 R l l.
Proof. intros E. induction l; constructor; auto. Qed.
Lemma Forall2_trans' {A} (R : A -> A -> Prop) l1 l2 l3 :
  (forall x y z, R x y -> R y z -> R x z) -> Forall2 R l1 l2 -> Forall2 R l2 l3 -> Forall2 R l1 l3.
Proof.
  intros E. revert l2 l3. induction l1 as [|x l1 IH]; intros l2 l3 A1 A2.
  - inversion A1; subst. inversion A2; subst. constructor.
  - inversion A1; subst. inversion A2; subst. constructor; [eapply E; eassumption|eapply IH; eassumption].
Qed.
Lemma Forall2_upd {A} (R : A -> A -> Prop) i v l x :
  (forall x, R x x) -> nth_error l i = Some x -> R x v -> Forall2 R l (upd i v l).
Proof.
  intros RR. revert i. induction l as [|y l IH]; intros [|i] E1 E2; cbn in *; try discriminate.
  - injection E1 as ->. constructor; [exact E2|]. now apply Forall2_refl.
  - constructor; [apply RR|]. now apply IH.
Qed.
Lemma Forall2_nth_error {A B} (R : A -> B -> Prop) l1 l2 i x :
  Forall2 R l1 l2 -> nth_error l1 i = Some x -> exists y, nth_error l2 i = Some y /\ R x y.
Proof.
  intros F. revert i x. induction F as [|a b l1 l2 Hab F IH]; intros [|i] x E; cbn in *; try discriminate.
  - injection E as <-. eauto.
  - now apply IH.
Qed.
Lemma Forall2_nth_error_r {A B} (R : A -> B -> Prop) l1 l2 i y :
  Forall2 R l1 l2 -> nth_error l2 i = Some y -> exists x, nth_error l1 i = Some x /\ R x y.
Proof.
  intros F. revert i y. induction F as [|a b l1 l2 Hab F IH]; intros [|i] x E; cbn in *; try discriminate.
  - injection E as <-. eauto.
  - now apply IH.
Qed.
Lemma Forall2_impl {A B} (R R' : A -> B -> Prop) l1 l2 :
  (forall x y, R x y -> R' x y) -> Forall2 R l1 l2 -> Forall2 R' l1 l2.
Proof. intros E. induction 1; constructor; auto. Qed.
Lemma Forall2_len {A B} (R : A -> B -> Prop) l1 l2 : Forall2 R l1 l2 -> length l1 = length l2.
Proof. induction 1; cbn; congruence. Qed.

(** ** Heaps that differ in caches, the random state and the log only *)
Definition heq (h h' : heap) : Prop :=
  h_sl K h = h_sl K h' /\ h_fr K h = h_fr K h' /\
  Forall2 (eqP K W) (h_p K h) (h_p K h') /\ Forall2 (eqI K W) (h_i K h) (h_i K h') /\ Forall2 (eqS K W) (h_s K h) (h_s K h').
Lemma heq_refl h : heq h h.
Proof. repeat split; apply Forall2_refl; intros; reflexivity. Qed.
Lemma heq_trans h1 h2 h3 : heq h1 h2 -> heq h2 h3 -> heq h1 h3.
Proof.
  intros (A1 & A2 & A3 & A4 & A5) (B1 & B2 & B3 & B4 & B5).
  repeat split; try congruence; eapply Forall2_trans'; try eassumption; intros ? ? ? E1 E2; (etransitivity; [exact E1|exact E2]).
Qed.
Definition refs {A} (R : A -> A -> Prop) (l : list A) (ids : list nat) (os : list A) : Prop :=
  Forall2 (fun id o => exists q, nth_error l id = Some q /\ R q o) ids os.
Lemma refs_step {A} (R : A -> A -> Prop) `{Equivalence A R} l l' ids os :
  Forall2 R l l' -> refs R l ids os -> refs R l' ids os.
Proof.
  intros F. apply Forall2_impl. intros id o (q & Hq & E).
  destruct (Forall2_nth_error _ _ _ _ _ F Hq) as (q' & Hq' & E'). exists q'. split; [exact Hq'|].
  transitivity q; [now symmetry|exact E].
Qed.
Lemma objs_refs {A} (R : A -> A -> Prop) `{Equivalence A R} l ids os : objs l ids os -> refs R l ids os.
Proof. apply Forall2_impl. intros id o E. exists o. split; [exact E|reflexivity]. Qed.

(** ** Evaluation *)
Definition expand (cbs : nat) (evs : list (event T)) : list (nat * event T) :=
  flat_map (fun e => map (fun c => (c, e)) (seq 0 cbs)) evs.
Lemma expand_app cbs a b : expand cbs (a ++ b) = expand cbs a ++ expand cbs b.
Proof. apply flat_map_app. Qed.
Definition after (cbs : nat) (evs : list (event T)) (h h' : heap) : Prop :=
  heq h h' /\ h_log K h' = rev (expand cbs evs) ++ h_log K h /\ h_g K h' = h_g K h.
Lemma after_refl cbs h : after cbs [] h h.
Proof. split; [apply heq_refl|]. split; reflexivity. Qed.
Lemma after_trans cbs e1 e2 h1 h2 h3 : after cbs e1 h1 h2 -> after cbs e2 h2 h3 -> after cbs (e1 ++ e2) h1 h3.
Proof.
  intros (A1 & A2 & A3) (B1 & B2 & B3). split; [eapply heq_trans; eassumption|]. split; [|congruence].
  rewrite B2, A2, expand_app, rev_app_distr, app_assoc. reflexivity.
Qed.
(** The computation m in h evaluates to r. *)
Definition evals {A} (cbs : nat) (m : M K A) (h : heap) (r : res (A * list (event T))) : Prop :=
  match r with
  | Ok (a, evs) => exists h', m h = (Ok a, h') /\ after cbs evs h h'
  | Err e => exists h', m h = (Err e, h')
  end.
Lemma evals_ret {A} cbs (a : A) h : evals cbs (ret K a) h (Ok (a, [])).
Proof. exists h. split; [reflexivity|apply after_refl]. Qed.
Lemma evals_bind {A B} cbs (m : M K A) (f : A -> M K B) h r g :
  evals cbs m h r ->
  (forall a evs h', after cbs evs h h' -> evals cbs (f a) h' (g a)) ->
  evals cbs (bindM K m f) h
    (match r with Ok (a, evs) => match g a with Ok (b, evs') => Ok (b, evs ++ evs') | Err e => Err e end | Err e => Err e end).
Proof.
  intros Em Ef. destruct r as [[a evs]|e]; cbn in Em.
  - destruct Em as (h' & E & A1). specialize (Ef a evs h' A1). unfold bindM. destruct (g a) as [[b evs']|e]; cbn in *; rewrite E.
    + destruct Ef as (h2 & E2 & A2). exists h2. split; [exact E2|]. eapply after_trans; eassumption.
    + exact Ef.
  - destruct Em as (h' & E). exists h'. cbn. unfold bindM. now rewrite E.
Qed.
Definition prefix {A} (evs : list (event T)) (r : res (A * list (event T))) : res (A * list (event T)) :=
  match r with Ok (b, e) => Ok (b, evs ++ e) | Err e => Err e end.
Lemma evals_step {A B} cbs (m : M K A) (f : A -> M K B) h h1 a e1 r :
  m h = (Ok a, h1) -> after cbs e1 h h1 -> evals cbs (f a) h1 r -> evals cbs (bindM K m f) h (prefix e1 r).
Proof.
  intros E A1 Ev. destruct r as [[b e2]|e]; cbn in *; unfold bindM; rewrite E; [|exact Ev].
  destruct Ev as (h2 & E2 & A2). exists h2. split; [exact E2|]. eapply after_trans; eassumption.
Qed.
Lemma evals_err {A B} cbs (m : M K A) (f : A -> M K B) h e : evals cbs m h (Err e) -> evals cbs (bindM K m f) h (Err e).
Proof. intros (h1 & E). exists h1. unfold bindM. now rewrite E. Qed.
Lemma evals_here {A B} cbs (m : M K A) (f : A -> M K B) h a r :
  m h = (Ok a, h) -> evals cbs (f a) h r -> evals cbs (bindM K m f) h r.
Proof. intros E Ev. unfold evals, bindM in *. rewrite E. exact Ev. Qed.
Lemma look_eq {A} (sel : heap -> list A) i a h : nth_error (sel h) i = Some a -> look K sel i h = (Ok a, h).
Proof. intros E. unfold look. now rewrite E. Qed.
Lemma prefix_nil {A} (r : res (A * list (event T))) : prefix [] r = r.
Proof. destruct r as [[b e]|e]; reflexivity. Qed.
Lemma evals_emit cbs e h : evals cbs (emit K cbs e) h (Ok (tt, [e])).
Proof.
  eexists. split; [reflexivity|]. split; [|split]; try reflexivity.
  - repeat split; apply Forall2_refl; intros; reflexivity.
  - cbn. now rewrite app_nil_r.
Qed.
Lemma evals_liftR {A} cbs (x : res A) h : evals cbs (liftR K x) h (match x with Ok a => Ok (a, []) | Err e => Err e end).
Proof. destruct x as [a|e]; cbn; exists h; (split; [reflexivity|apply after_refl]) || reflexivity. Qed.
Lemma evals_look {A} cbs (sel : heap -> list A) i a h :
  nth_error (sel h) i = Some a -> evals cbs (look K sel i) h (Ok (a, [])).
Proof. intros E. exists h. unfold look. rewrite E. split; [reflexivity|apply after_refl]. Qed.
Lemma evals_set_p cbs i v x h : nth_error (h_p K h) i = Some x -> eqP K W x v -> evals cbs (set_p K i v) h (Ok (tt, [])).
Proof.
  intros E1 E2. eexists. split; [reflexivity|]. split; [|split; reflexivity].
  repeat split; try (apply Forall2_refl; intros; reflexivity). cbn. eapply Forall2_upd; try eassumption. intros; reflexivity.
Qed.
Lemma evals_set_i cbs i v x h : nth_error (h_i K h) i = Some x -> eqI K W x v -> evals cbs (set_i K i v) h (Ok (tt, [])).
Proof.
  intros E1 E2. eexists. split; [reflexivity|]. split; [|split; reflexivity].
  repeat split; try (apply Forall2_refl; intros; reflexivity). cbn. eapply Forall2_upd; try eassumption. intros; reflexivity.
Qed.
Lemma evals_set_s cbs i v x h : nth_error (h_s K h) i = Some x -> eqS K W x v -> evals cbs (set_s K i v) h (Ok (tt, [])).
Proof.
  intros E1 E2. eexists. split; [reflexivity|]. split; [|split; reflexivity].
  repeat split; try (apply Forall2_refl; intros; reflexivity). cbn. eapply Forall2_upd; try eassumption. intros; reflexivity.
Qed.

(** The preparateurs. *)
Fixpoint ev_preps (c : dataset T) (ps : list (prepT K)) (Y : dataset T) : res (dataset T * list (event T)) :=
  match ps with
  | [] => Ok (Y, [])
  | p :: r => match fst (p_transform K Y (p_attach K c p)) with
              | Ok Z => match ev_preps c r Z with Ok (A, evs) => Ok (A, EPrep Z :: evs) | Err e => Err e end
              | Err e => Err e
              end
  end.
Lemma run_preps_evals c cbs ids ps Y h :
  refs (eqP K W) (h_p K h) ids ps -> evals cbs (run_preps K c cbs ids Y) h (ev_preps c ps Y).
Proof.
  revert ps Y h. induction ids as [|id ids IH]; intros ps Y h R; inversion R as [|? p ? ps' (q & Hq & E) R']; subst.
  - apply evals_ret.
  - cbn [run_preps ev_preps]. apply (evals_here cbs _ _ _ _ _ (look_eq (h_p K) _ _ _ Hq)).
    rewrite <- (eqP_transform K W c Y q p E).
    destruct (p_transform K Y (p_attach K c q)) as [[Z|e] p1] eqn:Ep; cbn [fst].
    2:{ eexists. reflexivity. }
    assert (Ek : eqP K W q p1).
    { pose proof (p_transform_keeps K W Y (p_attach K c q) Z) as Hk. rewrite Ep in Hk. specialize (Hk eq_refl). cbn in Hk.
      symmetry. transitivity (p_attach K c q); [exact Hk|apply (eqP_attach K W)]. }
    pose proof (evals_set_p cbs id p1 q h Hq Ek) as (h1 & S1 & A1).
    pose proof (evals_emit cbs (EPrep Z) h1) as (h2 & S2 & A2).
    assert (R2 : refs (eqP K W) (h_p K h2) ids ps').
    { eapply refs_step; [exact eP|apply A2|]. eapply refs_step; [exact eP|apply A1|]. exact R'. }
    rewrite <- prefix_nil. apply (evals_step cbs _ _ _ _ _ _ _ S1 A1).
    apply (evals_here cbs _ _ h1 Z _ eq_refl).
    exact (evals_step cbs _ _ _ _ _ _ _ S2 A2 (IH ps' Z h2 R2)).
Qed.

(** The sieves on one iterated sum. *)
Fixpoint ev_sieves (c : dataset T) (svs : list (sieveT K)) (Y : mts T) (kA : nat * mts T)
  : res ((nat * mts T) * list (event T)) :=
  match svs with
  | [] => Ok (kA, [])
  | s :: r =>
      let (k, A) := kA in
      let nf := s_nf K s in
      match fst (s_transform K Y (s_attach K c s)) with
      | Err e => Err e
      | Ok R => match set_cols k nf R A with
                | Err e => Err e
                | Ok A' => match ev_sieves c r Y (k + nf, A') with
                           | Ok (x, evs) => Ok (x, ESieve (py_slice (Some (Z.of_nat k)) (Some (Z.of_nat (k + nf))) A') :: evs)
                           | Err e => Err e
                           end
                end
      end
  end.
Lemma run_sieves_evals c cbs ids svs Y kA h :
  refs (eqS K W) (h_s K h) ids svs -> evals cbs (run_sieves K c cbs ids Y kA) h (ev_sieves c svs Y kA).
Proof.
  revert svs kA h. induction ids as [|id ids IH]; intros svs kA h R; inversion R as [|? s ? svs' (q & Hq & E) R']; subst.
  - apply evals_ret.
  - cbn [run_sieves ev_sieves]. apply (evals_here cbs _ _ _ _ _ (look_eq (h_s K) _ _ _ Hq)).
    destruct kA as [k A]. rewrite <- (eqS_transform K W c Y q s E).
    assert (En : s_nf K (s_attach K c q) = s_nf K s).
    { apply (eqS_nf K W). transitivity q; [apply (eqS_attach K W)|exact E]. }
    rewrite En.
    destruct (s_transform K Y (s_attach K c q)) as [[R1|e] s1] eqn:Es; cbn [fst].
    2:{ eexists. reflexivity. }
    assert (Ek : eqS K W q s1).
    { pose proof (s_transform_keeps K W Y (s_attach K c q) R1) as Hk. rewrite Es in Hk. specialize (Hk eq_refl). cbn in Hk.
      symmetry. transitivity (s_attach K c q); [exact Hk|apply (eqS_attach K W)]. }
    pose proof (evals_set_s cbs id s1 q h Hq Ek) as (h1 & S1 & A1).
    rewrite <- prefix_nil. apply (evals_step cbs _ _ _ _ _ _ _ S1 A1).
    apply (evals_here cbs _ _ h1 R1 _ eq_refl).
    destruct (set_cols k (s_nf K s) R1 A) as [A'|e]; [|eexists; reflexivity].
    apply (evals_here cbs _ _ h1 A' _ eq_refl).
    set (ev := ESieve _).
    pose proof (evals_emit cbs ev h1) as (h2 & S2 & A2).
    assert (R2 : refs (eqS K W) (h_s K h2) ids svs').
    { eapply refs_step; [exact eS|apply A2|]. eapply refs_step; [exact eS|apply A1|]. exact R'. }
    exact (evals_step cbs _ _ _ _ _ _ _ S2 A2 (IH svs' (k + s_nf K s, A') h2 R2)).
Qed.

(** The iterated sums; [get i] are the sieves of the i-th iterated sum. *)
Fixpoint ev_itsums (c : dataset T) (get : nat -> res (list (sieveT K))) (i : nat) (its : list (res (mts T)))
    (kA : nat * mts T) : res ((nat * mts T) * list (event T)) :=
  match its with
  | [] => Ok (kA, [])
  | Err e :: _ => Err e
  | Ok Y :: r =>
      match get i with
      | Err e => Err e
      | Ok svs => match ev_sieves c svs Y kA with
                  | Err e => Err e
                  | Ok (kA', e1) => match ev_itsums c get (S i) r kA' with
                                    | Err e => Err e
                                    | Ok (x, e2) => Ok (x, EItsum Y :: e1 ++ e2)
                                    end
                  end
      end
  end.
(** [svs] and [ext] are the objects behind the references in s. *)
Definition getter (svs : list (sieveT K)) (ext : list (list (sieveT K))) (i : nat) : res (list (sieveT K)) :=
  match ext with [] => Ok svs | _ => match nth_error ext i with Some l => Ok l | None => Err IndexError end end.
Definition ext_refs (h : heap) (s : slice) (svs : list (sieveT K)) (ext : list (list (sieveT K))) : Prop :=
  refs (eqS K W) (h_s K h) (sl_s s) svs /\ Forall2 (refs (eqS K W) (h_s K h)) (sl_ext s) ext.
Lemma ext_refs_step h h' s svs ext : heq h h' -> ext_refs h s svs ext -> ext_refs h' s svs ext.
Proof.
  intros (_ & _ & _ & _ & E) (A & B). split; [eapply refs_step; [exact eS|exact E|exact A]|].
  eapply Forall2_impl; [|exact B]. intros ids os. apply (refs_step (eqS K W) _ _ _ _ E).
Qed.
Lemma run_itsums_evals c cbs s svs ext i its kA h :
  ext_refs h s svs ext -> evals cbs (run_itsums K c cbs s i its kA) h (ev_itsums c (getter svs ext) i its kA).
Proof.
  revert i kA h. induction its as [|[Y|e] its IH]; intros i kA h R.
  - apply evals_ret.
  - cbn [run_itsums ev_itsums].
    pose proof (evals_emit cbs (EItsum Y) h) as (h1 & S1 & A1).
    assert (R1 : ext_refs h1 s svs ext) by (eapply ext_refs_step; [apply A1|exact R]).
    assert (G : match getter svs ext i with
                | Ok l => exists ids, (if nonempty (sl_ext s) then match nth_error (sl_ext s) i with Some l => ret K l | None => raise K IndexError end else ret K (sl_s s)) = ret K ids
                            /\ refs (eqS K W) (h_s K h1) ids l
                | Err e => (if nonempty (sl_ext s) then match nth_error (sl_ext s) i with Some l => ret K l | None => raise K IndexError end else ret K (sl_s s)) = raise K e
                end).
    { destruct R1 as [Ra Rb]. unfold getter. destruct (sl_ext s) as [|x xs] eqn:Ex; inversion Rb as [|? y ? ys Hy Hys]; subst.
      - cbn [nonempty]. exists (sl_s s). split; [reflexivity|exact Ra].
      - cbn [nonempty]. destruct (nth_error (y :: ys) i) as [l|] eqn:En.
        + destruct (Forall2_nth_error_r _ _ _ _ _ Rb En) as (ids & Hi & Hr). exists ids. rewrite Hi. split; [reflexivity|exact Hr].
        + apply nth_error_None in En. rewrite <- (Forall2_len _ _ _ Rb) in En.
          now rewrite (proj2 (nth_error_None _ _) En). }
    destruct (getter svs ext i) as [l|e].
    + destruct G as (ids & Eg & Rl). rewrite Eg.
      pose proof (run_sieves_evals c cbs ids l Y kA h1 Rl) as Ev.
      assert (Q : evals cbs (bindM K (ret K ids) (fun ids => bindM K (run_sieves K c cbs ids Y kA)
                    (fun kA' => run_itsums K c cbs s (S i) its kA'))) h1
                (match ev_sieves c l Y kA with
                 | Err e => Err e
                 | Ok (kA', e1) => prefix e1 (ev_itsums c (getter svs ext) (S i) its kA') end)).
      { apply (evals_here cbs _ _ h1 ids _ eq_refl).
        destruct (ev_sieves c l Y kA) as [[kA' e1]|e]; [|now apply evals_err].
        destruct Ev as (h2 & S2 & A2).
        exact (evals_step cbs _ _ _ _ _ _ _ S2 A2 (IH (S i) kA' h2 (ext_refs_step _ _ _ _ _ (proj1 A2) R1))). }
      pose proof (evals_step cbs _ (fun _ => bindM K (ret K ids) (fun ids => bindM K (run_sieves K c cbs ids Y kA)
                    (fun kA' => run_itsums K c cbs s (S i) its kA'))) _ _ _ _ _ S1 A1 Q) as Q'.
      destruct (ev_sieves c l Y kA) as [[kA' e1]|e]; [|exact Q'].
      destruct (ev_itsums c (getter svs ext) (S i) its kA') as [[x e2]|e]; exact Q'.
    + rewrite G. exists h1. unfold bindM. rewrite S1. reflexivity.
  - eexists. reflexivity.
Qed.

(** ** The number of features *)
Fixpoint mulall (l : list nat) : nat := match l with [] => 1 | x :: r => x * mulall r end.
Definition ev_ns (is : list (issT K)) : res (list nat) := mapM (i_n K) is.
Definition nsieves (svs : list (sieveT K)) : nat := list_sum (map (s_nf K) svs).
Lemma collect_look_i_n h ids is :
  refs (eqI K W) (h_i K h) ids is ->
  collect K ids (fun i => bindM K (look K (h_i K) i) (fun o => liftR K (i_n K o))) h = (ev_ns is, h).
Proof.
  unfold ev_ns. revert is. induction ids as [|id ids IH]; intros is R; inversion R as [|? i ? is' (q & Hq & E) R']; subst.
  - reflexivity.
  - cbn [collect mapM]. unfold bindM at 1 2. unfold look at 1. rewrite Hq. unfold liftR at 1.
    rewrite (eqI_n K W q i E). destruct (i_n K i) as [n|e]; [|reflexivity]. cbn [bind].
    unfold bindM at 1. rewrite IH with (is := is') by exact R'.
    destruct (mapM (i_n K) is') as [l|e]; reflexivity.
Qed.
Lemma sum_nf_eval h ids svs : refs (eqS K W) (h_s K h) ids svs -> sum_nf K ids h = (Ok (nsieves svs), h).
Proof.
  intros R. unfold sum_nf, nsieves, bindM at 1.
  assert (E : collect K ids (fun i => bindM K (look K (h_s K) i) (fun o => ret K (s_nf K o))) h = (Ok (map (s_nf K) svs), h)).
  { revert svs R. induction ids as [|id ids IH]; intros svs R; inversion R as [|? s ? svs' (q & Hq & E) R']; subst.
    - reflexivity.
    - cbn [collect map]. unfold bindM at 1 2. unfold look at 1. rewrite Hq. unfold ret at 1.
      unfold bindM at 1. rewrite IH with (svs := svs') by exact R'. now rewrite (eqS_nf K W q s E). }
  rewrite E. reflexivity.
Qed.
Lemma niteratedsums_eval h sl s is :
  nth_error (h_sl K h) sl = Some s -> refs (eqI K W) (h_i K h) (sl_i s) is ->
  niteratedsums K sl h = (let! ns := ev_ns is in Ok (fold_right Nat.mul 1 ns), h).
Proof.
  intros E R. unfold niteratedsums. unfold bindM at 1, look at 1. rewrite E.
  unfold bindM at 1. rewrite (collect_look_i_n h _ is R). destruct (ev_ns is); reflexivity.
Qed.
Lemma slice_nfeatures_eval h sl s is svs :
  nth_error (h_sl K h) sl = Some s -> refs (eqI K W) (h_i K h) (sl_i s) is -> refs (eqS K W) (h_s K h) (sl_s s) svs ->
  slice_nfeatures K sl h = (let! ns := ev_ns is in Ok (nsieves svs * fold_right Nat.mul 1 ns), h).
Proof.
  intros E Ri Rs. unfold slice_nfeatures. unfold bindM at 1, look at 1. rewrite E.
  unfold bindM at 1. rewrite (sum_nf_eval h _ svs Rs). unfold bindM. rewrite (niteratedsums_eval h sl s is E Ri).
  destruct (ev_ns is); reflexivity.
Qed.

(** ** transform of a slice *)
Definition ev_slice (c X : dataset T) (ps : list (prepT K)) (is : list (issT K)) (svs : list (sieveT K))
    (ext : list (list (sieveT K))) : res (mts T * list (event T)) :=
  match ev_preps c ps X with
  | Err e => Err e
  | Ok (Y, e1) =>
      match ev_ns is with
      | Err e => Err e
      | Ok ns =>
          match ev_itsums c (getter svs ext) 0 (iterate_iss K (map (i_attach K c) is) Y)
                  (0, repeat (repeat nzero (nsieves svs * fold_right Nat.mul 1 ns)) (length Y)) with
          | Err e => Err e
          | Ok (kA, e2) => Ok (snd kA, e1 ++ [EPrepEnd Y] ++ e2 ++ [ESieveEnd (snd kA)])
          end
      end
  end.
(** The attached caches: the ISS objects of the slice after the loop. *)
Lemma iterate_iss_ext is js X : Forall2 (fun i j => forall X, i_batches K i X = i_batches K j X) is js ->
  iterate_iss K is X = iterate_iss K js X.
Proof.
  intros F. revert X. induction F as [|i j is js E F IH]; intros X; cbn [iterate_iss]; [reflexivity|].
  rewrite E. f_equal. apply FunctionalExtensionality.functional_extensionality. intros [b|e]; [|reflexivity].
  f_equal. apply FunctionalExtensionality.functional_extensionality. intros s. apply IH.
Qed.
Definition att (c : dataset T) (l : list (issT K)) (id : nat) : Prop :=
  exists q, nth_error l id = Some (i_attach K c q).
Lemma attach_loop c cbs ids h :
  (forall id, In id ids -> id < length (h_i K h)) ->
  exists h', forM K ids (fun id => bindM K (look K (h_i K) id) (fun i => set_i K id (i_attach K c i))) h = (Ok tt, h') /\
    after cbs [] h h' /\ (forall id, In id ids \/ att c (h_i K h) id -> att c (h_i K h') id).
Proof.
  revert h. induction ids as [|id ids IH]; intros h B.
  - exists h. split; [reflexivity|]. split; [apply after_refl|]. intros id [[]|E]; exact E.
  - cbn [forM]. assert (Hid : id < length (h_i K h)) by (apply B; now left).
    destruct (nth_error (h_i K h) id) as [q|] eqn:Hq; [|apply nth_error_None in Hq; lia].
    unfold bindM at 1 2. unfold look at 1. rewrite Hq.
    pose proof (evals_set_i cbs id (i_attach K c q) q h Hq) as Ev.
    assert (Es : eqI K W q (i_attach K c q)) by (symmetry; apply (eqI_attach K W)). specialize (Ev Es). cbn in Ev.
    destruct Ev as (h1 & S1 & A1).
    destruct (IH h1) as (h2 & S2 & A2 & P2).
    { injection S1 as <-. cbn. intros i Hi. rewrite upd_length. apply B. now right. }
    exists h2. unfold set_i at 1. injection S1 as Eh. rewrite Eh.
    split; [exact S2|]. split; [exact (after_trans cbs [] [] _ _ _ A1 A2)|].
    intros i Hi. apply P2. destruct (Nat.eq_dec id i) as [->|Hn].
    + right. exists q. rewrite <- Eh. cbn. now apply upd_nth_error_eq.
    + destruct Hi as [[Hi|Hi]|(q' & Hi)]; [congruence|now left|].
      right. exists q'. rewrite <- Eh. cbn. rewrite upd_nth_error_neq by exact Hn. exact Hi.
Qed.
Lemma collect_look {A} (sel : heap -> list A) ids h os : objs (sel h) ids os -> collect K ids (look K sel) h = (Ok os, h).
Proof.
  intros F. induction F as [|id o ids os E F IH]; [reflexivity|]. cbn [collect]. unfold bindM at 1, look at 1. rewrite E.
  unfold bindM. rewrite IH. reflexivity.
Qed.
Lemma refs_objs {A} (R : A -> A -> Prop) l ids os : refs R l ids os -> exists qs, objs l ids qs /\ Forall2 R qs os.
Proof.
  induction 1 as [|id o ids os (q & E1 & E2) F (qs & A1 & A2)]; [exists []; split; constructor|].
  exists (q :: qs). split; constructor; assumption.
Qed.
Lemma refs_bound {A} (R : A -> A -> Prop) l ids os id : refs R l ids os -> In id ids -> id < length l.
Proof.
  intros F. induction F as [|i o ids os (q & E1 & E2) F IH]; intros []; [subst|auto].
  apply nth_error_Some. congruence.
Qed.

Theorem slice_transform_evals sl s X cbs cache ps is svs ext h :
  nth_error (h_sl K h) sl = Some s -> sl_fitted s = true ->
  refs (eqP K W) (h_p K h) (sl_p s) ps -> refs (eqI K W) (h_i K h) (sl_i s) is -> ext_refs h s svs ext ->
  evals cbs (slice_transform K sl X cbs cache) h
    (ev_slice (match cache with Some c => c | None => X end) X ps is svs ext).
Proof.
  intros Es Ef Rp Ri Rs. unfold slice_transform. apply (evals_here cbs _ _ _ _ _ (look_eq (h_sl K) _ _ _ Es)).
  rewrite Ef. cbn [negb].
  set (c := match cache with Some c => c | None => X end). unfold ev_slice.
  pose proof (run_preps_evals c cbs _ _ X h Rp) as Ep.
  destruct (ev_preps c ps X) as [[Y e1]|e]; [|now apply evals_err].
  destruct Ep as (h1 & S1 & A1).
  pose proof (evals_emit cbs (EPrepEnd Y) h1) as (h2 & S2 & A2).
  pose proof (after_trans cbs _ _ _ _ _ A1 A2) as A12.
  assert (Es2 : nth_error (h_sl K h2) sl = Some s) by (rewrite <- (proj1 (proj1 A12)); exact Es).
  assert (Ri2 : refs (eqI K W) (h_i K h2) (sl_i s) is) by (eapply refs_step; [exact eI|apply A12|exact Ri]).
  assert (Rs2 : ext_refs h2 s svs ext) by (eapply ext_refs_step; [apply A12|exact Rs]).
  pose proof (slice_nfeatures_eval h2 sl s is svs Es2 Ri2 (proj1 Rs2)) as En.
  destruct (ev_ns is) as [ns|e]; cbn [bind] in En.
  2:{ exists h2. unfold bindM at 1. rewrite S1. unfold bindM at 1. rewrite S2. unfold bindM at 1. rewrite En. reflexivity. }
  destruct (attach_loop c cbs (sl_i s) h2) as (h3 & S3 & A3 & P3).
  { intros id Hid. eapply refs_bound; eassumption. }
  assert (Ri3 : refs (eqI K W) (h_i K h3) (sl_i s) is) by (eapply refs_step; [exact eI|apply A3|exact Ri2]).
  assert (Rs3 : ext_refs h3 s svs ext) by (eapply ext_refs_step; [apply A3|exact Rs2]).
  destruct (refs_objs _ _ _ _ Ri3) as (qs & Oq & Fq).
  assert (Eit : iterate_iss K qs Y = iterate_iss K (map (i_attach K c) is) Y).
  { apply iterate_iss_ext.
    assert (Hatt : forall id, In id (sl_i s) -> att c (h_i K h3) id) by (intros; apply P3; now left).
    clear - Oq Fq Hatt W. revert is Fq Hatt. induction Oq as [|id q ids qs E F IH]; intros is Fq Hatt; inversion Fq as [|? i ? is' E1 F1]; subst.
    - constructor.
    - cbn [map]. constructor.
      + intros X0. destruct (Hatt id (or_introl eq_refl)) as (q' & E'). rewrite E in E'. injection E' as ->.
        apply (eqI_batches K W). transitivity (i_attach K c q'); [symmetry; apply (eqI_attach K W)|exact E1].
      + apply IH; [exact F1|]. intros; apply Hatt. now right. }
  set (kA0 := (0, repeat (repeat nzero (nsieves svs * fold_right Nat.mul 1 ns)) (length Y))) in *.
  pose proof (run_itsums_evals c cbs s svs ext 0 (iterate_iss K (map (i_attach K c) is) Y) kA0 h3 Rs3) as Ev.
  pose proof (collect_look (h_i K) _ _ _ Oq) as S4.
  rewrite <- Eit in *. clear Eit.
  match goal with |- evals _ (bindM K _ ?f) h _ => set (rest := f) end.
  assert (Q : evals cbs (rest Y) h1 (prefix [EPrepEnd Y] (
     match ev_itsums c (getter svs ext) 0 (iterate_iss K qs Y) kA0 with
     | Ok (kA, e2) => Ok (snd kA, e2 ++ [ESieveEnd (snd kA)]) | Err e => Err e end))).
  { unfold rest. apply (evals_step cbs _ _ _ _ _ _ _ S2 A2).
    apply (evals_here cbs _ _ _ _ _ En). rewrite <- prefix_nil.
    apply (evals_step cbs _ _ _ _ _ _ _ S3 A3).
    apply (evals_here cbs _ _ _ _ _ S4). fold kA0.
    destruct (ev_itsums c (getter svs ext) 0 (iterate_iss K qs Y) kA0) as [[kA e2]|e]; [|now apply evals_err].
    destruct Ev as (h4 & S5 & A5).
    apply (evals_step cbs _ _ _ _ _ _ (Ok (snd kA, [ESieveEnd (snd kA)])) S5 A5).
    pose proof (evals_emit cbs (ESieveEnd (snd kA)) h4) as (h5 & S6 & A6).
    exact (evals_step cbs _ _ _ _ _ _ (Ok (snd kA, [])) S6 A6 (evals_ret cbs (snd kA) h5)). }
  pose proof (evals_step cbs _ rest _ _ _ _ _ S1 A1 Q) as Q'.
  destruct (ev_itsums c (getter svs ext) 0 (iterate_iss K qs Y) kA0) as [[kA e2]|e]; exact Q'.
Qed.
End Fruit.
