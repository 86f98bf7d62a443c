(** What [slice_fit] does; well-formed heaps. *)
From Coq Require Import Ascii String List Arith ZArith Bool RelationClasses Lia.
From Verif Require Import Num Arr M_Str M_Words M_Np M_Fruit S_Fruit L_Arr L_Fruit L_Fruit2.
Import ListNotations.

Section Fit.
Context {T : Type} `{Num T}.
Variable K : kit T.
Notation heap := (heap K).
Variable W : lawful K.
Notation quiet := (quiet K). Notation grow := (grow K).

(** What does not change of a sieve: the number of features and the labels. *)
Definition ssig (s : sieveT K) : nat * (nat -> res pystr) := (s_nf K s, s_label K s).
Definition nf_at (h : heap) (id : nat) := option_map ssig (nth_error (h_s K h) id).
(** A row of fitted sieves that fits to the sieves [ids]. *)
Definition rowok (h : heap) (ids row : list nat) : Prop :=
  (forall id, In id row -> id < length (h_s K h)) /\ map (nf_at h) row = map (nf_at h) ids.
Definition valid (h : heap) (s : slice) : Prop :=
  (forall id, In id (sl_p s) -> id < length (h_p K h)) /\ (forall id, In id (sl_i s) -> id < length (h_i K h)) /\
  (forall id, In id (sl_s s) -> id < length (h_s K h)) /\
  (forall row id, In row (sl_ext s) -> In id row -> id < length (h_s K h)).
Definition needs (h : heap) (s : slice) : Prop :=
  exists id o, In id (sl_s s) /\ nth_error (h_s K h) id = Some o /\ s_requires K o = true.
Definition wf_slice (h : heap) (s : slice) : Prop :=
  valid h s /\ (sl_ext s <> [] -> needs h s) /\
  (sl_fitted s = true -> sl_i s <> [] /\ sl_s s <> [] /\ forall row, In row (sl_ext s) -> rowok h (sl_s s) row).
Definition wf_fruit (h : heap) (f : fruit) : Prop :=
  (forall sl, In sl (f_slices f) -> sl < length (h_sl K h)) /\ (f_slices f <> [] -> f_idx f < length (f_slices f)).
Definition wf (h : heap) : Prop :=
  (forall j s, nth_error (h_sl K h) j = Some s -> wf_slice h s) /\ (forall j f, nth_error (h_fr K h) j = Some f -> wf_fruit h f).

Lemma incl_by_len {A} (R : A -> A -> Prop) l l' : incl_by R l l' -> length l <= length l'.
Proof.
  intros E. destruct (Nat.le_gt_cases (length l) (length l')) as [|C]; [assumption|].
  destruct (nth_error l (length l')) as [o|] eqn:Eo; [|apply nth_error_None in Eo; lia].
  destruct (E _ _ Eo) as (o' & E' & _). assert (N : nth_error l' (length l') = None) by (apply nth_error_None; lia). congruence.
Qed.
Lemma grow_lens h h' : grow h h' -> length (h_p K h) <= length (h_p K h') /\ length (h_i K h) <= length (h_i K h') /\ length (h_s K h) <= length (h_s K h').
Proof. intros (A & B & C). repeat split; eapply incl_by_len; eassumption. Qed.
Lemma nf_at_grow h h' id : grow h h' -> id < length (h_s K h) -> nf_at h' id = nf_at h id.
Proof.
  intros (_ & _ & G) Hid. unfold nf_at. destruct (nth_error (h_s K h) id) as [o|] eqn:E; [|apply nth_error_None in E; lia].
  destruct (G _ _ E) as (o' & E' & Hn & _ & Hl). rewrite E'. cbn. unfold ssig. now rewrite Hn, Hl.
Qed.
Lemma rowok_grow h h' ids row : grow h h' -> (forall id, In id ids -> id < length (h_s K h)) -> rowok h ids row -> rowok h' ids row.
Proof.
  intros G V (A & B). destruct (grow_lens _ _ G) as (_ & _ & L). split.
  - intros id Hid. specialize (A id Hid). lia.
  - transitivity (map (nf_at h) row); [apply map_ext_in; intros; apply nf_at_grow; auto|].
    rewrite B. apply map_ext_in. intros. symmetry. apply nf_at_grow; auto.
Qed.
Lemma valid_grow h h' s : grow h h' -> valid h s -> valid h' s.
Proof.
  intros G (A & B & C & D). destruct (grow_lens _ _ G) as (L1 & L2 & L3).
  repeat split; intros.
  - specialize (A id H0); lia. - specialize (B id H0); lia. - specialize (C id H0); lia. - specialize (D row id H0 H1); lia.
Qed.
Lemma needs_grow h h' s : grow h h' -> needs h s -> needs h' s.
Proof.
  intros (_ & _ & G) (id & o & A & B & C). destruct (G _ _ B) as (o' & B' & _ & R & _).
  exists id, o'. repeat split; [exact A|exact B'|congruence].
Qed.
Lemma wf_slice_grow h h' s : grow h h' -> wf_slice h s -> wf_slice h' s.
Proof.
  intros G (A & B & C). split; [eapply valid_grow; eassumption|]. split.
  - intros E. eapply needs_grow; [exact G|auto].
  - intros E. destruct (C E) as (C1 & C2 & C3). repeat split; try assumption; intros; destruct (rowok_grow h h' (sl_s s) row G (proj1 (proj2 (proj2 A))) (C3 row H0)); auto.
Qed.
Lemma wf_quiet h h' : quiet h h' -> wf h -> wf h'.
Proof.
  intros (G & E1 & E2) (A & B). split; rewrite ?E1, ?E2.
  - intros j s Hj. eapply wf_slice_grow; [exact G|eauto].
  - intros j f Hj. specialize (B j f Hj). unfold wf_fruit in *. rewrite E1. exact B.
Qed.

(** ** Fresh fitted copies *)
Lemma collect_copy_ok ids h ids' h' :
  (forall id, In id ids -> id < length (h_s K h)) ->
  collect K ids (copy_sieve K) h = (Ok ids', h') ->
  ids' = seq (length (h_s K h)) (length ids) /\
  exists svs copies, objs (h_s K h) ids svs /\ Forall2 (fun s s' => s_copy K s = Ok s') svs copies /\
    h' = {| h_p := h_p K h; h_i := h_i K h; h_s := h_s K h ++ copies; h_sl := h_sl K h; h_fr := h_fr K h; h_g := h_g K h; h_log := h_log K h |}.
Proof.
  revert h ids' h'. induction ids as [|id ids IH]; intros h ids' h' V E; cbn [collect] in E.
  - injection E as <- <-. split; [reflexivity|]. exists [], []. split; [constructor|]. split; [constructor|].
    rewrite app_nil_r. now destruct h.
  - unfold bindM at 1 in E. unfold copy_sieve at 1 in E. unfold bindM at 1 in E. unfold look at 1 in E.
    destruct (nth_error (h_s K h) id) as [s|] eqn:Es; [|discriminate].
    unfold bindM at 1, liftR at 1 in E. destruct (s_copy K s) as [s'|e] eqn:Ec; [|discriminate].
    unfold new_s at 1 in E. unfold bindM at 1 in E.
    match type of E with context [collect K ids (copy_sieve K) ?x] => set (h1 := x) in E end.
    destruct (collect K ids (copy_sieve K) h1) as [[l|e] h2] eqn:E2; [|discriminate]. injection E as <- <-.
    destruct (IH h1 l h2) as (A1 & svs & copies & A2 & A3 & A4).
    { intros i Hi. unfold h1. cbn. rewrite app_length. specialize (V i (or_intror Hi)). lia. }
    { exact E2. }
    cbn in A1. rewrite app_length in A1. cbn in A1. rewrite Nat.add_1_r in A1. split.
    + cbn. now rewrite A1.
    + exists (s :: svs), (s' :: copies). split; [|split].
      * constructor; [exact Es|]. clear - A2 V. unfold h1 in A2. cbn in A2.
        assert (V' : forall i, In i ids -> i < length (h_s K h)) by (intros; apply V; now right). clear V.
        revert V'. induction A2 as [|i o ids os E F IH']; intros V'; constructor.
        -- rewrite nth_error_app1 in E; [exact E|]. apply V'. now left.
        -- apply IH'. intros; apply V'. now right.
      * constructor; assumption.
      * rewrite A4. unfold h1. cbn. now rewrite <- app_assoc.
Qed.
(** Fitting a list of sieves one after the other. *)
Inductive fit_all (c : dataset T) (Y : mts T) : rng K -> list (sieveT K) -> list (sieveT K) -> rng K -> Prop :=
| fa_nil g : fit_all c Y g [] [] g
| fa_cons g s s' g1 l l' g2 :
    s_fit K g Y (s_attach K c s) = (Ok tt, s', g1) -> fit_all c Y g1 l l' g2 -> fit_all c Y g (s :: l) (s' :: l') g2.
Lemma upd_app_at {A} (old : list A) x v l : upd (length old) v (old ++ x :: l) = old ++ v :: l.
Proof. induction old as [|y old IH]; cbn; [reflexivity|]. now rewrite IH. Qed.
Lemma forM_fit_ok c Y m h old cs h' :
  h_s K h = old ++ cs -> length cs = m ->
  forM K (seq (length old) m) (fit_sieve K c Y) h = (Ok tt, h') ->
  exists fs g', fit_all c Y (h_g K h) cs fs g' /\
    h' = {| h_p := h_p K h; h_i := h_i K h; h_s := old ++ fs; h_sl := h_sl K h; h_fr := h_fr K h; h_g := g'; h_log := h_log K h |}.
Proof.
  revert h old cs h'. induction m as [|m IH]; intros h old cs h' Es El E; cbn [seq forM] in E.
  - destruct cs; [|discriminate]. injection E as <-. exists [], (h_g K h). split; [constructor|].
    rewrite <- Es. now destruct h.
  - destruct cs as [|s cs]; [discriminate|]. injection El as El.
    unfold bindM at 1 in E. unfold fit_sieve at 1 in E. unfold bindM at 1, look at 1 in E.
    rewrite Es, nth_error_app2, Nat.sub_diag in E by lia. cbn [nth_error] in E.
    unfold bindM at 1, get_g at 1 in E.
    destruct (s_fit K (h_g K h) Y (s_attach K c s)) as [[x s1] g1] eqn:Ef.
    unfold set_s at 1, bindM at 1 in E. unfold set_g at 1, bindM at 1 in E. unfold liftR at 1 in E.
    destruct x as [[]|e]; [|discriminate]. cbn [h_p h_i h_s h_sl h_fr h_g h_log] in E.
    rewrite Es, upd_app_at in E.
    match type of E with forM K _ _ ?x = _ => set (h1 := x) in E end.
    destruct (IH h1 (old ++ [s1]) cs h') as (fs & g' & F & Eh).
    + unfold h1. cbn. now rewrite <- app_assoc.
    + exact El.
    + rewrite app_length. cbn. rewrite Nat.add_1_r. exact E.
    + exists (s1 :: fs), g'. split; [econstructor; [exact Ef|exact F]|]. rewrite Eh. unfold h1. cbn. now rewrite <- app_assoc.
Qed.

(** ** [fit_ext] *)
Definition extR (sl : nat) (h h' : heap) : Prop :=
  grow h h' /\ h_fr K h' = h_fr K h /\ length (h_sl K h') = length (h_sl K h) /\
  forall j s, nth_error (h_sl K h) j = Some s -> valid h s ->
    exists rows, nth_error (h_sl K h') j = Some (with_ext (sl_ext s ++ rows) s) /\ (j <> sl -> rows = []) /\
                 forall row, In row rows -> rowok h' (sl_s s) row.
Lemma with_ext_same s : with_ext (sl_ext s ++ []) s = s.
Proof. rewrite app_nil_r. now destruct s. Qed.
Lemma extR_quiet sl h h' : quiet h h' -> extR sl h h'.
Proof.
  intros (G & E1 & E2). split; [exact G|]. split; [exact E2|]. rewrite E1. split; [reflexivity|].
  intros j s Hj _. exists []. rewrite with_ext_same. split; [exact Hj|]. split; [auto|intros row []].
Qed.
Lemma extR_trans sl a b c : extR sl a b -> extR sl b c -> extR sl a c.
Proof.
  intros (A1 & A2 & A3 & A4) (B1 & B2 & B3 & B4). split; [eapply grow_trans; eassumption|]. split; [congruence|]. split; [congruence|].
  intros j s Hj V. destruct (A4 j s Hj V) as (r1 & H1 & N1 & O1).
  assert (V1 : valid b (with_ext (sl_ext s ++ r1) s)).
  { destruct (valid_grow _ _ _ A1 V) as (V1 & V2 & V3 & V4). repeat split; cbn; auto.
    intros row id Hr Hid. apply in_app_iff in Hr as [Hr|Hr]; [eauto|]. apply (O1 row Hr). exact Hid. }
  destruct (B4 j _ H1 V1) as (r2 & H2 & N2 & O2). exists (r1 ++ r2).
  split; [|split].
  - rewrite H2. f_equal. cbn. rewrite <- app_assoc. reflexivity.
  - intros Hn. now rewrite N1, N2.
  - intros row Hr. apply in_app_iff in Hr as [Hr|Hr]; [|apply O2; exact Hr].
    eapply rowok_grow; [exact B1| |apply O1; exact Hr]. apply V1.
Qed.
Lemma nth_error_upd {A} i j (v : A) l : nth_error (upd i v l) j = if (i =? j) && (j <? length l) then Some v else nth_error l j.
Proof.
  destruct (Nat.eqb_spec i j) as [->|Hn]; cbn [andb].
  - destruct (Nat.ltb_spec j (length l)) as [L|L]; [now apply upd_nth_error_eq|].
    rewrite (proj2 (nth_error_None _ _)); [symmetry; now apply nth_error_None|]. now rewrite upd_length.
  - now apply upd_nth_error_neq.
Qed.
Lemma nf_new (old copies : list (sieveT K)) :
  map (fun i => option_map ssig (nth_error (old ++ copies) i)) (seq (length old) (length copies)) = map (fun s => Some (ssig s)) copies.
Proof.
  revert old. induction copies as [|s copies IH]; intros old; [reflexivity|].
  cbn [length seq map]. rewrite nth_error_app2, Nat.sub_diag by lia. cbn. f_equal.
  specialize (IH (old ++ [s])). rewrite app_length in IH. cbn in IH. rewrite Nat.add_1_r, <- app_assoc in IH. exact IH.
Qed.
Lemma nf_copies (l : list (sieveT K)) ids svs cs tail :
  objs l ids svs -> Forall2 (fun s s' => s_copy K s = Ok s') svs cs ->
  map (fun i => option_map ssig (nth_error (l ++ tail) i)) ids = map (fun s => Some (ssig s)) cs.
Proof.
  intros O. revert cs. induction O as [|id s ids svs E F IH]; intros cs Fc; inversion Fc as [|? s' ? cs' Ec Fc']; subst; [reflexivity|].
  cbn [map]. rewrite (IH _ Fc'). rewrite nth_error_app1 by (apply nth_error_Some; congruence). rewrite E. cbn.
  unfold ssig. now rewrite (s_copy_nf K W _ _ Ec), (s_copy_label K W _ _ Ec).
Qed.
Lemma fit_ext_R c sl sieves its h :
  (forall id, In id sieves -> id < length (h_s K h)) -> (forall s, nth_error (h_sl K h) sl = Some s -> sl_s s = sieves) ->
  extR sl h (snd (fit_ext K c sl sieves its h)).
Proof.
  revert h. induction its as [|[Y|e] its IH]; intros h V E; cbn [fit_ext]; try apply extR_quiet, quiet_refl.
  unfold bindM at 1. pose proof (pres_collect K quiet (quiet_refl K) (quiet_trans K) sieves (copy_sieve K) (fun a _ => quiet_copy_sieve K a) h) as Q1.
  destruct (collect K sieves (copy_sieve K) h) as [[ids|e] h1] eqn:Ec; cbn [snd] in *; [|now apply extR_quiet].
  destruct (collect_copy_ok _ _ _ _ V Ec) as (Eids & svs & copies & O & Fc & Eh1).
  assert (L : length copies = length sieves) by (rewrite <- (Forall2_len _ _ _ Fc); symmetry; exact (Forall2_len _ _ _ O)).
  unfold bindM at 1.
  pose proof (pres_forM K quiet (quiet_refl K) (quiet_trans K) ids (fit_sieve K c Y) (fun a _ => quiet_fit_sieve K W c Y a) h1) as Q2.
  destruct (forM K ids (fit_sieve K c Y) h1) as [[[]|e] h2] eqn:Ef; cbn [snd] in *; [|now apply extR_quiet; eapply quiet_trans; eassumption].
  assert (Q : quiet h h2) by (eapply quiet_trans; eassumption).
  assert (Row : rowok h1 sieves ids).
  { subst h1. split; cbn.
    - intros id Hid. rewrite Eids in Hid. apply in_seq in Hid. rewrite app_length, L. lia.
    - rewrite Eids, <- L. unfold nf_at. cbn [h_s]. rewrite nf_new. symmetry. apply (nf_copies _ _ svs); assumption. }
  assert (Row2 : rowok h2 sieves ids).
  { eapply rowok_grow; [apply Q2| |exact Row]. intros id Hid. destruct (grow_lens _ _ (proj1 Q1)) as (_ & _ & Ll). specialize (V id Hid). lia. }
  unfold bindM at 1, upd_sl at 1. unfold bindM at 1, look at 1.
  destruct (nth_error (h_sl K h2) sl) as [s|] eqn:Es; [|cbn; now apply extR_quiet].
  unfold set_sl at 1.
  match goal with |- extR sl h (snd (fit_ext K c sl sieves its ?x)) => set (h3 := x) end.
  assert (R3 : extR sl h2 h3).
  { split; [exact (grow_refl K h2)|]. split; [reflexivity|]. split; [cbn; apply upd_length|].
    intros j s0 Hj Vj. cbn. rewrite nth_error_upd.
    destruct (Nat.eqb_spec sl j) as [->|Hn]; cbn [andb].
    - assert (Lj : j < length (h_sl K h2)) by (apply nth_error_Some; congruence). rewrite (proj2 (Nat.ltb_lt _ _) Lj).
      assert (s0 = s) by congruence. subst s0. exists [ids]. split; [reflexivity|]. split; [congruence|].
      intros row [<-|[]]. rewrite (E s) by (rewrite <- (proj1 (proj2 Q)); exact Es). exact Row2.
    - exists []. rewrite with_ext_same. split; [exact Hj|]. split; [reflexivity|intros row []]. }
  eapply extR_trans; [apply extR_quiet; exact Q|]. eapply extR_trans; [exact R3|]. apply IH.
  - intros id Hid. cbn. destruct (grow_lens _ _ (proj1 Q)) as (_ & _ & Ll). specialize (V id Hid). lia.
  - intros s0 Hs0. unfold h3 in Hs0. cbn [h_sl] in Hs0. rewrite nth_error_upd, Nat.eqb_refl in Hs0. cbn [andb] in Hs0.
    assert (Es0 : nth_error (h_sl K h) sl = Some s) by (rewrite <- (proj1 (proj2 Q)); exact Es).
    destruct (sl <? length (h_sl K h2)) eqn:El.
    + injection Hs0 as <-. exact (E s Es0).
    + rewrite Es in Hs0. injection Hs0 as <-. exact (E s Es0).
Qed.

(** ** [slice_fit] *)
Definition fitR (sl : nat) (h h' : heap) : Prop :=
  grow h h' /\ h_fr K h' = h_fr K h /\ length (h_sl K h') = length (h_sl K h) /\
  forall j s, nth_error (h_sl K h) j = Some s -> exists s', nth_error (h_sl K h') j = Some s' /\
    (j <> sl -> s' = s) /\ sl_p s' = sl_p s /\ sl_i s' = sl_i s /\ sl_s s' = sl_s s /\ sl_sample s' = sl_sample s.
Definition flag (h : heap) (sl : nat) : option bool := option_map sl_fitted (nth_error (h_sl K h) sl).
Definition post (sl : nat) (h : heap) (r : res unit * heap) : Prop :=
  wf h -> wf (snd r) /\ fitR sl h (snd r) /\
  match fst r with Ok _ => flag (snd r) sl = Some true | Err _ => flag (snd r) sl = flag h sl end.
Lemma fitR_quiet sl h h' : quiet h h' -> fitR sl h h'.
Proof.
  intros (G & E1 & E2). split; [exact G|]. split; [exact E2|]. rewrite E1. split; [reflexivity|].
  intros j s Hj. exists s. auto 10.
Qed.
Lemma fitR_trans sl a b c : fitR sl a b -> fitR sl b c -> fitR sl a c.
Proof.
  intros (A1 & A2 & A3 & A4) (B1 & B2 & B3 & B4). split; [eapply grow_trans; eassumption|]. split; [congruence|]. split; [congruence|].
  intros j s Hj. destruct (A4 j s Hj) as (s1 & H1 & N1 & O1 & O2 & O3 & O4).
  destruct (B4 j s1 H1) as (s2 & H2 & N2 & P1 & P2 & P3 & P4). exists s2. split; [exact H2|].
  split; [intros Hn; rewrite N2, N1; auto|]. repeat split; congruence.
Qed.
Lemma post_err sl h h' e : quiet h h' -> post sl h (Err e, h').
Proof.
  intros Q Wf. split; [eapply wf_quiet; eassumption|]. split; [now apply fitR_quiet|]. cbn. unfold flag. now rewrite (proj1 (proj2 Q)).
Qed.
Lemma post_quiet sl h h1 r : quiet h h1 -> post sl h1 r -> post sl h r.
Proof.
  intros Q P Wf. destruct (P (wf_quiet _ _ Q Wf)) as (A & B & C). split; [exact A|].
  split; [eapply fitR_trans; [apply fitR_quiet; exact Q|exact B]|].
  destruct (fst r); [exact C|]. rewrite C. unfold flag. now rewrite (proj1 (proj2 Q)).
Qed.
Lemma post_bind {A} sl (m : M K A) f h :
  pres K quiet m -> (forall a h', m h = (Ok a, h') -> quiet h h' -> post sl h' (f a h')) -> post sl h (bindM K m f h).
Proof.
  intros Q E. specialize (Q h). unfold bindM. destruct (m h) as [[a|e] h1] eqn:Em; cbn in Q.
  - eapply post_quiet; [exact Q|]. now apply E.
  - now apply post_err.
Qed.
Lemma grow_same h h' : h_p K h' = h_p K h -> h_i K h' = h_i K h -> h_s K h' = h_s K h -> grow h h'.
Proof. intros A B C. unfold L_Fruit2.grow. rewrite A, B, C. apply grow_refl. Qed.
(** Replacing one slice. *)
Definition put_sl (h : heap) (sl : nat) (s : slice) : heap := snd (set_sl K sl s h).
Lemma wf_put h sl s : wf h -> wf_slice h s -> wf (put_sl h sl s).
Proof.
  intros (A & B) Ws. unfold put_sl, set_sl. cbn [snd].
  match goal with |- wf ?x => set (h' := x) end.
  assert (G : grow h h') by (apply grow_same; reflexivity). split.
  - intros j s0 Hj. cbn in Hj. rewrite nth_error_upd in Hj.
    destruct ((sl =? j) && (j <? length (h_sl K h))); [injection Hj as <-|];
      (eapply wf_slice_grow; [exact G|]); [exact Ws|eauto].
  - intros j f Hj. specialize (B j f Hj). unfold wf_fruit in *. cbn. rewrite upd_length. exact B.
Qed.
Lemma upd_sl_ok h sl f s : nth_error (h_sl K h) sl = Some s -> upd_sl K sl f h = (Ok tt, put_sl h sl (f s)).
Proof. intros E. unfold upd_sl, bindM, look. rewrite E. reflexivity. Qed.
Lemma put_nth h sl s j : sl < length (h_sl K h) -> nth_error (h_sl K (put_sl h sl s)) j = if sl =? j then Some s else nth_error (h_sl K h) j.
Proof.
  intros L. cbn. rewrite nth_error_upd. destruct (Nat.eqb_spec sl j) as [->|]; [|reflexivity].
  cbn [andb]. now rewrite (proj2 (Nat.ltb_lt _ _) L).
Qed.
Lemma fitR_put h sl s0 s : nth_error (h_sl K h) sl = Some s0 ->
  sl_p s = sl_p s0 -> sl_i s = sl_i s0 -> sl_s s = sl_s s0 -> sl_sample s = sl_sample s0 -> fitR sl h (put_sl h sl s).
Proof.
  intros E A B C D. assert (L : sl < length (h_sl K h)) by (apply nth_error_Some; congruence).
  split; [apply grow_same; reflexivity|]. split; [reflexivity|]. split; [cbn; apply upd_length|].
  intros j s1 Hj. rewrite put_nth by exact L. destruct (Nat.eqb_spec sl j) as [->|Hn].
  - assert (s1 = s0) by congruence. subst s1. exists s. split; [reflexivity|]. split; [congruence|]. auto.
  - exists s1. split; [exact Hj|]. auto.
Qed.
Lemma collect_look_inv {A} (sel : heap -> list A) ids h os h' : collect K ids (look K sel) h = (Ok os, h') -> h' = h /\ objs (sel h) ids os.
Proof.
  revert os. induction ids as [|id ids IH]; intros os E; cbn [collect] in E.
  - injection E as <- <-. split; [reflexivity|constructor].
  - unfold bindM at 1, look at 1 in E. destruct (nth_error (sel h) id) as [o|] eqn:Eo; [|discriminate].
    unfold bindM at 1 in E. destruct (collect K ids (look K sel) h) as [[l|e] h1]; [|discriminate].
    injection E as <- <-. destruct (IH l eq_refl) as (-> & F). split; [reflexivity|]. constructor; assumption.
Qed.
Lemma objs_in {A} (l : list A) ids os id : objs l ids os -> In id ids -> exists o, In o os /\ nth_error l id = Some o.
Proof.
  intros F. induction F as [|i o ids os E F IH]; intros []; [subst; exists o; split; [now left|exact E]|].
  destruct (IH H0) as (o' & A1 & A2). exists o'. split; [now right|exact A2].
Qed.
Lemma objs_in_r {A} (l : list A) ids os o : objs l ids os -> In o os -> exists id, In id ids /\ nth_error l id = Some o.
Proof.
  intros F. induction F as [|i o' ids os E F IH]; intros []; [subst; exists i; split; [now left|exact E]|].
  destruct (IH H0) as (o'' & A1 & A2). exists o''. split; [now right|exact A2].
Qed.
Lemma bind_ok {A B} (m : M K A) (f : A -> M K B) h a h' : m h = (Ok a, h') -> bindM K m f h = f a h'.
Proof. intros E. unfold bindM. now rewrite E. Qed.
Lemma bind_err {A B} (m : M K A) (f : A -> M K B) h e h' : m h = (Err e, h') -> bindM K m f h = (Err e, h').
Proof. intros E. unfold bindM. now rewrite E. Qed.
Theorem slice_fit_post sl X cache h : post sl h (slice_fit K sl X cache h).
Proof.
  unfold slice_fit. apply post_bind; [apply (pres_look K quiet (quiet_refl K))|].
  intros s h0 E _. unfold look in E. destruct (nth_error (h_sl K h) sl) as [s'|] eqn:Es; [|discriminate]. injection E as -> <-.
  destruct (nonempty (sl_i s)) eqn:Ni; cbn [negb]; [|apply post_err, quiet_refl].
  destruct (nonempty (sl_s s)) eqn:Ns; cbn [negb]; [|apply post_err, quiet_refl].
  set (c := match cache with Some c => c | None => X end).
  apply post_bind; [apply quiet_select_sample|]. intros idx h1 _ Q1.
  apply post_bind; [apply quiet_fit_preps|]. intros Y h2 _ Q2.
  apply post_bind; [apply (pres_forM K quiet (quiet_refl K) (quiet_trans K)); intros; apply (quiet_fit_iss K W)|]. intros _ h3 _ Q3.
  assert (Q : quiet h h3) by (eapply quiet_trans; [eapply quiet_trans; eassumption|eassumption]). clear Q1 Q2 Q3.
  assert (Es3 : nth_error (h_sl K h3) sl = Some s) by (rewrite (proj1 (proj2 Q)); exact Es).
  apply post_bind; [apply (pres_collect K quiet (quiet_refl K) (quiet_trans K)); intros; apply (pres_look K quiet (quiet_refl K))|].
  intros svs h4 Ec _. destruct (collect_look_inv _ _ _ _ _ Ec) as (-> & O). clear Ec.
  assert (L3 : sl < length (h_sl K h3)) by (apply nth_error_Some; congruence).
  destruct (existsb (s_requires K) svs) eqn:Er; cbn [negb].
  - intros Wf. pose proof (proj1 Wf sl s Es3) as Ws.
    assert (Nd : needs h3 s).
    { apply existsb_exists in Er as (o & Ho & Hr). destruct (objs_in_r _ _ _ _ O Ho) as (id & Hi & Hn). exists id, o. auto. }
    rewrite (bind_ok _ _ _ _ _ (upd_sl_ok h3 sl _ s Es3)). set (h5 := put_sl h3 sl (with_ext [] s)).
    assert (Wf5 : wf h5).
    { apply wf_put; [exact Wf|]. destruct Ws as (V & N & F). split; [|split].
      - destruct V as (V1 & V2 & V3 & V4). repeat split; cbn; auto. intros row id [].
      - intros C. now destruct C.
      - intros C. destruct (F C) as (F1 & F2 & _). split; [assumption|split; [assumption|intros row []]]. }
    assert (R5 : fitR sl h3 h5) by (apply (fitR_put h3 sl s); auto).
    assert (E5 : nth_error (h_sl K h5) sl = Some (with_ext [] s)) by (unfold h5; rewrite put_nth, Nat.eqb_refl by exact L3; reflexivity).
    assert (Fl5 : flag h5 sl = flag h3 sl) by (unfold flag; rewrite E5, Es3; reflexivity).
    pose proof (pres_collect K quiet (quiet_refl K) (quiet_trans K) (sl_i s) (look K (h_i K)) (fun a _ => pres_look K quiet (quiet_refl K) _ a) h5) as Q6.
    destruct (collect K (sl_i s) (look K (h_i K)) h5) as [[is|e] h6] eqn:E6; cbn [snd] in Q6.
    2:{ rewrite (bind_err _ _ _ _ _ E6). cbn [fst snd]. split; [eapply wf_quiet; eassumption|]. split; [eapply fitR_trans; [exact R5|exact (fitR_quiet sl _ _ Q6)]|].
        rewrite <- Fl5. unfold flag. now rewrite (proj1 (proj2 Q6)). }
    rewrite (bind_ok _ _ _ _ _ E6).
    destruct (collect_look_inv _ _ _ _ _ E6) as (-> & _). clear E6 Q6.
    pose proof (fit_ext_R c sl (sl_s s) (iterate_iss K is Y) h5) as R6.
    destruct (fit_ext K c sl (sl_s s) (iterate_iss K is Y) h5) as [x h6] eqn:E6. cbn [snd] in R6.
    assert (R6' : extR sl h5 h6).
    { refine (R6 _ _); [exact (proj1 (proj2 (proj2 (proj1 Ws))))|]. intros s0 Hs0. rewrite E5 in Hs0. injection Hs0 as <-. reflexivity. }
    clear R6. destruct R6' as (G6 & F6 & L6 & S6).
    assert (V5 : valid h5 (with_ext [] s)) by (apply (proj1 Wf5 sl); exact E5).
    destruct (S6 sl _ E5 V5) as (rows & Hs6 & _ & Rok). cbn [sl_ext with_ext] in Hs6. cbn [app] in Hs6. cbn [sl_s with_ext] in Rok.
    assert (Ns6 : needs h6 s) by (eapply needs_grow; [exact G6|]; exact Nd).
    assert (Wf6 : wf h6).
    { split.
      - intros j s0 Hj. assert (Lj : j < length (h_sl K h5)) by (rewrite <- L6; apply nth_error_Some; congruence).
        destruct (nth_error (h_sl K h5) j) as [s1|] eqn:E1; [|apply nth_error_None in E1; lia].
        pose proof (proj1 Wf5 j s1 E1) as W1.
        destruct (Nat.eq_dec j sl) as [->|Hn].
        + assert (s0 = with_ext rows s) by (rewrite Hs6 in Hj; injection Hj as <-; reflexivity). subst s0.
          destruct (wf_slice_grow _ _ _ G6 W1) as (V & N & F). assert (s1 = with_ext [] s) by congruence. subst s1.
          split; [|split].
          * destruct V as (V1 & V2 & V3 & V4). repeat split; cbn; auto. intros row id Hr Hid. apply (Rok row Hr). exact Hid.
          * intros _. exact Ns6.
          * intros C. destruct (F C) as (F1 & F2 & _). split; [assumption|split; [assumption|exact Rok]].
        + destruct (S6 j s1 E1 (proj1 W1)) as (r & Hr & Nr & _). rewrite (Nr Hn), with_ext_same in Hr.
          assert (s0 = s1) by congruence. subst s0. eapply wf_slice_grow; eassumption.
      - intros j f Hj. rewrite F6 in Hj. pose proof (proj2 Wf5 j f Hj) as Wj. unfold wf_fruit in *. now rewrite L6. }
    assert (R6 : fitR sl h5 h6).
    { split; [exact G6|]. split; [exact F6|]. split; [exact L6|]. intros j s1 Hj.
      destruct (S6 j s1 Hj (proj1 (proj1 Wf5 j s1 Hj))) as (r & Hr & Nr & _). exists (with_ext (sl_ext s1 ++ r) s1).
      split; [exact Hr|]. split; [intros Hn; rewrite (Nr Hn); apply with_ext_same|]. cbn. auto. }
    assert (Fl6 : flag h6 sl = flag h5 sl) by (unfold flag; rewrite Hs6, E5; reflexivity).
    destruct x as [[]|e]; [rewrite (bind_ok _ _ _ _ _ E6)|rewrite (bind_err _ _ _ _ _ E6)]; cbn [fst snd].
    + rewrite (upd_sl_ok h6 sl _ _ Hs6). cbn [fst snd]. split; [|split].
      * apply wf_put; [exact Wf6|]. destruct (proj1 Wf6 sl _ Hs6) as (V & N & _). split; [exact V|]. split; [exact N|].
        intros _. cbn. destruct (sl_i s); [discriminate|]. destruct (sl_s s); [discriminate|]. split; [discriminate|split; [discriminate|exact Rok]].
      * eapply fitR_trans; [exact R5|]. eapply fitR_trans; [exact R6|]. apply (fitR_put h6 sl (with_ext rows s)); auto.
      * unfold flag. rewrite put_nth, Nat.eqb_refl by (apply nth_error_Some; congruence). reflexivity.
    + split; [exact Wf6|]. split; [eapply fitR_trans; eassumption|]. congruence.
  - intros Wf. pose proof (proj1 Wf sl s Es3) as Ws. rewrite (upd_sl_ok h3 sl _ s Es3). cbn [fst snd].
    assert (Ex : sl_ext s = []).
    { destruct (sl_ext s) eqn:Ex; [reflexivity|]. exfalso. destruct Ws as (_ & N & _). rewrite Ex in N.
      destruct N as (id & o & Hi & Hn & Hr); [discriminate|]. destruct (objs_in _ _ _ _ O Hi) as (o' & Ho & Hn').
      assert (o' = o) by congruence. subst o'. assert (existsb (s_requires K) svs = true) by (apply existsb_exists; eauto). congruence. }
    split; [|split].
    + apply wf_put; [exact Wf|]. destruct Ws as (V & N & _). split; [exact V|]. split; [exact N|].
      intros _. cbn. rewrite Ex. destruct (sl_i s); [discriminate|]. destruct (sl_s s); [discriminate|]. split; [discriminate|split; [discriminate|intros row []]].
    + apply (fitR_put h3 sl s); auto.
    + unfold flag. rewrite put_nth, Nat.eqb_refl by exact L3. reflexivity.
Qed.
End Fit.
