(** Two fits of the same slice with different caches (C34). *)
From Coq Require Import Ascii String List Arith ZArith Bool RelationClasses Lia.
From Verif Require Import Num Arr M_Str M_Np M_Fruit S_Fruit L_Arr L_Fruit L_Fruit3 L_Fruit10.
Import ListNotations.

Section TwoFits.
Context {T : Type} `{Num T}.
Variable K : kit T.
Notation heap := (heap K).
Variable W : lawful K.
#[local] Instance eqI_E : Equivalence (eqI K W) := eqI_equiv K W.
Variables (LP : prepT K -> Prop) (LI : issT K -> Prop).
Variable CL : closed K LP LI (fun _ => True).
Variables (k : nat) (c c' : dataset T).

(** ISS that cannot be told apart by [k] series. *)
Definition twins (i j : issT K) : Prop := forall Y, length Y = k ->
  i_batches K i Y = i_batches K j Y /\ forall b Z, In (Ok b) (i_batches K i Y) -> In Z b -> length Z = k.
(** Fitted with [c] resp. [c'] attached on the same [k] series, seeds cannot
    be told apart afterwards. *)
Record cache_local := {
  lc_prep : forall g Y p q, LP p -> LP q -> eqP K W p q -> length Y = k ->
    let r := p_fit K g Y (p_attach K c p) in let r' := p_fit K g Y (p_attach K c' q) in
    fst (fst r) = fst (fst r') /\ snd r = snd r' /\ eqP K W (snd (fst r)) (snd (fst r')) /\
    (fst (fst r) = Ok tt ->
     fst (p_transform K Y (snd (fst r))) = fst (p_transform K Y (snd (fst r'))) /\
     eqP K W (snd (p_transform K Y (snd (fst r)))) (snd (p_transform K Y (snd (fst r')))) /\
     forall Z, fst (p_transform K Y (snd (fst r))) = Ok Z -> length Z = k);
  lc_iss : forall g Y i j, LI i -> LI j -> eqI K W i j -> length Y = k ->
    i_requires K (i_attach K c i) = i_requires K (i_attach K c' j) /\
    (i_requires K (i_attach K c i) = false -> twins (i_attach K c i) (i_attach K c' j)) /\
    let r := i_fit K g Y (i_attach K c i) in let r' := i_fit K g Y (i_attach K c' j) in
    fst (fst r) = fst (fst r') /\ snd r = snd r' /\ eqI K W (snd (fst r)) (snd (fst r')) /\
    (fst (fst r) = Ok tt -> twins (snd (fst r)) (snd (fst r')));
  lc_fit : forall g Y s t, eqS K W s t ->
    let r := s_fit K g Y (s_attach K c s) in let r' := s_fit K g Y (s_attach K c' t) in
    fst (fst r) = fst (fst r') /\ snd r = snd r' /\ eqS K W (snd (fst r)) (snd (fst r'));
  lc_copy : forall s t, eqS K W s t ->
    match s_copy K s, s_copy K t with Ok a, Ok b => eqS K W a b | Err e, Err e' => e = e' | _, _ => False end
}.
Variable LC : cache_local.

(** Related states; the ISS listed in [S0] are twins. *)
Definition hR (S0 : list nat) (h h' : heap) : Prop :=
  heq K W h h' /\ h_g K h = h_g K h' /\ all K LP LI (fun _ => True) h /\ all K LP LI (fun _ => True) h' /\
  forall id i j, In id S0 -> nth_error (h_i K h) id = Some i -> nth_error (h_i K h') id = Some j -> twins i j.
Definition rel {A B} (S0 S1 : list nat) (RA : A -> B -> Prop) (m : M K A) (m' : M K B) : Prop :=
  forall h h', hR S0 h h' ->
  match m h, m' h' with
  | (Ok a, h1), (Ok b, h1') => RA a b /\ hR S1 h1 h1'
  | (Err e, h1), (Err e', h1') => e = e' /\ heq K W h1 h1'
  | _, _ => False
  end.
Lemma rel_bind {A B A' B'} S0 S1 S2 (RA : A -> A' -> Prop) (RB : B -> B' -> Prop) m m' f f' :
  rel S0 S1 RA m m' -> (forall a a', RA a a' -> rel S1 S2 RB (f a) (f' a')) -> rel S0 S2 RB (bindM K m f) (bindM K m' f').
Proof.
  intros Hm Hf h h' Hh. specialize (Hm h h' Hh). unfold bindM. destruct (m h) as [[a|e] h1], (m' h') as [[a'|e'] h1']; try contradiction.
  - destruct Hm as (Ra & Hh1). exact (Hf a a' Ra h1 h1' Hh1).
  - exact Hm.
Qed.
Lemma rel_ret {A} S0 (a : A) : rel S0 S0 eq (ret K a) (ret K a).
Proof. intros h h' Hh. cbn. split; [reflexivity|exact Hh]. Qed.
Lemma rel_raise {A} S0 S1 e : rel S0 S1 (@eq A) (raise K e) (raise K e).
Proof. intros h h' Hh. cbn. split; [reflexivity|apply Hh]. Qed.
Lemma rel_lift {A} S0 (r : res A) : rel S0 S0 eq (liftR K r) (liftR K r).
Proof. intros h h' Hh. cbn. destruct r; (split; [reflexivity|apply Hh]). Qed.
Lemma rel_get_g S0 : rel S0 S0 eq (get_g K) (get_g K).
Proof. intros h h' Hh. cbn. split; [apply Hh|exact Hh]. Qed.
Lemma rel_set_g S0 g : rel S0 S0 eq (set_g K g) (set_g K g).
Proof. intros h h' (A1 & A2 & A3 & A4 & A5). cbn. split; [reflexivity|]. split; [exact A1|]. split; [reflexivity|]. split; [exact A3|]. split; [exact A4|exact A5]. Qed.
Lemma rel_look_sl S0 i : rel S0 S0 eq (look K (h_sl K) i) (look K (h_sl K) i).
Proof.
  intros h h' Hh. unfold look. rewrite <- (proj1 (proj1 Hh)). destruct (nth_error (h_sl K h) i); (split; [reflexivity|apply Hh]).
Qed.
Lemma rel_look_p S0 i : rel S0 S0 (fun p q => eqP K W p q /\ LP p /\ LP q) (look K (h_p K) i) (look K (h_p K) i).
Proof.
  intros h h' Hh. pose proof Hh as ((_ & _ & F & _) & _ & (A & _) & (A' & _) & _). unfold look.
  destruct (nth_error (h_p K h) i) as [p|] eqn:E.
  - destruct (Forall2_nth_error _ _ _ _ _ F E) as (q & E' & Hq). rewrite E'. split; [|exact Hh]. split; [exact Hq|].
    split; [exact (nth_Forall _ _ _ _ A E)|exact (nth_Forall _ _ _ _ A' E')].
  - destruct (nth_error (h_p K h') i) as [q|] eqn:E'; [destruct (Forall2_nth_error_r _ _ _ _ _ F E') as (p & E2 & _); congruence|]. split; [reflexivity|apply Hh].
Qed.
Lemma rel_look_i S0 i : rel S0 S0 (fun p q => eqI K W p q /\ LI p /\ LI q /\ (In i S0 -> twins p q)) (look K (h_i K) i) (look K (h_i K) i).
Proof.
  intros h h' Hh. pose proof Hh as ((_ & _ & _ & F & _) & _ & (_ & A & _) & (_ & A' & _) & Tw). unfold look.
  destruct (nth_error (h_i K h) i) as [p|] eqn:E.
  - destruct (Forall2_nth_error _ _ _ _ _ F E) as (q & E' & Hq). rewrite E'. split; [|exact Hh]. split; [exact Hq|].
    split; [exact (nth_Forall _ _ _ _ A E)|]. split; [exact (nth_Forall _ _ _ _ A' E')|]. intros Hi. exact (Tw i p q Hi E E').
  - destruct (nth_error (h_i K h') i) as [q|] eqn:E'; [destruct (Forall2_nth_error_r _ _ _ _ _ F E') as (p & E2 & _); congruence|]. split; [reflexivity|apply Hh].
Qed.
Lemma rel_look_s S0 i : rel S0 S0 (eqS K W) (look K (h_s K) i) (look K (h_s K) i).
Proof.
  intros h h' Hh. pose proof Hh as ((_ & _ & _ & _ & F) & _). unfold look.
  destruct (nth_error (h_s K h) i) as [p|] eqn:E.
  - destruct (Forall2_nth_error _ _ _ _ _ F E) as (q & E' & Hq). rewrite E'. split; [exact Hq|exact Hh].
  - destruct (nth_error (h_s K h') i) as [q|] eqn:E'; [destruct (Forall2_nth_error_r _ _ _ _ _ F E') as (p & E2 & _); congruence|]. split; [reflexivity|apply Hh].
Qed.
Lemma upd_Forall2 {A} (R : A -> A -> Prop) l l' i x y : Forall2 R l l' -> R x y -> Forall2 R (upd i x l) (upd i y l').
Proof. intros F Hxy. revert i. induction F as [|a b l l' Hab F IH]; intros [|i]; cbn; constructor; auto. Qed.
Lemma rel_set_p S0 i p q : eqP K W p q -> LP p -> LP q -> rel S0 S0 eq (set_p K i p) (set_p K i q).
Proof.
  intros E Lp Lq h h' ((B1 & B2 & B3 & B4 & B5) & A2 & (A3 & A4) & (A5 & A6) & A7). cbn. split; [reflexivity|].
  split; [|split; [exact A2|split; [|split; [|exact A7]]]].
  - repeat split; cbn; auto using upd_Forall2.
  - split; [apply upd_Forall; assumption|exact A4].
  - split; [apply upd_Forall; assumption|exact A6].
Qed.
Lemma rel_set_i S0 i p q : eqI K W p q -> LI p -> LI q -> twins p q -> rel S0 (i :: S0) eq (set_i K i p) (set_i K i q).
Proof.
  intros E Lp Lq Tw h h' ((B1 & B2 & B3 & B4 & B5) & A2 & (A3 & A4 & A4') & (A5 & A6 & A6') & A7). cbn. split; [reflexivity|].
  split; [|split; [exact A2|split; [|split]]].
  - repeat split; cbn; auto using upd_Forall2.
  - split; [exact A3|]. split; [apply upd_Forall; assumption|exact A4'].
  - split; [exact A5|]. split; [apply upd_Forall; assumption|exact A6'].
  - cbn. intros id a b Hid Ea Eb. destruct (Nat.eq_dec i id) as [->|Hn].
    + rewrite upd_nth_error_eq in Ea, Eb.
      * injection Ea as <-. injection Eb as <-. exact Tw.
      * assert (N : nth_error (upd id q (h_i K h')) id <> None) by congruence. apply nth_error_Some in N. now rewrite upd_length in N.
      * assert (N : nth_error (upd id p (h_i K h)) id <> None) by congruence. apply nth_error_Some in N. now rewrite upd_length in N.
    + rewrite upd_nth_error_neq in Ea, Eb by exact Hn. destruct Hid as [->|Hid]; [congruence|]. exact (A7 id a b Hid Ea Eb).
Qed.
Lemma rel_set_i_err i p q h h' S0 : eqI K W p q -> hR S0 h h' -> heq K W (snd (set_i K i p h)) (snd (set_i K i q h')).
Proof. intros E ((B1 & B2 & B3 & B4 & B5) & _). repeat split; cbn; auto using upd_Forall2. Qed.
Lemma all_set_s h i s : all K LP LI (fun _ => True) h -> all K LP LI (fun _ => True) (snd (set_s K i s h)).
Proof. intros (A1 & A2 & A3). repeat split; cbn; auto. apply upd_Forall; [exact A3|exact Logic.I]. Qed.
Lemma rel_set_s S0 i p q : eqS K W p q -> rel S0 S0 eq (set_s K i p) (set_s K i q).
Proof.
  intros E h h' ((B1 & B2 & B3 & B4 & B5) & A2 & A3 & A5 & A7). cbn. split; [reflexivity|].
  split; [|split; [exact A2|split; [exact (all_set_s h i p A3)|split; [exact (all_set_s h' i q A5)|exact A7]]]].
  repeat split; cbn; auto using upd_Forall2.
Qed.
Lemma rel_new_s S0 p q : eqS K W p q -> rel S0 S0 eq (new_s K p) (new_s K q).
Proof.
  intros E h h' ((B1 & B2 & B3 & B4 & B5) & A2 & (A3 & A4 & A4') & (A5 & A6 & A6') & A7). cbn. split; [exact (Forall2_len _ _ _ B5)|].
  split; [|split; [exact A2|split; [|split; [|exact A7]]]].
  - repeat split; cbn; auto. apply Forall2_app; auto.
  - split; [exact A3|split; [exact A4|]]. cbn. apply Forall_app; auto.
  - split; [exact A5|split; [exact A6|]]. cbn. apply Forall_app; auto.
Qed.
Lemma rel_upd_sl S0 i f : rel S0 S0 eq (upd_sl K i f) (upd_sl K i f).
Proof.
  unfold upd_sl. eapply rel_bind; [apply rel_look_sl|]. intros s s' <-.
  intros h h' ((B1 & B2 & B3 & B4 & B5) & A2 & A3 & A5 & A7). cbn. split; [reflexivity|].
  split; [|split; [exact A2|split; [exact A3|split; [exact A5|exact A7]]]]. repeat split; cbn; auto. now rewrite B1.
Qed.
Lemma rel_forM {A} S0 (l : list A) f f' : (forall a, In a l -> rel S0 S0 eq (f a) (f' a)) -> rel S0 S0 eq (forM K l f) (forM K l f').
Proof.
  induction l as [|x l IH]; intros E; cbn [forM]; [apply rel_ret|].
  eapply rel_bind; [apply E; now left|]. intros _ _ _. apply IH. intros a Ha. apply E. now right.
Qed.
Lemma rel_collect {A B B'} S0 (l : list A) (f : A -> M K B) (f' : A -> M K B') R : (forall a, In a l -> rel S0 S0 R (f a) (f' a)) ->
  rel S0 S0 (Forall2 R) (collect K l f) (collect K l f').
Proof.
  induction l as [|x l IH]; intros E; cbn [collect].
  - intros h h' Hh. split; [constructor|exact Hh].
  - eapply rel_bind; [apply E; now left|]. intros y y' Hy. eapply rel_bind; [apply IH; intros a Ha; apply E; now right|].
    intros ys ys' Hys h h' Hh. split; [now constructor|exact Hh].
Qed.

Lemma rel_fit_preps S0 ids : forall Y, length Y = k ->
  rel S0 S0 (fun Y Y' => Y = Y' /\ length Y = k) (fit_preps K c ids Y) (fit_preps K c' ids Y).
Proof.
  induction ids as [|id ids IH]; intros Y Ly; cbn [fit_preps].
  - intros h h' Hh. split; [auto|exact Hh].
  - eapply rel_bind; [apply rel_look_p|]. intros p q (Epq & Lp & Lq). eapply rel_bind; [apply rel_get_g|]. intros g g' <-.
    pose proof (lc_prep LC g Y p q Lp Lq Epq Ly) as D. cbn zeta in D.
    pose proof (cl_pf K _ _ _ CL g Y _ (cl_pa K _ _ _ CL c p Lp)) as Lp1. pose proof (cl_pf K _ _ _ CL g Y _ (cl_pa K _ _ _ CL c' q Lq)) as Lq1.
    destruct (p_fit K g Y (p_attach K c p)) as [[x p1] g1], (p_fit K g Y (p_attach K c' q)) as [[x' q1] g1']. cbn [fst snd] in D, Lp1, Lq1.
    destruct D as (<- & <- & E1 & Tr).
    eapply rel_bind; [apply rel_set_p; assumption|]. intros _ _ _. eapply rel_bind; [apply rel_set_g|]. intros _ _ _.
    eapply (rel_bind _ S0 _ (fun _ _ => x = Ok tt)).
    { intros h h' Hh. cbn. destruct x as [[]|e]; (split; [reflexivity|apply Hh]). }
    intros _ _ Ex. destruct (Tr Ex) as (E2 & E3 & E4).
    pose proof (cl_pt K _ _ _ CL Y _ Lp1) as Lp2. pose proof (cl_pt K _ _ _ CL Y _ Lq1) as Lq2.
    destruct (p_transform K Y p1) as [y p2], (p_transform K Y q1) as [y' q2]. cbn [fst snd] in *. subst y'.
    eapply rel_bind; [apply rel_set_p; assumption|]. intros _ _ _.
    eapply (rel_bind _ S0 _ (fun Z Z' => Z = Z' /\ length Z = k)).
    { intros h h' Hh. cbn. destruct y as [Z|e]; [split; [split; [reflexivity|now apply E4]|exact Hh]|split; [reflexivity|apply Hh]]. }
    intros Z Z' (<- & Lz). now apply IH.
Qed.
Lemma rel_fit_iss S0 Y id : length Y = k -> rel S0 (id :: S0) eq (fit_iss K c Y id) (fit_iss K c' Y id).
Proof.
  intros Ly. unfold fit_iss. eapply rel_bind; [apply rel_look_i|]. intros i j (Eij & Li & Lj & _). eapply rel_bind; [apply rel_get_g|]. intros g g' <-.
  destruct (lc_iss LC g Y i j Li Lj Eij Ly) as (R1 & R2 & D). cbn zeta in D. rewrite <- R1.
  pose proof (cl_ia K _ _ _ CL c i Li) as Li0. pose proof (cl_ia K _ _ _ CL c' j Lj) as Lj0.
  destruct (i_requires K (i_attach K c i)).
  - pose proof (cl_if K _ _ _ CL g Y _ Li0) as Li1. pose proof (cl_if K _ _ _ CL g Y _ Lj0) as Lj1.
    destruct (i_fit K g Y (i_attach K c i)) as [[x i1] g1], (i_fit K g Y (i_attach K c' j)) as [[x' j1] g1']. cbn [fst snd] in *.
    destruct D as (<- & <- & E1 & Tw). destruct x as [[]|e].
    + eapply rel_bind; [apply rel_set_i; auto|]. intros _ _ _. eapply rel_bind; [apply rel_set_g|]. intros _ _ _. apply rel_lift.
    + intros h h' Hh. cbn. split; [reflexivity|]. pose proof (rel_set_i_err id i1 j1 h h' S0 E1 Hh) as G. exact G.
  - apply rel_set_i; auto. etransitivity; [apply (eqI_attach K W)|]. etransitivity; [exact Eij|]. symmetry. apply (eqI_attach K W).
Qed.
Lemma rel_fit_isss Y ids : length Y = k -> forall S0, rel S0 (rev ids ++ S0) eq (forM K ids (fit_iss K c Y)) (forM K ids (fit_iss K c' Y)).
Proof.
  intros Ly. induction ids as [|id ids IH]; intros S0; cbn [forM]; [apply rel_ret|].
  eapply rel_bind; [now apply rel_fit_iss|]. intros _ _ _. cbn [rev]. rewrite <- app_assoc. apply IH.
Qed.
Lemma iterate_twins is js : Forall2 twins is js -> forall Y, length Y = k -> iterate_iss K is Y = iterate_iss K js Y.
Proof.
  induction 1 as [|i j is js Tw F IH]; intros Y Ly; [reflexivity|]. cbn [iterate_iss]. destruct (Tw Y Ly) as (<- & Rows).
  revert Rows. generalize (i_batches K i Y). intros l Rows. induction l as [|b l IHl]; [reflexivity|]. cbn [flat_map]. f_equal.
  - destruct b as [b|e]; [|reflexivity]. assert (Rb : forall Z, In Z b -> length Z = k) by (intros Z HZ; exact (Rows b Z (or_introl eq_refl) HZ)).
    clear - Rb IH. induction b as [|Z b IHb]; [reflexivity|]. cbn [flat_map]. f_equal; [|apply IHb; intros; apply Rb; now right].
    apply IH. rewrite map_length. apply Rb. now left.
  - apply IHl. intros b0 Z Hb. apply Rows. now right.
Qed.
Lemma rel_fit_sieve S0 Y id : rel S0 S0 eq (fit_sieve K c Y id) (fit_sieve K c' Y id).
Proof.
  unfold fit_sieve. eapply rel_bind; [apply rel_look_s|]. intros s t Est. eapply rel_bind; [apply rel_get_g|]. intros g g' <-.
  pose proof (lc_fit LC g Y s t Est) as D. cbn zeta in D.
  destruct (s_fit K g Y (s_attach K c s)) as [[x s1] g1], (s_fit K g Y (s_attach K c' t)) as [[x' t1] g1']. cbn [fst snd] in D. destruct D as (<- & <- & E1).
  eapply rel_bind; [now apply rel_set_s|]. intros _ _ _. eapply rel_bind; [apply rel_set_g|]. intros _ _ _. apply rel_lift.
Qed.
Lemma rel_copy_sieve S0 id : rel S0 S0 eq (copy_sieve K id) (copy_sieve K id).
Proof.
  unfold copy_sieve. eapply rel_bind; [apply rel_look_s|]. intros s t Est. pose proof (lc_copy LC s t Est) as D.
  eapply (rel_bind _ S0 _ (eqS K W)); [|intros a b Eab; now apply rel_new_s].
  intros h h' Hh. cbn. destruct (s_copy K s) as [a|e], (s_copy K t) as [b|e']; try contradiction; (split; [exact D|apply Hh]).
Qed.
Lemma Forall2_eq {A} (l l' : list A) : Forall2 eq l l' -> l = l'.
Proof. induction 1; congruence. Qed.
Lemma rel_fit_ext S0 sl svs its : rel S0 S0 eq (fit_ext K c sl svs its) (fit_ext K c' sl svs its).
Proof.
  induction its as [|[Y|e] its IH]; cbn [fit_ext]; [apply rel_ret| |apply rel_raise].
  eapply rel_bind; [apply rel_collect; intros; apply rel_copy_sieve|]. intros ids ids' E. apply Forall2_eq in E as <-.
  eapply rel_bind; [apply rel_forM; intros; apply rel_fit_sieve|]. intros _ _ _. eapply rel_bind; [apply rel_upd_sl|]. intros _ _ _. exact IH.
Qed.
Lemma rel_select S0 size n : rel S0 S0 eq (select_sample K size n) (select_sample K size n).
Proof.
  unfold select_sample. eapply rel_bind; [apply rel_get_g|]. intros g g' <-. destruct size as [|f].
  - destruct (n =? 0); [apply rel_raise|]. destruct (k_randint K g n). eapply rel_bind; [apply rel_set_g|]. intros; apply rel_ret.
  - destruct (n <? Nat.max (f n) 1); [apply rel_raise|]. destruct (k_choice K g n (Nat.max (f n) 1)). eapply rel_bind; [apply rel_set_g|]. intros; apply rel_ret.
Qed.
Lemma rel_weaken S0 {A} (RA : A -> A -> Prop) m m' : rel S0 S0 RA m m' -> forall h h', hR S0 h h' ->
  (forall a h1, m h = (Ok a, h1) -> exists h1', hR S0 h1 h1' /\ exists a', m' h' = (Ok a', h1') /\ RA a a').
Proof. intros Hm h h' Hh a h1 E. specialize (Hm h h' Hh). rewrite E in Hm. destruct (m' h') as [[a'|e'] h1']; [|contradiction]. exists h1'. split; [apply Hm|]. exists a'. split; [reflexivity|apply Hm]. Qed.

(** The two fits. *)
Lemma two_fits h sl X :
  all K LP LI (fun _ => True) h ->
  (forall s idx h1, nth_error (h_sl K h) sl = Some s -> select_sample K (sl_sample s) (length X) h = (Ok idx, h1) -> length idx = k) ->
  fst (slice_fit K sl X (Some c) h) = fst (slice_fit K sl X (Some c') h) /\
  heq K W (snd (slice_fit K sl X (Some c) h)) (snd (slice_fit K sl X (Some c') h)).
Proof.
  intros Ha Hk. assert (H0 : hR [] h h).
  { split; [apply heq_refl|]. split; [reflexivity|]. split; [exact Ha|]. split; [exact Ha|]. intros id i j []. }
  unfold slice_fit. destruct (nth_error (h_sl K h) sl) as [s|] eqn:Es.
  2:{ rewrite !(bind_err K _ _ h AttributeError h) by (unfold look; now rewrite Es). split; [reflexivity|apply heq_refl]. }
  rewrite !(bind_ok K _ _ h s h) by (unfold look; now rewrite Es).
  destruct (negb (nonempty (sl_i s))); [split; [reflexivity|apply heq_refl]|]. destruct (negb (nonempty (sl_s s))); [split; [reflexivity|apply heq_refl]|].
  specialize (Hk s). pose proof (rel_select [] (sl_sample s) (length X) h h H0) as Rs.
  destruct (select_sample K (sl_sample s) (length X) h) as [[idx|e] h1] eqn:Esel.
  2:{ rewrite !(bind_err K _ _ h e h1) by exact Esel. split; [reflexivity|apply Rs]. }
  specialize (Hk idx h1 eq_refl eq_refl). destruct Rs as (_ & H1). rewrite !(bind_ok K _ _ h idx h1) by exact Esel.
  match goal with |- fst (?m h1) = fst (?m' h1) /\ _ => assert (R : rel [] (rev (sl_i s) ++ []) eq m m') end.
  { eapply rel_bind; [apply rel_fit_preps; now rewrite map_length|]. intros Y Y' (<- & Ly).
    eapply rel_bind; [now apply rel_fit_isss|]. intros _ _ _. eapply rel_bind; [apply rel_collect; intros; apply rel_look_s|].
    intros svs svs' Fs. assert (Er : existsb (s_requires K) svs = existsb (s_requires K) svs').
    { clear - Fs. induction Fs as [|a b l l' Hab F IH]; [reflexivity|]. cbn. now rewrite IH, (eqS_requires K W a b Hab). }
    rewrite <- Er. destruct (negb (existsb (s_requires K) svs)); [apply rel_upd_sl|].
    eapply rel_bind; [apply rel_upd_sl|]. intros _ _ _.
    eapply (rel_bind _ (rev (sl_i s) ++ []) _ (Forall2 twins)).
    { apply rel_collect. intros id Hid. intros g g' Hg. pose proof (rel_look_i _ id g g' Hg) as G.
      destruct (look K (h_i K) id g) as [[i|e] g1], (look K (h_i K) id g') as [[j|e'] g1']; try exact G.
      destruct G as ((_ & _ & _ & G) & G2). split; [|exact G2]. apply G. apply in_app_iff. left. apply -> in_rev. exact Hid. }
    intros is js Fi. rewrite (iterate_twins is js Fi Y Ly).
    eapply rel_bind; [apply rel_fit_ext|]. intros _ _ _. apply rel_upd_sl. }
  specialize (R h1 h1 H1). match goal with |- fst (?m h1) = fst (?m' h1) /\ _ => destruct (m h1) as [[[]|e] h2], (m' h1) as [[[]|e'] h2'] end; cbn [fst snd]; try contradiction.
  - split; [reflexivity|]. apply R.
  - destruct R as (-> & R). split; [reflexivity|exact R].
Qed.
End TwoFits.
