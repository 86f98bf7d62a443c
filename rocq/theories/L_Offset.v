(** Lemmas for C100: two runs of fit and transform on related inputs. *)
From Coq Require Import Ascii String List Arith ZArith Bool Lia.
From Verif Require Import Num Arr L_Arr M_Str M_Np M_Prep M_Cache M_Fruit.
Import ListNotations.

Lemma F2_nth {A B} (R : A -> B -> Prop) l l' i : Forall2 R l l' ->
  match nth_error l i, nth_error l' i with Some a, Some b => R a b | None, None => True | _, _ => False end.
Proof. intros F. revert i. induction F; intros [|i]; cbn; auto. apply IHF. Qed.
Lemma F2_upd {A B} (R : A -> B -> Prop) l l' i a b : Forall2 R l l' -> R a b -> Forall2 R (upd i a l) (upd i b l').
Proof. intros F Hab. revert i. induction F; intros [|i]; cbn; constructor; auto. Qed.
Lemma F2_app {A B} (R : A -> B -> Prop) l l' a b : Forall2 R l l' -> R a b -> Forall2 R (l ++ [a]) (l' ++ [b]).
Proof. intros F Hab. apply Forall2_app; auto. Qed.
Lemma F2_refl {A} (R : A -> A -> Prop) l : (forall a, R a a) -> Forall2 R l l.
Proof. intros E. induction l; constructor; auto. Qed.
Lemma F2_length {A B} (R : A -> B -> Prop) l l' : Forall2 R l l' -> length l = length l'.
Proof. induction 1; cbn; congruence. Qed.
Lemma nth_upd_other {A} i j (v : A) l : i <> j -> nth_error (upd i v l) j = nth_error l j.
Proof. revert i j. induction l as [|x l IH]; intros [|i] [|j] E; cbn; auto; try congruence. Qed.
Lemma nth_upd_same {A} i (v x : A) l : nth_error l i = Some x -> nth_error (upd i v l) i = Some v.
Proof. revert i. induction l as [|y l IH]; intros [|i] E; cbn in *; try discriminate; auto. Qed.

Section Sim.
Context {T : Type} {N : Num T} (K : kit T).
Variables (Rp : prepT K -> prepT K -> Prop) (Ri : issT K -> issT K -> Prop) (Rs : sieveT K -> sieveT K -> Prop).
Variables (Rc Rx : dataset T -> dataset T -> Prop) (FP : prepT K -> Prop).
Definition same {A} (R : A -> A -> Prop) (x y : res A) : Prop :=
  match x, y with Ok a, Ok b => R a b | Err e, Err e' => e = e' | _, _ => False end.
Definition fit3 {O} (R : O -> O -> Prop) (x y : res unit * O * rng K) : Prop :=
  fst (fst x) = fst (fst y) /\ R (snd (fst x)) (snd (fst y)) /\ snd x = snd y.
Definition run2 {A O} (R : O -> O -> Prop) (x y : res A * O) : Prop := fst x = fst y /\ R (snd x) (snd y).
Record kit_sim : Prop := {
  ks_pa : forall c c' p p', Rc c c' -> Rp p p' -> Rp (p_attach K c p) (p_attach K c' p');
  ks_ia : forall c c' p p', Rc c c' -> Ri p p' -> Ri (i_attach K c p) (i_attach K c' p');
  ks_sa : forall c c' p p', Rc c c' -> Rs p p' -> Rs (s_attach K c p) (s_attach K c' p');
  ks_pf : forall g X p p', Rp p p' -> fit3 Rp (p_fit K g X p) (p_fit K g X p');
  ks_if : forall g X p p', Ri p p' -> fit3 Ri (i_fit K g X p) (i_fit K g X p');
  ks_sf : forall g X p p', Rs p p' -> fit3 Rs (s_fit K g X p) (s_fit K g X p');
  ks_pt : forall X p p', Rp p p' -> run2 Rp (p_transform K X p) (p_transform K X p');
  ks_st : forall X p p', Rs p p' -> run2 Rs (s_transform K X p) (s_transform K X p');
  ks_ir : forall p p', Ri p p' -> i_requires K p = i_requires K p';
  ks_sr : forall p p', Rs p p' -> s_requires K p = s_requires K p';
  ks_ib : forall p p' X, Ri p p' -> i_batches K p X = i_batches K p' X;
  ks_in : forall p p', Ri p p' -> i_n K p = i_n K p';
  ks_sn : forall p p', Rs p p' -> s_nf K p = s_nf K p';
  ks_sc : forall p p', Rs p p' -> same Rs (s_copy K p) (s_copy K p');
  (* a preparateur that does not see the difference between related arrays *)
  ks_fa : forall c p, FP p -> FP (p_attach K c p);
  ks_ff : forall g X p, FP p -> FP (snd (fst (p_fit K g X p)));
  ks_ft : forall X p, FP p -> FP (snd (p_transform K X p));
  ks_1f : forall g X X' p p', FP p -> Rp p p' -> Rx X X' -> fit3 Rp (p_fit K g X p) (p_fit K g X' p');
  ks_1t : forall X X' p p', FP p -> Rp p p' -> Rx X X' -> run2 Rp (p_transform K X p) (p_transform K X' p');
  ks_len : forall X X', Rx X X' -> length X = length X';
  ks_nth : forall X X' l, Rx X X' -> Rx (map (fun i => nth i X []) l) (map (fun i => nth i X' []) l);
  ks_rc : forall X X', Rx X X' -> Rc X X'
}.
Hypothesis KS : kit_sim.
(** The fruit [f0], its slices (among [SL]) and the first preparateurs of the slices (among [F]). *)
Variables (f0 : nat) (SL F : list nat).
Definition firsts_ok (h : heap K) : Prop :=
  (forall x, nth_error (h_fr K h) f0 = Some x -> incl (f_slices x) SL) /\
  (forall sl s, In sl SL -> nth_error (h_sl K h) sl = Some s -> exists id r, sl_p s = id :: r /\ In id F) /\
  (forall id p, In id F -> nth_error (h_p K h) id = Some p -> FP p).
Record HR (h h' : heap K) : Prop := {
  hr_p : Forall2 Rp (h_p K h) (h_p K h');
  hr_i : Forall2 Ri (h_i K h) (h_i K h');
  hr_s : Forall2 Rs (h_s K h) (h_s K h');
  hr_sl : h_sl K h = h_sl K h';
  hr_fr : h_fr K h = h_fr K h';
  hr_g : h_g K h = h_g K h';
  hr_log : h_log K h = h_log K h';
  hr_1 : firsts_ok h
}.
Definition MR {A} (R : A -> A -> Prop) (m m' : M K A) : Prop := forall h h', HR h h' ->
  match m h, m' h' with
  | (Ok a, k), (Ok a', k') => R a a' /\ HR k k'
  | (Err e, k), (Err e', k') => e = e' /\ HR k k'
  | _, _ => False
  end.
Notation "x <- m ;; k" := (bindM K m (fun x => k)) (at level 100, m at next level, right associativity).
Notation "m ;;; k" := (bindM K m (fun _ => k)) (at level 100, right associativity).
Lemma MR_ret {A} (R : A -> A -> Prop) a a' : R a a' -> MR R (ret K a) (ret K a').
Proof. intros E h h' H. split; assumption. Qed.
Lemma MR_raise {A} (R : A -> A -> Prop) e : MR R (raise K e) (raise K e).
Proof. intros h h' H. split; auto. Qed.
Lemma MR_bind {A B} (R : A -> A -> Prop) (Q : B -> B -> Prop) m m' f f' : MR R m m' -> (forall a a', R a a' -> MR Q (f a) (f' a')) -> MR Q (bindM K m f) (bindM K m' f').
Proof.
  intros E1 E2 h h' H. unfold bindM. specialize (E1 h h' H). destruct (m h) as [[a|e] k], (m' h') as [[a'|e'] k']; try contradiction; [|assumption].
  destruct E1 as [Ha Hk]. exact (E2 a a' Ha k k' Hk).
Qed.
Lemma MR_lift {A} (r : res A) : MR eq (liftR K r) (liftR K r).
Proof. intros h h' H. unfold liftR. destruct r; auto. Qed.
Lemma MR_lift2 {A} (R : A -> A -> Prop) r r' : same R r r' -> MR R (liftR K r) (liftR K r').
Proof. intros E h h' H. unfold liftR. destruct r, r'; cbn in E; try contradiction; auto. Qed.
Lemma MR_p id : MR (fun p p' => Rp p p' /\ (In id F -> FP p)) (look K (h_p K) id) (look K (h_p K) id).
Proof.
  intros h h' H. unfold look. pose proof (F2_nth Rp _ _ id (hr_p _ _ H)) as E. destruct (nth_error (h_p K h) id) as [p|] eqn:Ep, (nth_error (h_p K h') id) as [p'|]; try contradiction; [|auto].
  split; [|assumption]. split; [assumption|]. intros Hi. destruct (hr_1 _ _ H) as (_ & _ & P). exact (P id p Hi Ep).
Qed.
Lemma MR_i id : MR Ri (look K (h_i K) id) (look K (h_i K) id).
Proof. intros h h' H. unfold look. pose proof (F2_nth Ri _ _ id (hr_i _ _ H)) as E. destruct (nth_error (h_i K h) id), (nth_error (h_i K h') id); try contradiction; auto. Qed.
Lemma MR_s id : MR Rs (look K (h_s K) id) (look K (h_s K) id).
Proof. intros h h' H. unfold look. pose proof (F2_nth Rs _ _ id (hr_s _ _ H)) as E. destruct (nth_error (h_s K h) id), (nth_error (h_s K h') id); try contradiction; auto. Qed.
Lemma MR_sl id : MR (fun s s' => s = s' /\ (In id SL -> exists i r, sl_p s = i :: r /\ In i F)) (look K (h_sl K) id) (look K (h_sl K) id).
Proof.
  intros h h' H. unfold look. rewrite <- (hr_sl _ _ H). destruct (nth_error (h_sl K h) id) as [s|] eqn:E; [|auto]. split; [|assumption]. split; [reflexivity|].
  intros Hi. destruct (hr_1 _ _ H) as (_ & P & _). exact (P id s Hi E).
Qed.
Lemma MR_fr : MR (fun s s' => s = s' /\ incl (f_slices s) SL) (look K (h_fr K) f0) (look K (h_fr K) f0).
Proof.
  intros h h' H. unfold look. rewrite <- (hr_fr _ _ H). destruct (nth_error (h_fr K h) f0) as [s|] eqn:E; [|auto]. split; [|assumption]. split; [reflexivity|].
  destruct (hr_1 _ _ H) as (P & _). exact (P s E).
Qed.
Ltac hr H := let a := fresh in destruct H as [Wp Wi Ws Wsl Wfr Wg Wlog W1]; constructor; cbn [h_p h_i h_s h_sl h_fr h_g h_log]; auto.
Lemma MR_set_p id v v' : Rp v v' -> (In id F -> FP v) -> MR eq (set_p K id v) (set_p K id v').
Proof.
  intros R P h h' H. split; [reflexivity|]. hr H; [now apply F2_upd|]. destruct W1 as (A & B & C). split; [|split]; cbn [h_p h_fr h_sl]; auto.
  intros id' p Hi E. destruct (Nat.eq_dec id id') as [<-|NE]; [|rewrite nth_upd_other in E by exact NE; eauto].
  destruct (nth_error (h_p K h) id) as [q|] eqn:Eq; [rewrite (nth_upd_same _ _ _ _ Eq) in E; injection E as <-; auto|].
  apply nth_error_None in Eq. assert (nth_error (upd id v (h_p K h)) id = None) by (apply nth_error_None; now rewrite upd_length). congruence.
Qed.
Lemma MR_set_i id v v' : Ri v v' -> MR eq (set_i K id v) (set_i K id v').
Proof. intros R h h' H. split; [reflexivity|]. hr H; [now apply F2_upd]. Qed.
Lemma MR_set_s id v v' : Rs v v' -> MR eq (set_s K id v) (set_s K id v').
Proof. intros R h h' H. split; [reflexivity|]. hr H; [now apply F2_upd]. Qed.
Lemma MR_set_g g : MR eq (set_g K g) (set_g K g).
Proof. intros h h' H. split; [reflexivity|]. hr H. Qed.
Lemma MR_get_g : MR eq (get_g K) (get_g K).
Proof. intros h h' H. split; [apply (hr_g _ _ H)|assumption]. Qed.
Lemma MR_emit cbs e : MR eq (emit K cbs e) (emit K cbs e).
Proof. intros h h' H. split; [reflexivity|]. hr H. congruence. Qed.
Lemma MR_new_s v v' : Rs v v' -> MR eq (new_s K v) (new_s K v').
Proof. intros R h h' H. split; [apply (F2_length _ _ _ (hr_s _ _ H))|]. hr H; [now apply F2_app]. Qed.
Lemma MR_upd_sl sl f : (forall s, sl_p (f s) = sl_p s) -> MR eq (upd_sl K sl f) (upd_sl K sl f).
Proof.
  intros E h h' H. unfold upd_sl, bindM, look. rewrite <- (hr_sl _ _ H). destruct (nth_error (h_sl K h) sl) as [s|] eqn:Es; [|auto]. split; [reflexivity|]. hr H; [congruence|].
  destruct W1 as (A & B & C). split; [|split]; cbn [h_p h_fr h_sl]; auto.
  intros sl' s' Hi E'. destruct (Nat.eq_dec sl sl') as [<-|NE]; [|rewrite nth_upd_other in E' by exact NE; eauto].
  rewrite (nth_upd_same _ _ _ _ Es) in E'. injection E' as <-. rewrite E. eauto.
Qed.
Lemma MR_upd_fr b : MR eq (upd_fr K f0 (fr_fitted b)) (upd_fr K f0 (fr_fitted b)).
Proof.
  intros h h' H. unfold upd_fr, bindM, look. rewrite <- (hr_fr _ _ H). destruct (nth_error (h_fr K h) f0) as [s|] eqn:Es; [|auto]. split; [reflexivity|]. hr H; [congruence|].
  destruct W1 as (A & B & C). split; [|split]; cbn [h_p h_fr h_sl]; auto.
  intros x E'. rewrite (nth_upd_same _ _ _ _ Es) in E'. injection E' as <-. cbn. eauto.
Qed.
Lemma MR_forM {A} (l : list A) b b' : (forall x, In x l -> MR eq (b x) (b' x)) -> MR eq (forM K l b) (forM K l b').
Proof.
  induction l as [|x l IH]; intros E; cbn [forM]; [now apply MR_ret|]. eapply MR_bind; [apply E; now left|]. intros _ _ _. apply IH. intros. apply E. now right.
Qed.
Lemma MR_collect {A B} (R : B -> B -> Prop) (l : list A) b b' : (forall x, In x l -> MR R (b x) (b' x)) -> MR (Forall2 R) (collect K l b) (collect K l b').
Proof.
  induction l as [|x l IH]; intros E; cbn [collect]; [now apply MR_ret|]. eapply MR_bind; [apply E; now left|]. intros y y' Hy.
  eapply MR_bind; [apply IH; intros; apply E; now right|]. intros ys ys' Hys. apply MR_ret. now constructor.
Qed.
Lemma MR_collect_eq {A B} (l : list A) (b b' : A -> M K B) : (forall x, In x l -> MR eq (b x) (b' x)) -> MR eq (collect K l b) (collect K l b').
Proof.
  intros E h h' H. pose proof (MR_collect eq l b b' E h h' H) as Q. destruct (collect K l b h) as [[a|e] k], (collect K l b' h') as [[a'|e'] k']; auto.
  destruct Q as [Q1 Q2]. split; [|assumption]. clear - Q1. induction Q1; congruence.
Qed.

Lemma fit_preps_sim c c' ids Y : Rc c c' -> MR eq (fit_preps K c ids Y) (fit_preps K c' ids Y).
Proof.
  intros Hc. revert Y. induction ids as [|id r IH]; intros Y; cbn [fit_preps]; [now apply MR_ret|].
  eapply MR_bind; [apply MR_p|]. intros p p' [Hp HF]. eapply MR_bind; [apply MR_get_g|]. intros g g' <-.
  pose proof (ks_pf KS g Y _ _ (ks_pa KS _ _ _ _ Hc Hp)) as Q. assert (F1 : In id F -> FP (snd (fst (p_fit K g Y (p_attach K c p))))) by (intros; apply (ks_ff KS), (ks_fa KS); auto).
  destruct (p_fit K g Y (p_attach K c p)) as [[x p1] g1], (p_fit K g Y (p_attach K c' p')) as [[x' p1'] g1']. destruct Q as (Q1 & Q2 & Q3). cbn [fst snd] in *. subst x' g1'.
  eapply MR_bind; [now apply MR_set_p|]. intros _ _ _. eapply MR_bind; [apply MR_set_g|]. intros _ _ _. eapply MR_bind; [apply MR_lift|]. intros _ _ _.
  pose proof (ks_pt KS Y _ _ Q2) as Q. assert (F2 : In id F -> FP (snd (p_transform K Y p1))) by (intros; apply (ks_ft KS); auto).
  destruct (p_transform K Y p1) as [y p2], (p_transform K Y p1') as [y' p2']. destruct Q as (Q4 & Q5). cbn [fst snd] in *. subst y'.
  eapply MR_bind; [now apply MR_set_p|]. intros _ _ _. eapply MR_bind; [apply MR_lift|]. intros Z Z' <-. apply IH.
Qed.
Lemma fit_preps_1 c c' id r Y Y' : Rc c c' -> Rx Y Y' -> In id F -> MR eq (fit_preps K c (id :: r) Y) (fit_preps K c' (id :: r) Y').
Proof.
  intros Hc HY Hid. cbn [fit_preps].
  eapply MR_bind; [apply MR_p|]. intros p p' [Hp HF]. eapply MR_bind; [apply MR_get_g|]. intros g g' <-.
  pose proof (ks_1f KS g Y Y' _ _ (ks_fa KS c p (HF Hid)) (ks_pa KS _ _ _ _ Hc Hp) HY) as Q. pose proof (ks_ff KS g Y _ (ks_fa KS c p (HF Hid))) as F1.
  destruct (p_fit K g Y (p_attach K c p)) as [[x p1] g1], (p_fit K g Y' (p_attach K c' p')) as [[x' p1'] g1']. destruct Q as (Q1 & Q2 & Q3). cbn [fst snd] in *. subst x' g1'.
  eapply MR_bind; [now apply MR_set_p|]. intros _ _ _. eapply MR_bind; [apply MR_set_g|]. intros _ _ _. eapply MR_bind; [apply MR_lift|]. intros _ _ _.
  pose proof (ks_1t KS Y Y' _ _ F1 Q2 HY) as Q. pose proof (ks_ft KS Y _ F1) as F2.
  destruct (p_transform K Y p1) as [y p2], (p_transform K Y' p1') as [y' p2']. destruct Q as (Q4 & Q5). cbn [fst snd] in *. subst y'.
  eapply MR_bind; [now apply MR_set_p|]. intros _ _ _. eapply MR_bind; [apply MR_lift|]. intros Z Z' <-. now apply fit_preps_sim.
Qed.
Lemma run_preps_sim c c' cbs ids Y : Rc c c' -> MR eq (run_preps K c cbs ids Y) (run_preps K c' cbs ids Y).
Proof.
  intros Hc. revert Y. induction ids as [|id r IH]; intros Y; cbn [run_preps]; [now apply MR_ret|].
  eapply MR_bind; [apply MR_p|]. intros p p' [Hp HF].
  pose proof (ks_pt KS Y _ _ (ks_pa KS _ _ _ _ Hc Hp)) as Q. assert (F1 : In id F -> FP (snd (p_transform K Y (p_attach K c p)))) by (intros; apply (ks_ft KS), (ks_fa KS); auto).
  destruct (p_transform K Y (p_attach K c p)) as [y p2], (p_transform K Y (p_attach K c' p')) as [y' p2']. destruct Q as (Q4 & Q5). cbn [fst snd] in *. subst y'.
  eapply MR_bind; [now apply MR_set_p|]. intros _ _ _. eapply MR_bind; [apply MR_lift|]. intros Z Z' <-. eapply MR_bind; [apply MR_emit|]. intros _ _ _. apply IH.
Qed.
Lemma run_preps_1 c c' cbs id r Y Y' : Rc c c' -> Rx Y Y' -> In id F -> MR eq (run_preps K c cbs (id :: r) Y) (run_preps K c' cbs (id :: r) Y').
Proof.
  intros Hc HY Hid. cbn [run_preps].
  eapply MR_bind; [apply MR_p|]. intros p p' [Hp HF].
  pose proof (ks_1t KS Y Y' _ _ (ks_fa KS c p (HF Hid)) (ks_pa KS _ _ _ _ Hc Hp) HY) as Q. pose proof (ks_ft KS Y _ (ks_fa KS c p (HF Hid))) as F1.
  destruct (p_transform K Y (p_attach K c p)) as [y p2], (p_transform K Y' (p_attach K c' p')) as [y' p2']. destruct Q as (Q4 & Q5). cbn [fst snd] in *. subst y'.
  eapply MR_bind; [now apply MR_set_p|]. intros _ _ _. eapply MR_bind; [apply MR_lift|]. intros Z Z' <-. eapply MR_bind; [apply MR_emit|]. intros _ _ _. now apply run_preps_sim.
Qed.
Lemma fit_iss_sim c c' Y id : Rc c c' -> MR eq (fit_iss K c Y id) (fit_iss K c' Y id).
Proof.
  intros Hc. unfold fit_iss. eapply MR_bind; [apply MR_i|]. intros p p' Hp. eapply MR_bind; [apply MR_get_g|]. intros g g' <-.
  pose proof (ks_ia KS _ _ _ _ Hc Hp) as Ha. rewrite (ks_ir KS _ _ Ha). destruct (i_requires K (i_attach K c' p')); [|now apply MR_set_i].
  pose proof (ks_if KS g Y _ _ Ha) as Q. destruct (i_fit K g Y (i_attach K c p)) as [[x p1] g1], (i_fit K g Y (i_attach K c' p')) as [[x' p1'] g1']. destruct Q as (Q1 & Q2 & Q3). cbn [fst snd] in *. subst x' g1'.
  eapply MR_bind; [now apply MR_set_i|]. intros _ _ _. eapply MR_bind; [apply MR_set_g|]. intros _ _ _. apply MR_lift.
Qed.
Lemma iterate_sim is is' : Forall2 Ri is is' -> forall X, iterate_iss K is X = iterate_iss K is' X.
Proof.
  induction 1 as [|i i' is is' Hi _ IH]; intros X; cbn [iterate_iss]; [reflexivity|]. rewrite (ks_ib KS i i' X Hi). apply flat_map_ext. intros [b|e]; [|reflexivity].
  apply flat_map_ext. intros s. apply IH.
Qed.
Lemma fit_sieve_sim c c' Y id : Rc c c' -> MR eq (fit_sieve K c Y id) (fit_sieve K c' Y id).
Proof.
  intros Hc. unfold fit_sieve. eapply MR_bind; [apply MR_s|]. intros p p' Hp. eapply MR_bind; [apply MR_get_g|]. intros g g' <-.
  pose proof (ks_sf KS g Y _ _ (ks_sa KS _ _ _ _ Hc Hp)) as Q. destruct (s_fit K g Y (s_attach K c p)) as [[x p1] g1], (s_fit K g Y (s_attach K c' p')) as [[x' p1'] g1']. destruct Q as (Q1 & Q2 & Q3). cbn [fst snd] in *. subst x' g1'.
  eapply MR_bind; [now apply MR_set_s|]. intros _ _ _. eapply MR_bind; [apply MR_set_g|]. intros _ _ _. apply MR_lift.
Qed.
Lemma copy_sieve_sim id : MR eq (copy_sieve K id) (copy_sieve K id).
Proof. unfold copy_sieve. eapply MR_bind; [apply MR_s|]. intros s s' Hs. eapply MR_bind; [apply MR_lift2, (ks_sc KS), Hs|]. intros a a' Ha. now apply MR_new_s. Qed.
Lemma fit_ext_sim c c' sl sv its : Rc c c' -> MR eq (fit_ext K c sl sv its) (fit_ext K c' sl sv its).
Proof.
  intros Hc. induction its as [|[Y|e] its IH]; cbn [fit_ext]; [now apply MR_ret| |apply MR_raise].
  eapply MR_bind; [apply MR_collect_eq; intros; apply copy_sieve_sim|]. intros ids ids' <-. eapply MR_bind; [apply MR_forM; intros; now apply fit_sieve_sim|]. intros _ _ _.
  eapply MR_bind; [now apply MR_upd_sl|]. intros _ _ _. exact IH.
Qed.
Lemma select_sim sz n : MR eq (select_sample K sz n) (select_sample K sz n).
Proof.
  unfold select_sample. eapply MR_bind; [apply MR_get_g|]. intros g g' <-. destruct sz as [|f].
  - destruct (n =? 0); [apply MR_raise|]. destruct (k_randint K g n). eapply MR_bind; [apply MR_set_g|]. intros _ _ _. now apply MR_ret.
  - destruct (n <? Nat.max (f n) 1); [apply MR_raise|]. destruct (k_choice K g n (Nat.max (f n) 1)). eapply MR_bind; [apply MR_set_g|]. intros _ _ _. now apply MR_ret.
Qed.
Lemma slice_fit_sim sl X X' c c' : In sl SL -> Rx X X' -> Rc c c' -> MR eq (slice_fit K sl X (Some c)) (slice_fit K sl X' (Some c')).
Proof.
  intros Hsl HX Hc. unfold slice_fit. eapply MR_bind; [apply MR_sl|]. intros s s' [<- HF]. destruct (HF Hsl) as (id & r & Ep & Hid).
  destruct (nonempty (sl_i s)); cbn [negb]; [|apply MR_raise]. destruct (nonempty (sl_s s)); cbn [negb]; [|apply MR_raise].
  rewrite (ks_len KS _ _ HX). eapply MR_bind; [apply select_sim|]. intros idx idx' <-.
  rewrite Ep. eapply MR_bind; [apply fit_preps_1; [exact Hc|now apply (ks_nth KS)|exact Hid]|]. intros Y Y' <-.
  eapply MR_bind; [apply MR_forM; intros; now apply fit_iss_sim|]. intros _ _ _.
  eapply MR_bind; [apply MR_collect; intros; apply MR_s|]. intros sv sv' Hsv.
  assert (E : existsb (s_requires K) sv = existsb (s_requires K) sv') by (clear - Hsv KS; induction Hsv as [|a b l l' E F IH]; cbn; [reflexivity|]; now rewrite IH, (ks_sr KS _ _ E)).
  rewrite E. destruct (existsb (s_requires K) sv'); cbn [negb]; [|now apply MR_upd_sl].
  eapply MR_bind; [now apply MR_upd_sl|]. intros _ _ _. eapply MR_bind; [apply MR_collect; intros; apply MR_i|]. intros is is' His. rewrite (iterate_sim _ _ His).
  eapply MR_bind; [now apply fit_ext_sim|]. intros _ _ _. now apply MR_upd_sl.
Qed.
Lemma nits_sim sl : MR eq (niteratedsums K sl) (niteratedsums K sl).
Proof.
  unfold niteratedsums. eapply MR_bind; [apply MR_sl|]. intros s s' [<- _].
  eapply MR_bind; [apply MR_collect_eq; intros i _; eapply MR_bind; [apply MR_i|]; intros o o' Ho; rewrite (ks_in KS _ _ Ho); apply MR_lift|].
  intros ns ns' <-. now apply MR_ret.
Qed.
Lemma nf_sim sl : MR eq (slice_nfeatures K sl) (slice_nfeatures K sl).
Proof.
  unfold slice_nfeatures. eapply MR_bind; [apply MR_sl|]. intros s s' [<- _]. eapply MR_bind.
  - unfold sum_nf. eapply MR_bind; [apply MR_collect_eq; intros i _; eapply MR_bind; [apply MR_s|]; intros o o' Ho; rewrite (ks_sn KS _ _ Ho); now apply MR_ret|].
    intros ns ns' <-. apply MR_ret. reflexivity.
  - intros a a' <-. eapply MR_bind; [apply nits_sim|]. intros n n' <-. now apply MR_ret.
Qed.
Lemma run_sieves_sim c c' cbs ids Y kA : Rc c c' -> MR eq (run_sieves K c cbs ids Y kA) (run_sieves K c' cbs ids Y kA).
Proof.
  intros Hc. revert kA. induction ids as [|id r IH]; intros kA; cbn [run_sieves]; [now apply MR_ret|].
  eapply MR_bind; [apply MR_s|]. intros p p' Hp. destruct kA as [k A]. pose proof (ks_sa KS _ _ _ _ Hc Hp) as Ha. rewrite <- (ks_sn KS _ _ Ha).
  pose proof (ks_st KS Y _ _ Ha) as Q. destruct (s_transform K Y (s_attach K c p)) as [y p2], (s_transform K Y (s_attach K c' p')) as [y' p2']. destruct Q as (Q4 & Q5). cbn [fst snd] in *. subst y'.
  eapply MR_bind; [now apply MR_set_s|]. intros _ _ _. eapply MR_bind; [apply MR_lift|]. intros Z Z' <-. eapply MR_bind; [apply MR_lift|]. intros A1 A2 <-.
  eapply MR_bind; [apply MR_emit|]. intros _ _ _. apply IH.
Qed.
Lemma run_itsums_sim c c' cbs s i its kA : Rc c c' -> MR eq (run_itsums K c cbs s i its kA) (run_itsums K c' cbs s i its kA).
Proof.
  intros Hc. revert i kA. induction its as [|[Y|e] its IH]; intros i kA; cbn [run_itsums]; [now apply MR_ret| |apply MR_raise].
  eapply MR_bind; [apply MR_emit|]. intros _ _ _. eapply (MR_bind eq).
  - destruct (nonempty (sl_ext s)); [destruct (nth_error (sl_ext s) i); [now apply MR_ret|apply MR_raise]|now apply MR_ret].
  - intros ids ids' <-. eapply MR_bind; [now apply run_sieves_sim|]. intros k k' <-. apply IH.
Qed.
Lemma slice_transform_sim sl X X' cbs c c' : In sl SL -> Rx X X' -> Rc c c' -> MR eq (slice_transform K sl X cbs (Some c)) (slice_transform K sl X' cbs (Some c')).
Proof.
  intros Hsl HX Hc. unfold slice_transform. eapply MR_bind; [apply MR_sl|]. intros s s' [<- HF]. destruct (HF Hsl) as (id & r & Ep & Hid).
  destruct (sl_fitted s); cbn [negb]; [|apply MR_raise]. rewrite Ep.
  eapply MR_bind; [now apply run_preps_1|]. intros Y Y' <-. eapply MR_bind; [apply MR_emit|]. intros _ _ _. eapply MR_bind; [apply nf_sim|]. intros nf nf' <-.
  eapply MR_bind; [apply MR_forM; intros i _; eapply MR_bind; [apply MR_i|]; intros o o' Ho; apply MR_set_i; now apply (ks_ia KS)|]. intros _ _ _.
  eapply MR_bind; [apply MR_collect; intros; apply MR_i|]. intros is is' His. rewrite (iterate_sim _ _ His).
  eapply MR_bind; [now apply run_itsums_sim|]. intros kA kA' <-. eapply MR_bind; [apply MR_emit|]. intros _ _ _. now apply MR_ret.
Qed.
Lemma run_slices_sim c c' X X' cbs ids index A : incl ids SL -> Rx X X' -> Rc c c' -> MR eq (run_slices K c X cbs ids index A) (run_slices K c' X' cbs ids index A).
Proof.
  intros Hi HX Hc. revert index A Hi. induction ids as [|sl r IH]; intros index A Hi; cbn [run_slices]; [now apply MR_ret|].
  eapply MR_bind; [apply MR_emit|]. intros _ _ _. eapply MR_bind; [apply nf_sim|]. intros k k' <-.
  eapply MR_bind; [apply slice_transform_sim; auto; apply Hi; now left|]. intros R0 R0' <-. eapply MR_bind; [apply MR_lift|]. intros A1 A2 <-. apply IH. intros x Hx. apply Hi. now right.
Qed.
Lemma fruit_fit_sim X X' : Rx X X' -> MR eq (fruit_fit K f0 X None) (fruit_fit K f0 X' None).
Proof.
  intros HX. unfold fruit_fit. eapply MR_bind; [apply MR_fr|]. intros x x' [<- Hi].
  eapply MR_bind; [apply MR_forM; intros sl Hsl; apply slice_fit_sim; auto; now apply (ks_rc KS)|]. intros _ _ _. apply MR_upd_fr.
Qed.
Lemma fruit_nf_sim : MR eq (fruit_nfeatures K f0) (fruit_nfeatures K f0).
Proof.
  unfold fruit_nfeatures. eapply MR_bind; [apply MR_fr|]. intros x x' [<- Hi]. eapply MR_bind; [apply MR_collect_eq; intros; apply nf_sim|]. intros ns ns' <-. now apply MR_ret.
Qed.
Lemma fruit_transform_sim X X' cbs : Rx X X' -> MR eq (fruit_transform K f0 X cbs None) (fruit_transform K f0 X' cbs None).
Proof.
  intros HX. unfold fruit_transform. eapply MR_bind; [apply MR_fr|]. intros x x' [<- Hi]. destruct (f_fitted x); cbn [negb]; [|apply MR_raise].
  eapply MR_bind; [apply fruit_nf_sim|]. intros n n' <-. rewrite (ks_len KS _ _ HX). eapply MR_bind; [apply run_slices_sim; auto; now apply (ks_rc KS)|]. intros A A' <-. now apply MR_ret.
Qed.
End Sim.
