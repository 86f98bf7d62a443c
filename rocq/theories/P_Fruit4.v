(** C29: copies and deep copies of slices and fruits. *)
From Coq Require Import Ascii String List Arith ZArith Bool RelationClasses Lia.
From Verif Require Import Num Arr M_Str M_Words M_Np M_Prep M_Fruit S_Fruit S_Sep L_Arr L_Fruit L_Fruit2 L_Fruit3 L_Fruit4 L_Fruit5 L_Fruit6 L_Fruit7 L_Fruit8 L_Fruit9 P_Fruit2.
Import ListNotations.

Section C29.
Context {T : Type} `{Num T}.
Variable K : kit T.
Variable W : lawful K.
Notation heap := (heap K).

(** ** What is unchanged transforms as before *)
Lemma refs_unchanged {A} (R : A -> A -> Prop) (P : nat -> bool) (l l' : list A) ids os :
  (forall id, P id -> nth_error l' id = nth_error l id) -> (forall id, In id ids -> P id) -> refs R l ids os -> refs R l' ids os.
Proof.
  intros E V F. unfold refs in *. induction F as [|id o ids os Hio F IH]; constructor.
  - destruct Hio as (x & Hx & Hr). exists x. split; [|exact Hr]. rewrite E by (apply V; now left). exact Hx.
  - apply IH. intros; apply V; now right.
Qed.
Lemma sees_unchanged Q h h' sl v : unchanged K Q h h' -> q_sl Q sl ->
  (forall s, nth_error (h_sl K h) sl = Some s -> slice_within Q s) -> sees K W h sl v -> sees K W h' sl v.
Proof.
  intros (U1 & U2 & U3 & U4 & U5) Hq Ws (s & Es & Ef & Fp & Fi & Fs & Fe). destruct (Ws s Es) as (W1 & W2 & W3 & W4).
  exists s. split; [rewrite U4 by exact Hq; exact Es|]. split; [exact Ef|].
  split; [eapply refs_unchanged; eassumption|]. split; [eapply refs_unchanged; eassumption|]. split; [eapply refs_unchanged; eassumption|].
  clear - Fe U3 W4. induction Fe as [|row os e oe F Fe IH]; [constructor|]. constructor; [|apply IH; intros row' id' Hr' Hid'; apply (W4 row' id'); [now right|exact Hid']].
  eapply refs_unchanged; [exact U3| |exact F]. intros id Hid. apply (W4 row id); [now left|exact Hid].
Qed.
Lemma evals_same {A} cbs cbs' (m m' : M K A) h h' r : evals K W cbs m h r -> evals K W cbs' m' h' r -> fst (m h) = fst (m' h').
Proof.
  destruct r as [[a evs]|e]; cbn.
  - intros (h1 & -> & _) (h2 & -> & _). reflexivity.
  - intros (h1 & ->) (h2 & ->). reflexivity.
Qed.
Lemma all_seen h ids : wf K h -> (forall sl, In sl ids -> sl < length (h_sl K h)) -> exists vs, Forall2 (sees K W h) ids vs.
Proof.
  intros Wf. induction ids as [|sl ids IH]; intros V; [exists []; constructor|]. destruct IH as (vs & F); [intros; apply V; now right|].
  destruct (nth_error (h_sl K h) sl) as [s|] eqn:Es; [|apply nth_error_None in Es; specialize (V sl (or_introl eq_refl)); lia].
  destruct (sees_exists K W h sl s Wf Es) as (v & V' & _). exists (v :: vs). constructor; assumption.
Qed.
Lemma slice_transform_same h h' sl X cbs cbs' cache : (forall v, sees K W h sl v -> sees K W h' sl v) -> wf K h -> sl < length (h_sl K h) ->
  fst (slice_transform K sl X cbs cache h) = fst (slice_transform K sl X cbs' cache h').
Proof.
  intros E Wf L. destruct (nth_error (h_sl K h) sl) as [s|] eqn:Es; [|apply nth_error_None in Es; lia].
  destruct (sees_exists K W h sl s Wf Es) as (v & V & _).
  eapply evals_same; [exact (transform_view K W h sl v X cbs cache V)|exact (transform_view K W h' sl v X cbs' cache (E v V))].
Qed.
Lemma fruit_transform_same h h' f x x' X cbs cbs' cache : wf K h ->
  nth_error (h_fr K h) f = Some x -> nth_error (h_fr K h') f = Some x' -> f_slices x' = f_slices x -> f_fitted x' = f_fitted x ->
  (forall sl v, In sl (f_slices x) -> sees K W h sl v -> sees K W h' sl v) ->
  fst (fruit_transform K f X cbs cache h) = fst (fruit_transform K f X cbs' cache h') /\
  fst (fruit_nfeatures K f h) = fst (fruit_nfeatures K f h').
Proof.
  intros Wf Ex Ex' Es Ef E. destruct (all_seen h (f_slices x) Wf (proj1 (proj2 Wf f x Ex))) as (vs & V).
  assert (V' : Forall2 (sees K W h') (f_slices x') vs).
  { rewrite Es. clear - V E. induction V as [|sl v ids vs Hv V IH]; constructor; [apply E; [now left|exact Hv]|]. apply IH. intros; apply E; [now right|assumption]. }
  split.
  - destruct (f_fitted x) eqn:Fx.
    + eapply evals_same; [exact (fruit_transform_evals K W h f x vs X cbs cache Ex Fx V)|exact (fruit_transform_evals K W h' f x' vs X cbs' cache Ex' Ef V')].
    + unfold fruit_transform. rewrite (bind_ok K _ _ h x h) by (unfold look; now rewrite Ex). rewrite (bind_ok K _ _ h' x' h') by (unfold look; now rewrite Ex').
      rewrite Fx, Ef. reflexivity.
  - rewrite (fruit_nfeatures_view K W h f x vs Ex V), (fruit_nfeatures_view K W h' f x' vs Ex' V'). reflexivity.
Qed.

(** ** Two sides *)
Definition split (Q : region) (h : heap) : Prop := exists_in K Q h /\ unreferenced K Q h /\ unreferenced K (others K Q h) h.
Lemma exec_lens h o : wf K h -> let h' := snd (exec K o h) in wf K h' /\
  length (h_p K h) <= length (h_p K h') /\ length (h_i K h) <= length (h_i K h') /\ length (h_s K h) <= length (h_s K h') /\
  length (h_sl K h) <= length (h_sl K h') /\ length (h_fr K h) <= length (h_fr K h').
Proof.
  intros Wf h'. destruct (exec_opR K W h o Wf) as (A & B & C & D & _). destruct (grow_lens _ _ _ B) as (L1 & L2 & L3). auto 10.
Qed.
Definition everything (h : heap) : region :=
  {| q_p := fun id => id <? length (h_p K h); q_i := fun id => id <? length (h_i K h); q_s := fun id => id <? length (h_s K h);
     q_sl := fun id => id <? length (h_sl K h); q_fr := fun id => id <? length (h_fr K h) |}.
Lemma andb_is a b : is_true (a && b) <-> is_true a /\ is_true b.
Proof. unfold is_true. apply andb_true_iff. Qed.
Lemma negb_is a : is_true (negb a) <-> ~ is_true a.
Proof. unfold is_true. destruct a; cbn; intuition congruence. Qed.
Lemma orb_is a b : is_true (a || b) <-> is_true a \/ is_true b.
Proof. unfold is_true. apply orb_true_iff. Qed.
Lemma ltb_is a b : is_true (a <? b) <-> a < b. Proof. apply Nat.ltb_lt. Qed.
Lemma leb_is a b : is_true (a <=? b) <-> a <= b. Proof. apply Nat.leb_le. Qed.
Ltac bools := cbn [others created union everything q_p q_i q_s q_sl q_fr] in *; cbv zeta in *;
  repeat match goal with
  | B : _ |- _ => progress rewrite ?andb_is, ?negb_is, ?orb_is, ?ltb_is, ?leb_is in B
  | |- _ => progress rewrite ?andb_is, ?negb_is, ?orb_is, ?ltb_is, ?leb_is
  end.
Lemma not_others n (q : bool) id : id < n -> ~ is_true ((id <? n) && negb q) -> is_true q.
Proof. intros L C. bools. destruct q; [reflexivity|]. exfalso. apply C. split; [assumption|discriminate]. Qed.
Lemma exists_others Q h : exists_in K (others K Q h) h.
Proof. split; [|split; [|split; [|split]]]; intros id Hid; bools; apply Hid. Qed.
(** The objects of the region refer to objects of the region only. *)
Lemma split_within Q h j s : wf K h -> split Q h -> nth_error (h_sl K h) j = Some s -> q_sl Q j -> slice_within Q s.
Proof.
  intros Wf (Ex & _ & Un) Es Hq. destruct (proj1 Wf j s Es) as ((V1 & V2 & V3 & V4) & _).
  assert (Hn : ~ q_sl (others K Q h) j) by (bools; tauto).
  destruct (proj1 Un j s Es Hn) as (A1 & A2 & A3 & A4). split; [|split; [|split]].
  - intros id Hid. eapply not_others; [exact (V1 id Hid)|exact (A1 id Hid)].
  - intros id Hid. eapply not_others; [exact (V2 id Hid)|exact (A2 id Hid)].
  - intros id Hid. eapply not_others; [exact (V3 id Hid)|exact (A3 id Hid)].
  - intros row id Hr Hid. eapply not_others; [exact (V4 row id Hr Hid)|exact (A4 row id Hr Hid)].
Qed.
Lemma split_fruit_within Q h f : wf K h -> split Q h -> q_fr Q f -> fruit_within K Q h f.
Proof.
  intros Wf Sp Hq. split; [exact Hq|]. intros x Hx sl Hsl. pose proof (proj1 (proj2 Wf f x Hx) sl Hsl) as L.
  assert (Hf : q_sl Q sl).
  { destruct Sp as (Ex & _ & Un). eapply not_others; [exact L|]. apply (proj2 Un f x Hx); [bools; tauto|exact Hsl]. }
  split; [exact Hf|]. intros s Hs. eapply split_within; eassumption.
Qed.
(** The other side is a region of its own. *)
Lemma split_others Q h : wf K h -> split Q h -> split (others K Q h) h.
Proof.
  intros Wf (Ex & U1 & U2). split; [apply exists_others|]. split; [exact U2|].
  destruct U1 as (U1 & U3). split.
  - intros j s Hs Hn. assert (L : j < length (h_sl K h)) by (eapply nth_lt; exact Hs).
    assert (Hq : ~ q_sl Q j). { bools. tauto. }
    destruct (U1 j s Hs Hq) as (A1 & A2 & A3 & A4). split; [|split; [|split]]; intros; bools; [specialize (A1 id H0)|specialize (A2 id H0)|specialize (A3 id H0)|specialize (A4 row id H0 H1)]; tauto.
  - intros j f Hf Hn sl Hsl. assert (L : j < length (h_fr K h)) by (eapply nth_lt; exact Hf).
    assert (Hq : ~ q_fr Q j). { bools. tauto. }
    specialize (U3 j f Hf Hq sl Hsl). bools. tauto.
Qed.
Lemma within_avoids (Q R : region) s : slice_within Q s -> (forall id, q_p Q id -> ~ q_p R id) -> (forall id, q_i Q id -> ~ q_i R id) -> (forall id, q_s Q id -> ~ q_s R id) -> slice_avoids R s.
Proof. intros (A & B & C & D) E F G. split; [|split; [|split]]; eauto. Qed.
Lemma step_outside Q h o : wf K h -> split Q h -> avoids K Q o -> split Q (snd (exec K o h)) /\ unchanged K Q h (snd (exec K o h)).
Proof.
  intros Wf Sp Av. pose proof Sp as (Ex & U1 & U2). destruct (exec_frame K Q o Av h (conj Ex U1)) as ((Ex' & U1') & Uc). split; [|exact Uc].
  split; [exact Ex'|]. split; [exact U1'|]. destruct Uc as (C1 & C2 & C3 & C4 & C5). set (h' := snd (exec K o h)) in *. split.
  - intros j s Hs Hn. assert (L : j < length (h_sl K h')) by (eapply nth_lt; exact Hs).
    assert (Hq : q_sl Q j). { eapply not_others; [exact L|exact Hn]. }
    rewrite C4 in Hs by exact Hq. eapply within_avoids; [eapply split_within; eassumption| | |]; intros id Hid; bools; tauto.
  - intros j f Hf Hn sl Hsl. assert (L : j < length (h_fr K h')) by (eapply nth_lt; exact Hf).
    assert (Hq : q_fr Q j). { eapply not_others; [exact L|exact Hn]. }
    rewrite C5 in Hf by exact Hq. destruct (split_fruit_within Q h j Wf Sp Hq) as (_ & Fw). destruct (Fw f Hf sl Hsl) as (Hs & _). bools. tauto.
Qed.
Lemma step_inside Q h o : wf K h -> split Q h -> avoids K (others K Q h) o ->
  let h' := snd (exec K o h) in split (union Q (created K h h')) h' /\ unchanged K (others K Q h) h h'.
Proof.
  intros Wf Sp Av h'. pose proof (split_others Q h Wf Sp) as So.
  destruct (step_outside (others K Q h) h o Wf So Av) as (So' & Uc). fold h' in So', Uc. split; [|exact Uc].
  destruct (exec_lens h o Wf) as (Wf' & L1 & L2 & L3 & L4 & L5). fold h' in Wf', L1, L2, L3, L4, L5.
  destruct Sp as ((E1 & E2 & E3 & E4 & E5) & U1 & U2).
  assert (OO : forall (n m : nat) (q : bool) id, n <= m -> (is_true q -> id < n) ->
     is_true ((id <? m) && negb ((id <? n) && negb q)) <-> is_true (q || ((n <=? id) && (id <? m)))).
  { intros n m q id L E. bools. split.
    - intros (A & B). destruct q; [now left|]. right. split; [|exact A]. destruct (Nat.le_gt_cases n id); [assumption|]. exfalso. apply B. split; [assumption|discriminate].
    - intros [A|(A & B)]; [split; [specialize (E A); lia|tauto]|]. split; [exact B|]. intros (C & _). lia. }
  destruct (split_others _ _ Wf' So') as (X1 & X2 & X3).
  assert (Eq : forall (P : region -> Prop), (forall R R', (forall id, q_p R id <-> q_p R' id) -> (forall id, q_i R id <-> q_i R' id) -> (forall id, q_s R id <-> q_s R' id) ->
     (forall id, q_sl R id <-> q_sl R' id) -> (forall id, q_fr R id <-> q_fr R' id) -> P R -> P R') -> P (others K (others K Q h) h') -> P (union Q (created K h h'))).
  { intros P EP. apply EP; intros id; cbn [others created union q_p q_i q_s q_sl q_fr]; apply OO; auto. }
  apply Eq; [|split; [exact X1|split; [exact X2|exact X3]]].
  clear - W. intros R R' R1 R2 R3 R4 R5 (A & (B1 & B2) & (D1 & D2)).
  assert (N : forall (q q' : bool), (is_true q <-> is_true q') -> (~ is_true q <-> ~ is_true q')) by tauto.
  split; [|split; split].
  - destruct A as (A1 & A2 & A3 & A4 & A5). split; [|split; [|split; [|split]]]; intros id Hid; [apply A1, R1|apply A2, R2|apply A3, R3|apply A4, R4|apply A5, R5]; exact Hid.
  - intros j s Hs Hn. destruct (B1 j s Hs) as (C1 & C2 & C3 & C4); [rewrite R4; exact Hn|].
    split; [|split; [|split]]; intros; [rewrite <- R1|rewrite <- R2|rewrite <- R3|rewrite <- R3]; eauto.
  - intros j f Hf Hn sl Hsl. rewrite <- R4. eapply B2; [exact Hf| |exact Hsl]. rewrite R5. exact Hn.
  - intros j s Hs Hn. destruct (D1 j s Hs) as (C1 & C2 & C3 & C4).
    { bools. rewrite R4. exact Hn. }
    split; [|split; [|split]]; intros; bools; [rewrite <- R1|rewrite <- R2|rewrite <- R3|rewrite <- R3].
    + specialize (C1 id H0). bools. exact C1.
    + specialize (C2 id H0). bools. exact C2.
    + specialize (C3 id H0). bools. exact C3.
    + specialize (C4 row id H0 H1). bools. exact C4.
  - intros j f Hf Hn sl Hsl. assert (Hn' : ~ q_fr (others K R h') j) by (bools; rewrite R5; exact Hn).
    specialize (D2 j f Hf Hn' sl Hsl). bools. rewrite <- R4. exact D2.
Qed.
Lemma two_sided_split Q h Q1 h1 : wf K h -> split Q h -> two_sided K Q h Q1 h1 -> wf K h1 /\ split Q1 h1.
Proof.
  intros Wf Sp. induction 1 as [|Q1 h1 o _ (Wf1 & Sp1) Av|Q1 h1 o _ (Wf1 & Sp1) Av]; [auto| |]; destruct (exec_lens h1 o Wf1) as (Wf2 & _); (split; [exact Wf2|]).
  - now apply step_outside.
  - now apply step_inside.
Qed.

(** ** C29: calls on one side do not change the results of the other side *)
Theorem sides_independent Q h Q1 h1 o :
  wf K h -> split Q h -> two_sided K Q h Q1 h1 ->
  let h2 := snd (exec K o h1) in
  (avoids K Q1 o -> forall f X cbs c, q_fr Q1 f ->
     fst (fruit_transform K f X cbs c h2) = fst (fruit_transform K f X cbs c h1) /\
     fst (fruit_nfeatures K f h2) = fst (fruit_nfeatures K f h1)) /\
  (avoids K (others K Q1 h1) o -> forall f X cbs c, f < length (h_fr K h1) -> ~ q_fr Q1 f ->
     fst (fruit_transform K f X cbs c h2) = fst (fruit_transform K f X cbs c h1) /\
     fst (fruit_nfeatures K f h2) = fst (fruit_nfeatures K f h1)).
Proof.
  intros Wf Sp Ts h2. destruct (two_sided_split Q h Q1 h1 Wf Sp Ts) as (Wf1 & Sp1).
  assert (G : forall R, split R h1 -> unchanged K R h1 h2 -> forall f X cbs c, q_fr R f ->
     fst (fruit_transform K f X cbs c h2) = fst (fruit_transform K f X cbs c h1) /\ fst (fruit_nfeatures K f h2) = fst (fruit_nfeatures K f h1)).
  { intros R Sr Uc f X cbs c Hq. destruct (split_fruit_within R h1 f Wf1 Sr Hq) as (_ & Fw).
    destruct (nth_error (h_fr K h1) f) as [x|] eqn:Ex.
    - pose proof Uc as (U1 & U2 & U3 & U4 & U5). assert (Ex2 : nth_error (h_fr K h2) f = Some x) by (rewrite U5; assumption).
      destruct (fruit_transform_same h1 h2 f x x X cbs cbs c Wf1 Ex Ex2 eq_refl eq_refl) as (A & B); [|auto].
      intros sl v Hsl. destruct (Fw x eq_refl sl Hsl) as (Hs & Hw). eapply sees_unchanged; eassumption.
    - apply nth_error_None in Ex. apply (proj1 Sr) in Hq. lia. }
  split.
  - intros Av. apply G; [exact Sp1|]. now apply step_outside.
  - intros Av f X cbs c L Hn. apply (G (others K Q1 h1)); [now apply split_others|now apply (step_inside Q1 h1 o Wf1 Sp1 Av)|]. bools. auto.
Qed.
(** A deep copy and the original are on different sides. *)
Lemma everything_ok h : exists_in K (everything h) h /\ unreferenced K (everything h) h.
Proof.
  split; [split; [|split; [|split; [|split]]]; intros id Hid; bools; exact Hid|]. split.
  - intros j s Hs Hn. exfalso. apply Hn. bools. eapply nth_lt, Hs.
  - intros j s Hs Hn. exfalso. apply Hn. bools. eapply nth_lt, Hs.
Qed.
Lemma deepcopy_split h h1 : wf K h -> fr K (everything h) h h1 -> wf K h1 -> length (h_p K h) <= length (h_p K h1) -> length (h_i K h) <= length (h_i K h1) ->
  length (h_s K h) <= length (h_s K h1) -> length (h_sl K h) <= length (h_sl K h1) -> length (h_fr K h) <= length (h_fr K h1) -> split (created K h h1) h1.
Proof.
  intros Wf F Wf1 L1 L2 L3 L4 L5. destruct (F (everything_ok h)) as ((_ & Un) & (U1 & U2 & U3 & U4 & U5)).
  split; [|split; split].
  - split; [|split; [|split; [|split]]]; intros id Hid; bools; apply Hid.
  - intros j s Hs Hn. assert (Lj : j < length (h_sl K h1)) by (eapply nth_lt, Hs). bools.
    rewrite U4 in Hs by (bools; lia). destruct (proj1 Wf j s Hs) as ((V1 & V2 & V3 & V4) & _).
    split; [|split; [|split]]; intros; bools; [specialize (V1 id H0)|specialize (V2 id H0)|specialize (V3 id H0)|specialize (V4 row id H0 H1)]; lia.
  - intros j f Hf Hn sl Hsl. assert (Lj : j < length (h_fr K h1)) by (eapply nth_lt, Hf). bools.
    rewrite U5 in Hf by (bools; lia). pose proof (proj1 (proj2 Wf j f Hf) sl Hsl) as V. bools. lia.
  - intros j s Hs Hn. assert (Lj : j < length (h_sl K h1)) by (eapply nth_lt, Hs). bools.
    destruct (proj1 Un j s Hs) as (A1 & A2 & A3 & A4); [bools; lia|].
    split; [|split; [|split]]; intros; bools; [specialize (A1 id H0)|specialize (A2 id H0)|specialize (A3 id H0)|specialize (A4 row id H0 H1)]; bools; lia.
  - intros j f Hf Hn sl Hsl. assert (Lj : j < length (h_fr K h1)) by (eapply nth_lt, Hf). bools.
    pose proof (proj2 Un j f Hf) as A. bools. specialize (A ltac:(lia) sl Hsl). bools. lia.
Qed.
Theorem deepcopy_independent h f f2 h1 Q2 h2 o :
  reachable K h -> fruit_deepcopy K f h = (Ok f2, h1) ->
  two_sided K (created K h h1) h1 Q2 h2 ->
  (* the original stays on the outside, the copy on the inside *)
  (f < length (h_fr K h2) /\ ~ q_fr Q2 f) /\ q_fr Q2 f2 /\
  let h3 := snd (exec K o h2) in
  (avoids K Q2 o -> forall X cbs c, fst (fruit_transform K f2 X cbs c h3) = fst (fruit_transform K f2 X cbs c h2)) /\
  (avoids K (others K Q2 h2) o -> forall X cbs c, fst (fruit_transform K f X cbs c h3) = fst (fruit_transform K f X cbs c h2)).
Proof.
  intros Re E Ts. pose proof (reachable_wf K W h Re) as Wf.
  assert (E' : h1 = snd (exec K (FDeepcopy K f) h)) by (cbn [exec]; rewrite void_snd, E; reflexivity).
  destruct (exec_lens h (FDeepcopy K f) Wf) as (Wf1 & L1 & L2 & L3 & L4 & L5). rewrite <- E' in Wf1, L1, L2, L3, L4, L5.
  assert (Fr : fr K (everything h) h h1) by (replace h1 with (snd (fruit_deepcopy K f h)) by (now rewrite E); apply fr_fruit_deepcopy).
  pose proof (deepcopy_split h h1 Wf Fr Wf1 L1 L2 L3 L4 L5) as Sp.
  assert (Hf : f < length (h_fr K h) /\ f2 = length (h_fr K h) /\ f2 < length (h_fr K h1)).
  { unfold fruit_deepcopy in E. apply bind_inv in E as (x & h0 & E0 & E). unfold look in E0. destruct (nth_error (h_fr K h) f) as [x0|] eqn:Ex; [|discriminate]. injection E0 as -> <-.
    split; [eapply nth_lt, Ex|]. apply bind_inv in E as (n & h4 & E4 & E). injection E4 as <- <-. apply bind_inv in E as ([] & h5 & E5 & E). injection E as <- <-. split; [reflexivity|].
    match type of E5 with forM K ?l ?b ?x = _ => assert (Q : tR K (fun _ => True) (fun _ => True) x (snd (forM K l b x))) end.
    { apply (tR_copy_loop K (fun _ => True) (fun _ => True) (slice_deepcopy K) _ _ 0); [|exact I|lia]. intros sl h0 _. now apply tR_slice_deepcopy. }
    rewrite E5 in Q. destruct Q as (_ & _ & _ & Q & _). cbn in Q. rewrite len_app1 in Q. exact Q. }
  destruct Hf as (Hf & Ef2 & Lf2).
  assert (Inv : f < length (h_fr K h2) /\ ~ q_fr Q2 f /\ q_fr Q2 f2).
  { clear - Ts Hf Ef2 Lf2 Wf1 L5 Sp W. induction Ts as [|Q1 h3 o Ts (A & B & C) Av|Q1 h3 o Ts (A & B & C) Av].
    - split; [lia|]. bools. lia.
    - destruct (exec_lens h3 o (proj1 (two_sided_split _ _ _ _ Wf1 Sp Ts))) as (_ & _ & _ & _ & _ & L). split; [lia|auto].
    - destruct (exec_lens h3 o (proj1 (two_sided_split _ _ _ _ Wf1 Sp Ts))) as (_ & _ & _ & _ & _ & L). split; [lia|]. bools. split; [|auto]. intros [D|D]; [auto|lia]. }
  destruct Inv as (I1 & I2 & I3). split; [auto|]. split; [exact I3|].
  destruct (sides_independent (created K h h1) h1 Q2 h2 o Wf1 Sp Ts) as (A & B). split; intros Av X cbs c.
  - now apply A.
  - now apply B.
Qed.

(** ** What copies are *)
Definition with_slices (h : heap) (l : list slice) : heap :=
  {| h_p := h_p K h; h_i := h_i K h; h_s := h_s K h; h_sl := l; h_fr := h_fr K h; h_g := h_g K h; h_log := h_log K h |}.
Lemma with_p_nil s : sl_fitted s = false -> with_p (sl_p s ++ []) s = s. Proof. intros E. rewrite app_nil_r. destruct s. cbn in *. now rewrite E. Qed.
Lemma with_i_nil s : sl_fitted s = false -> with_i (sl_i s ++ []) s = s. Proof. intros E. rewrite app_nil_r. destruct s. cbn in *. now rewrite E. Qed.
Lemma with_s_nil s : sl_fitted s = false -> with_s (sl_s s ++ []) s = s. Proof. intros E. rewrite app_nil_r. destruct s. cbn in *. now rewrite E. Qed.
Lemma same_slices h l : h_sl K h = l -> with_slices h l = h. Proof. intros <-. now destruct h. Qed.
Lemma upd_sl_last h l s f : h_sl K h = l ++ [s] -> upd_sl K (length l) f h = (Ok tt, with_slices h (l ++ [f s])).
Proof.
  intros E. unfold upd_sl, bindM, look. rewrite E, nth_error_app2, Nat.sub_diag by lia. cbn [nth_error]. unfold set_sl. rewrite E, upd_app_at. reflexivity.
Qed.
Lemma add_all_p ids h l s : h_sl K h = l ++ [s] -> sl_fitted s = false -> (forall id, In id ids -> id < length (h_p K h)) ->
  slice_add K (length l) (map (ArgP K) ids) h = (Ok tt, with_slices h (l ++ [with_p (sl_p s ++ ids) s])).
Proof.
  revert h s. induction ids as [|id ids IH]; intros h s E Ef V.
  - cbn. rewrite with_p_nil by exact Ef. now rewrite same_slices.
  - unfold slice_add in *. cbn [map forM add1]. destruct (nth_error (h_p K h) id) as [p|] eqn:Ep; [|apply nth_error_None in Ep; specialize (V id (or_introl eq_refl)); lia].
    rewrite (bind_ok K _ _ h tt (with_slices h (l ++ [with_p (sl_p s ++ [id]) s]))).
    + rewrite (IH _ (with_p (sl_p s ++ [id]) s)); [|reflexivity|reflexivity|intros; apply V; now right].
      unfold with_slices. cbn. rewrite <- app_assoc. reflexivity.
    + rewrite (bind_ok K _ _ h p h) by (unfold look; now rewrite Ep). exact (upd_sl_last h l s (fun s => with_p (sl_p s ++ [id]) s) E).
Qed.
Lemma add_all_i ids h l s : h_sl K h = l ++ [s] -> sl_fitted s = false -> (forall id, In id ids -> id < length (h_i K h)) ->
  slice_add K (length l) (map (ArgI K) ids) h = (Ok tt, with_slices h (l ++ [with_i (sl_i s ++ ids) s])).
Proof.
  revert h s. induction ids as [|id ids IH]; intros h s E Ef V.
  - cbn. rewrite with_i_nil by exact Ef. now rewrite same_slices.
  - unfold slice_add in *. cbn [map forM add1]. destruct (nth_error (h_i K h) id) as [p|] eqn:Ep; [|apply nth_error_None in Ep; specialize (V id (or_introl eq_refl)); lia].
    rewrite (bind_ok K _ _ h tt (with_slices h (l ++ [with_i (sl_i s ++ [id]) s]))).
    + rewrite (IH _ (with_i (sl_i s ++ [id]) s)); [|reflexivity|reflexivity|intros; apply V; now right].
      unfold with_slices. cbn. rewrite <- app_assoc. reflexivity.
    + rewrite (bind_ok K _ _ h p h) by (unfold look; now rewrite Ep). exact (upd_sl_last h l s (fun s => with_i (sl_i s ++ [id]) s) E).
Qed.
Lemma add_all_s ids h l s : h_sl K h = l ++ [s] -> sl_fitted s = false -> (forall id, In id ids -> id < length (h_s K h)) ->
  slice_add K (length l) (map (ArgS K) ids) h = (Ok tt, with_slices h (l ++ [with_s (sl_s s ++ ids) s])).
Proof.
  revert h s. induction ids as [|id ids IH]; intros h s E Ef V.
  - cbn. rewrite with_s_nil by exact Ef. now rewrite same_slices.
  - unfold slice_add in *. cbn [map forM add1]. destruct (nth_error (h_s K h) id) as [p|] eqn:Ep; [|apply nth_error_None in Ep; specialize (V id (or_introl eq_refl)); lia].
    rewrite (bind_ok K _ _ h tt (with_slices h (l ++ [with_s (sl_s s ++ [id]) s]))).
    + rewrite (IH _ (with_s (sl_s s ++ [id]) s)); [|reflexivity|reflexivity|intros; apply V; now right].
      unfold with_slices. cbn. rewrite <- app_assoc. reflexivity.
    + rewrite (bind_ok K _ _ h p h) by (unfold look; now rewrite Ep). exact (upd_sl_last h l s (fun s => with_s (sl_s s ++ [id]) s) E).
Qed.
(** [copy] of a slice always returns; the new slice has the same seeds (the
    very same objects), is not fitted and has fit_sample_size 1, whatever the
    fit_sample_size of the original is.  Nothing else changes. *)
Theorem copy_shares_seeds h sl s :
  reachable K h -> nth_error (h_sl K h) sl = Some s ->
  slice_copy K sl h = (Ok (length (h_sl K h)), with_slices h (h_sl K h ++
    [{| sl_p := sl_p s; sl_i := sl_i s; sl_s := sl_s s; sl_ext := []; sl_fitted := false; sl_sample := SOne |}])).
Proof.
  intros Re Es. destruct (proj1 (reachable_wf K W h Re) sl s Es) as ((V1 & V2 & V3 & _) & _).
  rewrite slice_copy_eq, Es. unfold sc_body. set (l := h_sl K h).
  set (h0 := snd (new_sl K slice_new h)).
  pose proof (add_all_p (sl_p s) h0 l slice_new eq_refl eq_refl V1) as E1. rewrite (bind_ok K _ _ _ _ _ E1).
  match type of E1 with _ = (_, ?h1) => pose proof (add_all_i (sl_i s) h1 l _ eq_refl eq_refl V2) as E2 end. rewrite (bind_ok K _ _ _ _ _ E2).
  match type of E2 with _ = (_, ?h1) => pose proof (add_all_s (sl_s s) h1 l _ eq_refl eq_refl V3) as E3 end. rewrite (bind_ok K _ _ _ _ _ E3). reflexivity.
Qed.
(** A loop that creates copies of seeds. *)
Lemma objs_app' {A} (l l' : list A) ids os : objs l ids os -> objs (l ++ l') ids os.
Proof. intros F. eapply Forall2_impl; [|exact F]. intros id o E. cbn in E. rewrite nth_error_app1; [exact E|]. apply nth_error_Some. congruence. Qed.
Lemma dc_p ids os h l s h' : objs (h_p K h) ids os -> h_sl K h = l ++ [s] -> sl_fitted s = false ->
  forM K ids (fun id => bindM K (look K (h_p K) id) (fun p => bindM K (liftR K (p_copy K p)) (fun p' => add1 K (length l) (ClsP K (Ok p'))))) h = (Ok tt, h') ->
  exists cs, Forall2 (fun p c => p_copy K p = Ok c) os cs /\
    h' = {| h_p := h_p K h ++ cs; h_i := h_i K h ; h_s := h_s K h ; h_sl := l ++ [with_p (sl_p s ++ seq (length (h_p K h)) (length ids)) s]; h_fr := h_fr K h; h_g := h_g K h; h_log := h_log K h |}.
Proof.
  intros F. revert h F s. induction ids as [|id ids IH] in os |- *; intros h F s E Ef E'; inversion F as [|? p ? os' Hp F']; subst; cbn [forM] in E'.
  - injection E' as <-. exists []. split; [constructor|]. cbn. rewrite app_nil_r, with_p_nil by exact Ef. rewrite <- E. now destruct h.
  - apply bind_inv in E' as ([] & h1 & E1 & E'). apply bind_inv in E1 as (p0 & h2 & E2 & E1). unfold look in E2. rewrite Hp in E2.
    injection E2 as <- <-. apply bind_inv in E1 as (c & h2 & E2 & E1). unfold liftR in E2. injection E2 as E2 <-.
    cbn [add1] in E1. unfold bindM at 1, liftR at 1 in E1. unfold bindM at 1, new_p at 1 in E1. unfold add_p in E1.
    match type of E1 with upd_sl K _ _ ?x = _ => rewrite (upd_sl_last x l s _ E) in E1 end. injection E1 as <-.
    match type of E' with forM K _ _ ?x = _ => destruct (IH os' x (objs_app' _ [c] _ _ F') (with_p (sl_p s ++ [length (h_p K h)]) s) eq_refl eq_refl E') as (cs & G & Eh) end. exists (c :: cs). split; [constructor; assumption|].
    rewrite Eh. cbn [with_slices h_p h_i h_s h_sl h_fr h_g h_log sl_p with_p length seq]. rewrite len_app1, <- !app_assoc. reflexivity.
Qed.
Lemma dc_i ids os h l s h' : objs (h_i K h) ids os -> h_sl K h = l ++ [s] -> sl_fitted s = false ->
  forM K ids (fun id => bindM K (look K (h_i K) id) (fun p => bindM K (liftR K (i_copy K p)) (fun p' => add1 K (length l) (ClsI K (Ok p'))))) h = (Ok tt, h') ->
  exists cs, Forall2 (fun p c => i_copy K p = Ok c) os cs /\
    h' = {| h_p := h_p K h ; h_i := h_i K h ++ cs; h_s := h_s K h ; h_sl := l ++ [with_i (sl_i s ++ seq (length (h_i K h)) (length ids)) s]; h_fr := h_fr K h; h_g := h_g K h; h_log := h_log K h |}.
Proof.
  intros F. revert h F s. induction ids as [|id ids IH] in os |- *; intros h F s E Ef E'; inversion F as [|? p ? os' Hp F']; subst; cbn [forM] in E'.
  - injection E' as <-. exists []. split; [constructor|]. cbn. rewrite app_nil_r, with_i_nil by exact Ef. rewrite <- E. now destruct h.
  - apply bind_inv in E' as ([] & h1 & E1 & E'). apply bind_inv in E1 as (p0 & h2 & E2 & E1). unfold look in E2. rewrite Hp in E2.
    injection E2 as <- <-. apply bind_inv in E1 as (c & h2 & E2 & E1). unfold liftR in E2. injection E2 as E2 <-.
    cbn [add1] in E1. unfold bindM at 1, liftR at 1 in E1. unfold bindM at 1, new_i at 1 in E1. unfold add_i in E1.
    match type of E1 with upd_sl K _ _ ?x = _ => rewrite (upd_sl_last x l s _ E) in E1 end. injection E1 as <-.
    match type of E' with forM K _ _ ?x = _ => destruct (IH os' x (objs_app' _ [c] _ _ F') (with_i (sl_i s ++ [length (h_i K h)]) s) eq_refl eq_refl E') as (cs & G & Eh) end. exists (c :: cs). split; [constructor; assumption|].
    rewrite Eh. cbn [with_slices h_p h_i h_s h_sl h_fr h_g h_log sl_i with_i length seq]. rewrite len_app1, <- !app_assoc. reflexivity.
Qed.
Lemma dc_s ids os h l s h' : objs (h_s K h) ids os -> h_sl K h = l ++ [s] -> sl_fitted s = false ->
  forM K ids (fun id => bindM K (look K (h_s K) id) (fun p => bindM K (liftR K (s_copy K p)) (fun p' => add1 K (length l) (ClsS K (Ok p'))))) h = (Ok tt, h') ->
  exists cs, Forall2 (fun p c => s_copy K p = Ok c) os cs /\
    h' = {| h_p := h_p K h ; h_i := h_i K h ; h_s := h_s K h ++ cs; h_sl := l ++ [with_s (sl_s s ++ seq (length (h_s K h)) (length ids)) s]; h_fr := h_fr K h; h_g := h_g K h; h_log := h_log K h |}.
Proof.
  intros F. revert h F s. induction ids as [|id ids IH] in os |- *; intros h F s E Ef E'; inversion F as [|? p ? os' Hp F']; subst; cbn [forM] in E'.
  - injection E' as <-. exists []. split; [constructor|]. cbn. rewrite app_nil_r, with_s_nil by exact Ef. rewrite <- E. now destruct h.
  - apply bind_inv in E' as ([] & h1 & E1 & E'). apply bind_inv in E1 as (p0 & h2 & E2 & E1). unfold look in E2. rewrite Hp in E2.
    injection E2 as <- <-. apply bind_inv in E1 as (c & h2 & E2 & E1). unfold liftR in E2. injection E2 as E2 <-.
    cbn [add1] in E1. unfold bindM at 1, liftR at 1 in E1. unfold bindM at 1, new_s at 1 in E1. unfold add_s in E1.
    match type of E1 with upd_sl K _ _ ?x = _ => rewrite (upd_sl_last x l s _ E) in E1 end. injection E1 as <-.
    match type of E' with forM K _ _ ?x = _ => destruct (IH os' x (objs_app' _ [c] _ _ F') (with_s (sl_s s ++ [length (h_s K h)]) s) eq_refl eq_refl E') as (cs & G & Eh) end. exists (c :: cs). split; [constructor; assumption|].
    rewrite Eh. cbn [with_slices h_p h_i h_s h_sl h_fr h_g h_log sl_s with_s length seq]. rewrite len_app1, <- !app_assoc. reflexivity.
Qed.

(** [deepcopy] of a slice: if it returns, the new slice has fresh copies of all
    seeds in the same order and the same fit_sample_size; it is not fitted.
    All other objects stay as they are. *)
Theorem deepcopy_structure h sl s ps is svs n h' :
  reachable K h -> nth_error (h_sl K h) sl = Some s ->
  objs (h_p K h) (sl_p s) ps -> objs (h_i K h) (sl_i s) is -> objs (h_s K h) (sl_s s) svs ->
  slice_deepcopy K sl h = (Ok n, h') ->
  exists ps' is' svs',
    Forall2 (fun p p' => p_copy K p = Ok p') ps ps' /\ Forall2 (fun i i' => i_copy K i = Ok i') is is' /\ Forall2 (fun v v' => s_copy K v = Ok v') svs svs' /\
    n = length (h_sl K h) /\
    h' = {| h_p := h_p K h ++ ps'; h_i := h_i K h ++ is'; h_s := h_s K h ++ svs';
            h_sl := h_sl K h ++ [{| sl_p := seq (length (h_p K h)) (length ps'); sl_i := seq (length (h_i K h)) (length is');
                                    sl_s := seq (length (h_s K h)) (length svs'); sl_ext := []; sl_fitted := false; sl_sample := sl_sample s |}];
            h_fr := h_fr K h; h_g := h_g K h; h_log := h_log K h |}.
Proof.
  intros Re Es Op Oi Os E. rewrite slice_deepcopy_eq, Es in E. pose proof (dc_body_ret K _ _ _ _ _ E) as ->. unfold dc_body in E. set (l := h_sl K h) in *.
  apply bind_unit_ok in E as (h1 & E1 & E). apply bind_unit_ok in E as (h2 & E2 & E). apply bind_unit_ok in E as (h3 & E3 & E). apply bind_unit_ok in E as (h4 & E4 & E).
  destruct (dc_p (sl_p s) ps (snd (new_sl K slice_new h)) l slice_new h1 Op eq_refl eq_refl E1) as (ps' & F1 & Eh1). cbn [new_sl snd h_p h_i h_s h_sl h_fr h_g h_log] in Eh1.
  destruct (dc_i (sl_i s) is h1 l _ h2 ltac:(subst h1; exact Oi) ltac:(subst h1; reflexivity) eq_refl E2) as (is' & F2 & Eh2).
  destruct (dc_s (sl_s s) svs h2 l _ h3 ltac:(subst h2 h1; exact Os) ltac:(subst h2; reflexivity) eq_refl E3) as (svs' & F3 & Eh3).
  rewrite (upd_sl_last h3 l _ _ ltac:(subst h3; reflexivity)) in E4. injection E4 as E4. injection E as E. 
  exists ps', is', svs'. split; [exact F1|]. split; [exact F2|]. split; [exact F3|]. split; [reflexivity|].
  assert (L1 : length (sl_p s) = length ps') by (rewrite <- (Forall2_len _ _ _ F1); exact (Forall2_len _ _ _ Op)).
  assert (L2 : length (sl_i s) = length is') by (rewrite <- (Forall2_len _ _ _ F2); exact (Forall2_len _ _ _ Oi)).
  assert (L3 : length (sl_s s) = length svs') by (rewrite <- (Forall2_len _ _ _ F3); exact (Forall2_len _ _ _ Os)).
  rewrite <- L1, <- L2, <- L3. subst h' h4 h3 h2 h1. reflexivity.
Qed.
End C29.
Print Assumptions sides_independent.
Print Assumptions deepcopy_independent.
Print Assumptions copy_shares_seeds.
Print Assumptions deepcopy_structure.
