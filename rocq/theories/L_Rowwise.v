(** Fruits of seeds that treat every series on its own (C76). *)
From Coq Require Import Ascii String List Arith ZArith Bool RelationClasses Lia.
From Verif Require Import Num Arr M_Str M_Words M_Np M_Prep M_Fruit S_Fruit L_API S_Rowwise L_Arr L_Fruit L_Fruit3 L_Fruit4 L_Fruit8 L_Fruit10 P_Fruit2 P_Fruit4.
Import ListNotations.

(** ** Selections *)
Lemma pick_length {A} (d : A) sel l : length (pick d sel l) = length sel.
Proof. apply map_length. Qed.
Lemma pick_map {A B} (d : A) (d' : B) (f : A -> B) sel l : (forall i, In i sel -> i < length l) -> pick d' sel (map f l) = map f (pick d sel l).
Proof.
  intros V. unfold pick. rewrite map_map. apply map_ext_in. intros i Hi. rewrite (nth_indep (map f l) d' (f d)) by (rewrite map_length; auto). apply map_nth.
Qed.
Lemma pick_repeat {A} (d x : A) sel n : (forall i, In i sel -> i < n) -> pick d sel (repeat x n) = repeat x (length sel).
Proof.
  unfold pick. induction sel as [|i sel IH]; intros V; [reflexivity|]. cbn. rewrite IH by (intros; apply V; now right). f_equal.
  assert (L : i < n) by (apply V; now left). clear - L. revert i L. induction n as [|n IH]; intros [|i] L; cbn; try lia; [reflexivity|]. apply IH. lia.
Qed.
Lemma pick_In {A} (d : A) sel l x : (forall i, In i sel -> i < length l) -> In x (pick d sel l) -> In x l.
Proof. intros V Hx. apply in_map_iff in Hx as (i & <- & Hi). apply nth_In. auto. Qed.
Lemma mapM_nth {A B} (f : A -> res B) l r a b i : mapM f l = Ok r -> i < length l -> f (nth i l a) = Ok (nth i r b).
Proof.
  revert r i. induction l as [|x l IH]; intros r i E L; [cbn in L; lia|]. cbn in E. destruct (f x) as [y|e] eqn:Ef; [|discriminate]. cbn in E.
  destruct (mapM f l) as [ys|e] eqn:Em; [|discriminate]. injection E as <-. destruct i as [|i]; [exact Ef|]. cbn. apply IH; [reflexivity|cbn in L; lia].
Qed.
Lemma mapM_pick {A B} (f : A -> res B) l r a b sel : mapM f l = Ok r -> (forall i, In i sel -> i < length l) -> mapM f (pick a sel l) = Ok (pick b sel r).
Proof.
  intros E. unfold pick. induction sel as [|i sel IH]; intros V; [reflexivity|]. cbn [map mapM]. rewrite (mapM_nth f l r a b i E) by (apply V; now left).
  cbn [bind]. rewrite IH by (intros; apply V; now right). reflexivity.
Qed.
Lemma map2M_nth {A B C} (f : A -> B -> res C) l m r a b c i : map2M f l m = Ok r -> i < length l -> i < length m -> f (nth i l a) (nth i m b) = Ok (nth i r c).
Proof.
  revert m r i. induction l as [|x l IH]; intros [|y m] r i E L L'; cbn in L, L'; try lia. cbn in E. destruct (f x y) as [z|e] eqn:Ef; [|discriminate]. cbn in E.
  destruct (map2M f l m) as [zs|e] eqn:Em; [|discriminate]. injection E as <-. destruct i as [|i]; [exact Ef|]. cbn. apply (IH m); [exact Em|lia|lia].
Qed.
Lemma map2M_pick {A B C} (f : A -> B -> res C) l m r a b c sel : map2M f l m = Ok r -> (forall i, In i sel -> i < length l /\ i < length m) ->
  map2M f (pick a sel l) (pick b sel m) = Ok (pick c sel r).
Proof.
  intros E. unfold pick. induction sel as [|i sel IH]; intros V; [reflexivity|]. cbn [map map2M].
  destruct (V i (or_introl eq_refl)) as (L & L'). rewrite (map2M_nth f l m r a b c i E L L').
  cbn [bind]. rewrite IH by (intros; apply V; now right). reflexivity.
Qed.
Lemma same_shapes_pick {T} sel (X : dataset T) : same_shapes X -> (forall i, In i sel -> i < length X) -> same_shapes (pick [] sel X).
Proof. intros S V x y Hx Hy. apply S; eapply pick_In; eassumption. Qed.
Lemma same_lengths_pick {T} sel (X : mts T) : same_lengths X -> (forall i, In i sel -> i < length X) -> same_lengths (pick [] sel X).
Proof. intros S V x y Hx Hy. apply S; eapply pick_In; eassumption. Qed.
Lemma same_shapes_single {T} (s : mts T) : same_lengths s -> same_shapes (map (fun row => [row]) s).
Proof. intros S x y Hx Hy. apply in_map_iff in Hx as (r & <- & Hr). apply in_map_iff in Hy as (r' & <- & Hr'). cbn. now rewrite (S r r'). Qed.
(** A list of outcomes without exception. *)
Lemma all_ok {A} (l : list (res A)) : (exists bs, l = map Ok bs) \/ exists bs e r, l = map Ok bs ++ Err e :: r.
Proof.
  induction l as [|[a|e] l IH].
  - left. now exists [].
  - destruct IH as [(bs & ->)|(bs & e & r & ->)]; [left; now exists (a :: bs)|right; now exists (a :: bs), e, r].
  - right. now exists [], e, l.
Qed.

Section Rows.
Context {T : Type} `{Num T}.
Variable K : kit T.
Variable sel : list nat.
Variable c : dataset T.
Variable n : nat.
Hypothesis Sc : same_shapes c.
Hypothesis Lc : length c = n.
Hypothesis Hn : picks n sel.
Notation pk := (pick [] sel).
Notation inb := (proj2 Hn).

Lemma preps_rows ps : Forall (rowwise_prep K) ps -> forall X Y evs, same_shapes X -> length X = n -> ev_preps K c ps X = Ok (Y, evs) ->
  length Y = n /\ same_shapes Y /\ exists evs', ev_preps K (pk c) ps (pk X) = Ok (pk Y, evs').
Proof.
  induction 1 as [|p ps Hp F IH]; intros X Y evs SX LX E; cbn [ev_preps] in E.
  - injection E as <- <-. split; [exact LX|]. split; [exact SX|]. eexists. reflexivity.
  - destruct (fst (p_transform K X (p_attach K c p))) as [Z|e] eqn:Ep; [|discriminate].
    destruct (Hp c X sel Z Sc SX (eq_trans Lc (eq_sym LX))) as (L1 & S1 & E1); [now rewrite LX|exact Ep|].
    destruct (ev_preps K c ps Z) as [[A ev]|e] eqn:Er; [|discriminate]. injection E as <- <-.
    destruct (IH Z A ev S1 (eq_trans L1 LX) Er) as (L2 & S2 & ev' & E2). split; [exact L2|]. split; [exact S2|].
    cbn [ev_preps]. rewrite E1, E2. eexists. reflexivity.
Qed.
Lemma set_cols_rows k nf (R A A' : mts T) : length R = n -> length A = n -> set_cols k nf R A = Ok A' ->
  length A' = n /\ set_cols k nf (pk R) (pk A) = Ok (pk A').
Proof.
  intros LR LA. unfold set_cols. rewrite LR, LA, Nat.eqb_refl, !pick_length, Nat.eqb_refl. intros E. split.
    clear - E LR LA. revert R A A' LR LA E. induction n as [|m IH]; intros [|r R] [|a A] A' LR LA E; cbn in LR, LA; try discriminate; cbn in E; [now injection E as <-|].
    destruct (py_set_slice _ _ r a) as [z|e]; [|discriminate]. cbn in E. destruct (map2M _ R A) as [zs|e] eqn:Em; [|discriminate]. injection E as <-.
    cbn. f_equal. apply (IH R A zs); [lia|lia|exact Em].
  - apply map2M_pick with (1 := E). intros i Hi. rewrite LR, LA. split; apply inb; exact Hi.
Qed.
Lemma sieves_rows svs : Forall (rowwise_sieve K) svs -> forall (Y : mts T) k A k' A' evs, same_lengths Y -> length Y = n -> length A = n ->
  ev_sieves K c svs Y (k, A) = Ok ((k', A'), evs) -> length A' = n /\ exists evs', ev_sieves K (pk c) svs (pk Y) (k, pk A) = Ok ((k', pk A'), evs').
Proof.
  induction 1 as [|s svs Hs F IH]; intros Y k A k' A' evs SY LY LA E; cbn [ev_sieves] in E.
  - injection E as <- <- <-. split; [exact LA|]. eexists. reflexivity.
  - destruct (fst (s_transform K Y (s_attach K c s))) as [R|e] eqn:Es; [|discriminate].
    destruct (Hs c Y sel R Sc SY (eq_trans Lc (eq_sym LY))) as (L1 & E1); [now rewrite LY|exact Es|].
    destruct (set_cols k (s_nf K s) R A) as [A1|e] eqn:Ec; [|discriminate].
    destruct (set_cols_rows _ _ R A A1 (eq_trans L1 LY) LA Ec) as (L2 & E2).
    destruct (ev_sieves K c svs Y (k + s_nf K s, A1)) as [[[k2 A2] ev]|e] eqn:Er; [|discriminate]. injection E as <- <- <-.
    destruct (IH Y _ A1 k2 A2 ev SY LY L2 Er) as (L3 & ev' & E3). split; [exact L3|]. cbn [ev_sieves]. rewrite E1, E2, E3. eexists. reflexivity.
Qed.
Definition get_ok (get : nat -> res (list (sieveT K))) : Prop := forall i svs, get i = Ok svs -> Forall (rowwise_sieve K) svs.
Lemma itsums_rows get ss : get_ok get -> forall i k A k' A' evs, (forall s, In s ss -> length s = n /\ same_lengths s) -> length A = n ->
  ev_itsums K c get i (map Ok ss) (k, A) = Ok ((k', A'), evs) ->
  length A' = n /\ exists evs', ev_itsums K (pk c) get i (map Ok (map pk ss)) (k, pk A) = Ok ((k', pk A'), evs').
Proof.
  intros G. induction ss as [|Y ss IH]; intros i k A k' A' evs HS LA E; cbn [map ev_itsums] in *.
  - injection E as <- <- <-. split; [exact LA|]. eexists. reflexivity.
  - destruct (get i) as [svs|e] eqn:Eg; [|discriminate]. destruct (HS Y (or_introl eq_refl)) as (LY & SY).
    destruct (ev_sieves K c svs Y (k, A)) as [[[k1 A1] e1]|e] eqn:Es; [|discriminate].
    destruct (sieves_rows svs (G i svs Eg) Y k A k1 A1 e1 SY LY LA Es) as (L1 & e1' & E1).
    destruct (ev_itsums K c get (S i) (map Ok ss) (k1, A1)) as [[[k2 A2] e2]|e] eqn:Er; [|discriminate]. injection E as <- <- <-.
    destruct (IH (S i) k1 A1 k2 A2 e2) as (L2 & e2' & E2); [intros s Hs; apply HS; now right|exact L1|exact Er|].
    split; [exact L2|]. rewrite E1, E2. eexists. reflexivity.
Qed.
Lemma itsums_ok get : forall its i kA x, ev_itsums K c get i its kA = Ok x -> exists ss, its = map Ok ss.
Proof.
  induction its as [|[Y|e] its IH]; intros i kA x E; cbn in E; [now exists []| |discriminate].
  destruct (get i) as [svs|e]; [|discriminate]. destruct (ev_sieves K c svs Y kA) as [[kA1 e1]|e]; [|discriminate].
  destruct (ev_itsums K c get (S i) its kA1) as [[y e2]|e] eqn:Er; [|discriminate]. destruct (IH _ _ _ Er) as (ss & ->). now exists (Y :: ss).
Qed.
Lemma flat_map_ok {A B} (f : A -> list (res B)) l bs : flat_map f l = map Ok bs -> forall a, In a l -> exists b, f a = map Ok b.
Proof.
  revert bs. induction l as [|a l IH]; intros bs E x Hx; [destruct Hx|]. cbn in E.
  assert (E' : exists b1 b2, f a = map Ok b1 /\ flat_map f l = map Ok b2).
  { clear - E. revert bs E. induction (f a) as [|y ys IHy]; intros bs E; [now exists [], bs|]. destruct bs as [|b bs]; [discriminate|]. cbn in E. injection E as E1 E2.
    destruct (IHy bs E2) as (b1 & b2 & F1 & F2). exists (b :: b1), b2. now rewrite E1, F1. }
  destruct E' as (b1 & b2 & F1 & F2). destruct Hx as [<-|Hx]; [eauto|]. exact (IH b2 F2 x Hx).
Qed.
Lemma flat_map_both {A A' B B'} (R : A -> A' -> Prop) (P : B -> Prop) (q : B -> B') (f : A -> list (res B)) (f' : A' -> list (res B')) l l' bs : Forall2 R l l' ->
  (forall a a' b, In a l -> R a a' -> f a = map Ok b -> Forall P b /\ f' a' = map Ok (map q b)) ->
  flat_map f l = map Ok bs -> Forall P bs /\ flat_map f' l' = map Ok (map q bs).
Proof.
  intros F. revert bs. induction F as [|a a' l l' Ha F IH]; intros bs Hf E; cbn in E.
  - destruct bs; [|discriminate]. split; [constructor|reflexivity].
  - assert (E' : exists b1 b2, f a = map Ok b1 /\ flat_map f l = map Ok b2 /\ bs = b1 ++ b2).
    { clear - E. revert bs E. induction (f a) as [|y ys IHy]; intros bs E; [now exists [], bs|]. destruct bs as [|b bs]; [discriminate|]. cbn in E. injection E as E1 E2.
      destruct (IHy bs E2) as (b1 & b2 & F1 & F2 & ->). exists (b :: b1), b2. now rewrite E1, F1. }
    destruct E' as (b1 & b2 & F1 & F2 & ->). destruct (Hf a a' b1 (or_introl eq_refl) Ha F1) as (P1 & G1).
    destruct (IH b2) as (P2 & G2); [intros y y' b Hy Hr Ey; exact (Hf y y' b (or_intror Hy) Hr Ey)|exact F2|].
    split; [apply Forall_app; auto|]. cbn. now rewrite G1, G2, !map_app.
Qed.
Lemma iterate_rows is : Forall (rowwise_iss K) is -> forall X ss, same_shapes X -> length X = n ->
  iterate_iss K (map (i_attach K c) is) X = map Ok ss ->
  Forall (fun s => length s = n /\ same_lengths s) ss /\ iterate_iss K (map (i_attach K (pk c)) is) (pk X) = map Ok (map pk ss).
Proof.
  induction 1 as [|i is Hi F IH]; intros X ss SX LX E; cbn [map iterate_iss] in *.
  - destruct ss as [|s [|s' ss]]; try discriminate. injection E as E. subst s. split.
    + constructor; [|constructor]. rewrite map_length. split; [exact LX|]. intros r s Hr Hs. apply in_map_iff in Hr as (x & <- & Hx). apply in_map_iff in Hs as (y & <- & Hy).
      pose proof (SX x y Hx Hy) as E. destruct x, y; cbn in *; congruence.
    + cbn. do 2 f_equal. symmetry. apply pick_map. rewrite LX. exact inb.
  - assert (B : exists bs, i_batches K (i_attach K c i) X = map Ok bs).
    { destruct (all_ok (i_batches K (i_attach K c i) X)) as [Hb|(bs & e & r & Hb)]; [exact Hb|]. exfalso.
      destruct (flat_map_ok _ _ _ E (Err e)) as (b & Eb); [rewrite Hb; apply in_or_app; right; now left|]. destruct b; discriminate. }
    destruct B as (bs & Eb). destruct (Hi c X sel bs Sc SX (eq_trans Lc (eq_sym LX))) as (S1 & E1); [now rewrite LX|exact Eb|].
    rewrite Eb in E. rewrite E1.
    refine (flat_map_both (fun a a' => exists b, In b bs /\ a = Ok b /\ a' = Ok (map pk b)) _ pk _ _ (map Ok bs) (map Ok (map (map pk) bs)) ss _ _ E).
    + clear. assert (G : forall l, (forall x, In x l -> In x bs) -> Forall2 (fun a a' => exists b, In b bs /\ a = Ok b /\ a' = Ok (map pk b)) (map Ok l) (map Ok (map (map pk) l))).
      { induction l as [|b l IHl]; intros Hl; cbn; constructor; [exists b; split; [apply Hl; now left|auto]|]. apply IHl. intros; apply Hl; now right. }
      now apply G.
    + intros a a' b _ (its & Hin & -> & ->) Ef.
      refine (flat_map_both (fun s s' => In s its /\ s' = pk s) _ pk _ _ its (map pk its) b _ _ Ef).
      * clear. assert (G : forall l, (forall x, In x l -> In x its) -> Forall2 (fun s s' => In s its /\ s' = pk s) l (map pk l)).
        { induction l as [|s l IHl]; intros Hl; cbn; constructor; [split; [apply Hl; now left|reflexivity]|]. apply IHl. intros; apply Hl; now right. }
        now apply G.
      * intros s s' b0 _ (Hs & ->) E0. destruct (S1 its s Hin Hs) as (Ls & Ss).
        assert (Em : map (fun row => [row]) (pk s) = pk (map (fun row => [row]) s)) by (symmetry; apply pick_map; rewrite Ls, LX; exact inb).
        rewrite Em. apply IH; [now apply same_shapes_single|rewrite map_length; congruence|exact E0].
Qed.
Lemma slice_rows ps is svs ext X A evs : Forall (rowwise_prep K) ps -> Forall (rowwise_iss K) is -> Forall (rowwise_sieve K) svs -> Forall (Forall (rowwise_sieve K)) ext ->
  same_shapes X -> length X = n -> ev_slice K c X ps is svs ext = Ok (A, evs) ->
  length A = n /\ exists evs', ev_slice K (pk c) (pk X) ps is svs ext = Ok (pk A, evs').
Proof.
  intros Fp Fi Fs Fe SX LX. unfold ev_slice. destruct (ev_preps K c ps X) as [[Y e1]|e] eqn:Ep; [|discriminate].
  destruct (preps_rows ps Fp X Y e1 SX LX Ep) as (LY & SY & e1' & ->). destruct (ev_ns K is) as [ns|e]; [|discriminate].
  set (nf := (nsieves K svs * fold_right Nat.mul 1 ns)%nat).
  destruct (ev_itsums K c (getter K svs ext) 0 _ _) as [[[k A1] e2]|e] eqn:Ei; [|discriminate]. intros E. injection E as <- <-. cbn [snd].
  destruct (itsums_ok _ _ _ _ _ Ei) as (ss & Es). rewrite Es in Ei. destruct (iterate_rows is Fi Y ss SY LY Es) as (Hs & Es').
  assert (G : get_ok (getter K svs ext)).
  { intros i l. unfold getter. destruct ext as [|x ext]; [intros E; injection E as <-; exact Fs|]. destruct (nth_error (x :: ext) i) as [l'|] eqn:En; [|discriminate].
    intros E. injection E as <-. rewrite Forall_forall in Fe. apply Fe. eapply nth_error_In, En. }
  destruct (itsums_rows _ ss G 0 0 (repeat (repeat nzero nf) (length Y)) k A1 e2) as (L & e2' & E2).
  - rewrite Forall_forall in Hs. exact Hs.
  - rewrite repeat_length. exact LY.
  - exact Ei.
  - split; [exact L|]. rewrite Es', pick_length. rewrite (pick_repeat [] (repeat nzero nf) sel (length Y)) in E2 by (rewrite LY; exact inb). rewrite E2. eexists. reflexivity.
Qed.
Definition view_ok (v : sview K) : Prop := Forall (rowwise_prep K) (v_p K v) /\ Forall (rowwise_iss K) (v_i K v) /\ Forall (rowwise_sieve K) (v_s K v) /\ Forall (Forall (rowwise_sieve K)) (v_e K v).
Lemma slices_rows vs X : Forall view_ok vs -> same_shapes X -> length X = n -> forall index A B evs, length A = n ->
  ev_slices K c X vs index A = Ok (B, evs) -> length B = n /\ exists evs', ev_slices K (pk c) (pk X) vs index (pk A) = Ok (pk B, evs').
Proof.
  intros F SX LX. induction F as [|v vs (F1 & F2 & F3 & F4) F IH]; intros index A B evs LA E; cbn [ev_slices] in *.
  - injection E as <- <-. split; [exact LA|]. eexists. reflexivity.
  - destruct (v_nf K v) as [k|e]; [|discriminate]. destruct (ev_view K c X v) as [[R e1]|e] eqn:Ev; [|discriminate].
    unfold ev_view in *. destruct (v_fit K v); [|discriminate].
    destruct (slice_rows _ _ _ _ X R e1 F1 F2 F3 F4 SX LX Ev) as (LR & e1' & ->).
    destruct (set_cols index k R A) as [A'|e] eqn:Ec; [|discriminate]. destruct (set_cols_rows _ _ R A A' LR LA Ec) as (LA' & ->).
    destruct (ev_slices K c X vs (index + k) A') as [[B' e2]|e] eqn:Er; [|discriminate]. injection E as <- <-.
    destruct (IH _ A' B' e2 LA' Er) as (LB & e2' & ->). split; [exact LB|]. eexists. reflexivity.
Qed.
Lemma fruit_rows vs X A evs : Forall view_ok vs -> same_shapes X -> length X = n ->
  ev_fruit K c X vs = Ok (A, evs) -> length A = n /\ exists evs', ev_fruit K (pk c) (pk X) vs = Ok (pk A, evs').
Proof.
  intros F SX LX. unfold ev_fruit. destruct (mapM (v_nf K) vs) as [ns|e]; [|discriminate].
  destruct (ev_slices K c X vs 0 _) as [[B e]|e] eqn:Es; [|discriminate]. intros E. injection E as <- <-.
  destruct (slices_rows vs X F SX LX 0 (repeat (repeat nzero (list_sum ns)) (length X)) B e) as (LB & e' & E'); [rewrite repeat_length; exact LX|exact Es|].
  rewrite pick_repeat in E' by (rewrite LX; exact inb). rewrite pick_length, E'. split; [unfold nan_to_num; now rewrite map_length|].
  exists e'. do 2 f_equal. unfold nan_to_num. symmetry. apply pick_map. rewrite LB. exact inb.
Qed.
End Rows.

Section Heap.
Context {T : Type} `{Num T}.
Variable K : kit T.
Variable W : lawful K.
Lemma objs_Forall {A} (Q : A -> Prop) l ids os : Forall Q l -> objs l ids os -> Forall Q os.
Proof. intros F O. induction O as [|id o ids os E O IH]; constructor; [exact (nth_Forall Q l id o F E)|exact IH]. Qed.
Lemma seen_all QP QI QS h ids : wf K h -> all K QP QI QS h -> (forall sl, In sl ids -> sl < length (h_sl K h)) -> exists vs, Forall2 (sees K W h) ids vs /\
  Forall (fun v => Forall QP (v_p K v) /\ Forall QI (v_i K v) /\ Forall QS (v_s K v) /\ Forall (Forall QS) (v_e K v)) vs.
Proof.
  intros Wf (A1 & A2 & A3). induction ids as [|sl ids IH]; intros V; [exists []; split; constructor|].
  destruct IH as (vs & F & G); [intros; apply V; now right|].
  destruct (nth_error (h_sl K h) sl) as [s|] eqn:Es; [|apply nth_error_None in Es; specialize (V sl (or_introl eq_refl)); lia].
  destruct (sees_exists K W h sl s Wf Es) as (v & Hv & O1 & O2 & O3 & O4 & _). exists (v :: vs). split; constructor; auto.
  split; [eapply objs_Forall; eassumption|]. split; [eapply objs_Forall; eassumption|]. split; [eapply objs_Forall; eassumption|].
  clear - O4 A3. induction O4; constructor; auto. eapply objs_Forall; eassumption.
Qed.
Theorem rowwise_fruit QP QI QS h f X A sel cbs cbs' : wf K h -> all K QP QI QS h ->
  (forall p, QP p -> rowwise_prep K p) -> (forall i, QI i -> rowwise_iss K i) -> (forall s, QS s -> rowwise_sieve K s) ->
  same_shapes X -> picks (length X) sel -> fst (fruit_transform K f X cbs None h) = Ok A ->
  length A = length X /\ fst (fruit_transform K f (pick [] sel X) cbs' None h) = Ok (pick [] sel A).
Proof.
  intros Wf Al HP HI HS SX Hsel E. destruct (fruit_transform K f X cbs None h) as [r h1] eqn:Et. cbn in E. subst r.
  destruct (nth_error (h_fr K h) f) as [x|] eqn:Ex.
  2:{ unfold fruit_transform, bindM, look in Et. rewrite Ex in Et. discriminate. }
  destruct (f_fitted x) eqn:Fx.
  2:{ unfold fruit_transform in Et. rewrite (bind_ok K _ _ h x h) in Et by (unfold look; now rewrite Ex). rewrite Fx in Et. discriminate. }
  destruct (seen_all QP QI QS h (f_slices x) Wf Al (proj1 (proj2 Wf f x Ex))) as (vs & V & G).
  assert (G' : Forall (view_ok K) vs).
  { eapply Forall_impl; [|exact G]. intros v (G1 & G2 & G3 & G4). split; [eapply Forall_impl; eassumption|]. split; [eapply Forall_impl; eassumption|].
    split; [eapply Forall_impl; eassumption|]. eapply Forall_impl; [|exact G4]. intros l Hl. eapply Forall_impl; eassumption. }
  destruct (evals_inv K W cbs _ h _ A h1 (fruit_transform_evals K W h f x vs X cbs None Ex Fx V) Et) as (evs & Ev & _).
  destruct (fruit_rows K sel X (length X) SX eq_refl Hsel vs X A evs G' SX eq_refl Ev) as (L & evs' & E').
  split; [exact L|]. pose proof (fruit_transform_evals K W h f x vs (pick [] sel X) cbs' None Ex Fx V) as Hv. cbn beta iota in Hv. rewrite E' in Hv.
  eapply evals_fst. exact Hv.
Qed.
End Heap.
