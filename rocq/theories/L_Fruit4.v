(** The effect of every API call on the slices, fruits and fitted flags. *)
From Coq Require Import Ascii String List Arith ZArith Bool RelationClasses Lia.
From Verif Require Import Num Arr M_Str M_Words M_Np M_Fruit S_Fruit L_Arr L_Fruit L_Fruit2 L_Fruit3.
Import ListNotations.

Section Steps.
Context {T : Type} `{Num T}.
Variable K : kit T.
Notation heap := (heap K).
Variable W : lawful K.
Notation quiet := (quiet K). Notation grow := (grow K). Notation wf := (wf K). Notation wf_slice := (wf_slice K).

Definition struct_of (s : slice) := (sl_p s, sl_i s, sl_s s).
Definition slR (tch : nat -> Prop) (h h' : heap) : Prop :=
  forall j s', nth_error (h_sl K h') j = Some s' ->
    match nth_error (h_sl K h) j with
    | Some s => (tch j /\ sl_fitted s' = false) \/ (struct_of s' = struct_of s /\ sl_fitted s' = sl_fitted s)
    | None => sl_fitted s' = false
    end.
Definition frR (ftch : nat -> Prop) (h h' : heap) : Prop :=
  forall j f', nth_error (h_fr K h') j = Some f' ->
    match nth_error (h_fr K h) j with
    | Some f => (ftch j /\ f_fitted f' = false) \/ (f_slices f' = f_slices f /\ f_fitted f' = f_fitted f)
    | None => f_fitted f' = false
    end.
Definition tR (tch ftch : nat -> Prop) (h h' : heap) : Prop :=
  (wf h -> wf h') /\ grow h h' /\ length (h_sl K h) <= length (h_sl K h') /\ length (h_fr K h) <= length (h_fr K h') /\
  slR tch h h' /\ frR ftch h h'.
Lemma tR_refl tch ftch h : tR tch ftch h h.
Proof.
  split; [auto|]. split; [apply grow_refl|]. split; [lia|]. split; [lia|]. split; intros j x Hj; rewrite Hj; auto.
Qed.
Lemma tR_trans tch ftch a b c : tR tch ftch a b -> tR tch ftch b c -> tR tch ftch a c.
Proof.
  intros (A1 & A2 & A3 & A4 & A5 & A6) (B1 & B2 & B3 & B4 & B5 & B6).
  split; [auto|]. split; [eapply grow_trans; eassumption|]. split; [lia|]. split; [lia|]. split.
  - intros j s2 H2. specialize (B5 j s2 H2). destruct (nth_error (h_sl K b) j) as [s1|] eqn:E1.
    + specialize (A5 j s1 E1). destruct (nth_error (h_sl K a) j) as [s0|].
      * destruct B5 as [B5|(B5 & B5')]; [auto|]. destruct A5 as [(A5 & A5')|(A5 & A5')]; [left|right]; split; congruence.
      * destruct B5 as [(_ & B5)|(_ & B5)]; congruence.
    + destruct (nth_error (h_sl K a) j) as [s0|] eqn:E0; [|exact B5].
      assert (j < length (h_sl K a)) by (apply nth_error_Some; congruence). apply nth_error_None in E1. lia.
  - intros j s2 H2. specialize (B6 j s2 H2). destruct (nth_error (h_fr K b) j) as [s1|] eqn:E1.
    + specialize (A6 j s1 E1). destruct (nth_error (h_fr K a) j) as [s0|].
      * destruct B6 as [B6|(B6 & B6')]; [auto|]. destruct A6 as [(A6 & A6')|(A6 & A6')]; [left|right]; split; congruence.
      * destruct B6 as [(_ & B6)|(_ & B6)]; congruence.
    + destruct (nth_error (h_fr K a) j) as [s0|] eqn:E0; [|exact B6].
      assert (j < length (h_fr K a)) by (apply nth_error_Some; congruence). apply nth_error_None in E1. lia.
Qed.
Lemma tR_quiet tch ftch h h' : quiet h h' -> tR tch ftch h h'.
Proof.
  intros Q. destruct Q as (G & E1 & E2). split; [apply wf_quiet; exact (conj G (conj E1 E2))|]. split; [exact G|].
  rewrite E1, E2. split; [lia|]. split; [lia|]. split; intros j x Hj; [rewrite E1 in Hj|rewrite E2 in Hj]; rewrite Hj; auto.
Qed.
Lemma tR_weak (tch tch' ftch ftch' : nat -> Prop) h h' : (forall j, tch j -> tch' j) -> (forall j, ftch j -> ftch' j) -> tR tch ftch h h' -> tR tch' ftch' h h'.
Proof.
  intros E1 E2 (A1 & A2 & A3 & A4 & A5 & A6). split; [exact A1|]. split; [exact A2|]. split; [exact A3|]. split; [exact A4|]. split.
  - intros j s Hj. specialize (A5 j s Hj). destruct (nth_error (h_sl K h) j); [|exact A5]. destruct A5 as [(A5 & B)|A5]; auto.
  - intros j s Hj. specialize (A6 j s Hj). destruct (nth_error (h_fr K h) j); [|exact A6]. destruct A6 as [(A6 & B)|A6]; auto.
Qed.

(** Changing one slice. *)
Lemma tR_put tch ftch h sl s0 s : nth_error (h_sl K h) sl = Some s0 -> (wf_slice h s0 -> wf_slice h s) ->
  (tch sl /\ sl_fitted s = false) \/ (struct_of s = struct_of s0 /\ sl_fitted s = sl_fitted s0) -> tR tch ftch h (put_sl K h sl s).
Proof.
  intros E Ws D. assert (L : sl < length (h_sl K h)) by (apply nth_error_Some; congruence).
  split; [intros Wf; apply wf_put; [exact Wf|]; apply Ws, (proj1 Wf sl s0 E)|].
  split; [apply grow_same; reflexivity|]. split; [cbn; rewrite upd_length; lia|]. split; [cbn; lia|]. split.
  - intros j s' Hj. rewrite put_nth in Hj by exact L. destruct (Nat.eqb_spec sl j) as [->|Hn].
    + injection Hj as <-. rewrite E. exact D.
    + rewrite Hj. auto.
  - intros j f Hj. cbn in Hj. rewrite Hj. auto.
Qed.
Lemma tR_upd_sl tch ftch sl f :
  (forall h s, nth_error (h_sl K h) sl = Some s -> (wf_slice h s -> wf_slice h (f s)) /\
     ((tch sl /\ sl_fitted (f s) = false) \/ (struct_of (f s) = struct_of s /\ sl_fitted (f s) = sl_fitted s))) ->
  pres K (tR tch ftch) (upd_sl K sl f).
Proof.
  intros D h. unfold upd_sl, bindM, look. destruct (nth_error (h_sl K h) sl) as [s|] eqn:E; [|apply tR_refl].
  destruct (D h s E). apply (tR_put tch ftch h sl s (f s)); auto.
Qed.
Lemma wf_with_p h s l : (forall id, In id l -> id < length (h_p K h)) -> wf_slice h s -> wf_slice h (with_p l s).
Proof. intros L ((V1 & V2 & V3 & V4) & N & F). split; [repeat split; auto|]. split; [exact N|discriminate]. Qed.
Lemma wf_with_i h s l : (forall id, In id l -> id < length (h_i K h)) -> wf_slice h s -> wf_slice h (with_i l s).
Proof. intros L ((V1 & V2 & V3 & V4) & N & F). split; [repeat split; auto|]. split; [exact N|discriminate]. Qed.
Lemma wf_with_s h s l : (forall id, In id l -> id < length (h_s K h)) -> (forall id, In id (sl_s s) -> In id l) -> wf_slice h s -> wf_slice h (with_s l s).
Proof.
  intros L I ((V1 & V2 & V3 & V4) & N & F). split; [repeat split; auto|]. split; [|discriminate].
  intros E. destruct (N E) as (id & o & A & B & C). exists id, o. cbn. auto.
Qed.
Lemma wf_no_ext h s s' : sl_ext s' = [] -> sl_fitted s' = false ->
  (forall id, In id (sl_p s') -> id < length (h_p K h)) -> (forall id, In id (sl_i s') -> id < length (h_i K h)) ->
  (forall id, In id (sl_s s') -> id < length (h_s K h)) -> wf_slice h s -> wf_slice h s'.
Proof.
  intros E F A B C _. split; [repeat split; auto|].
  - intros row id Hr. rewrite E in Hr. destruct Hr.
  - split; [intros N; congruence|congruence].
Qed.

Definition only (n : nat) : nat -> Prop := fun j => j = n.
Definition none : nat -> Prop := fun _ => False.

Lemma in_snoc {A} (l : list A) x y : In y (l ++ [x]) -> In y l \/ y = x.
Proof. intros E. apply in_app_iff in E as [E|[E|[]]]; auto. Qed.
(** Adding one (existing) seed to a slice that may be touched. *)
Lemma tR_add_p (tch ftch : nat -> Prop) sl id h : tch sl -> id < length (h_p K h) -> tR tch ftch h (snd (add_p K sl id h)).
Proof.
  intros Ht Hid. unfold add_p, upd_sl, bindM, look. destruct (nth_error (h_sl K h) sl) as [s|] eqn:E; [|apply tR_refl].
  apply (tR_put tch ftch h sl s _ E); [|left; split; [exact Ht|reflexivity]].
  intros Ws. apply wf_with_p; [|exact Ws]. intros i Hi. apply in_snoc in Hi as [Hi| ->]; [now apply Ws|exact Hid].
Qed.
Lemma tR_add_i (tch ftch : nat -> Prop) sl id h : tch sl -> id < length (h_i K h) -> tR tch ftch h (snd (add_i K sl id h)).
Proof.
  intros Ht Hid. unfold add_i, upd_sl, bindM, look. destruct (nth_error (h_sl K h) sl) as [s|] eqn:E; [|apply tR_refl].
  apply (tR_put tch ftch h sl s _ E); [|left; split; [exact Ht|reflexivity]].
  intros Ws. apply wf_with_i; [|exact Ws]. intros i Hi. apply in_snoc in Hi as [Hi| ->]; [now apply Ws|exact Hid].
Qed.
Lemma tR_add_s (tch ftch : nat -> Prop) sl id h : tch sl -> id < length (h_s K h) -> tR tch ftch h (snd (add_s K sl id h)).
Proof.
  intros Ht Hid. unfold add_s, upd_sl, bindM, look. destruct (nth_error (h_sl K h) sl) as [s|] eqn:E; [|apply tR_refl].
  apply (tR_put tch ftch h sl s _ E); [|left; split; [exact Ht|reflexivity]].
  intros Ws. apply wf_with_s; [| |exact Ws]; [|intros; apply in_app_iff; auto].
  intros i Hi. apply in_snoc in Hi as [Hi| ->]; [now apply Ws|exact Hid].
Qed.
Lemma nth_lt {A} (l : list A) i x : nth_error l i = Some x -> i < length l.
Proof. intros E. apply nth_error_Some. congruence. Qed.
Lemma tR_add1 (tch ftch : nat -> Prop) sl a : tch sl -> pres K (tR tch ftch) (add1 K sl a).
Proof.
  intros Ht. pose proof (tR_refl tch ftch) as Rr. pose proof (tR_trans tch ftch) as Rt. destruct a as [id|id|id|r|r|r|]; cbn [add1].
  - apply (pres_look_bind K (tR tch ftch) Rr). intros p h Hp. apply tR_add_p; [exact Ht|eapply nth_lt; exact Hp].
  - apply (pres_look_bind K (tR tch ftch) Rr). intros p h Hp. apply tR_add_i; [exact Ht|eapply nth_lt; exact Hp].
  - apply (pres_look_bind K (tR tch ftch) Rr). intros p h Hp. apply tR_add_s; [exact Ht|eapply nth_lt; exact Hp].
  - apply (pres_bind K (tR tch ftch) Rt); [apply (pres_liftR K (tR tch ftch) Rr)|]. intros v h.
    apply (step K (tR tch ftch) Rt); [apply tR_quiet, quiet_new_p|]. intros id h' E. injection E as <- <-.
    apply tR_add_p; [exact Ht|]. cbn. rewrite app_length. cbn. lia.
  - apply (pres_bind K (tR tch ftch) Rt); [apply (pres_liftR K (tR tch ftch) Rr)|]. intros v h.
    apply (step K (tR tch ftch) Rt); [apply tR_quiet, quiet_new_i|]. intros id h' E. injection E as <- <-.
    apply tR_add_i; [exact Ht|]. cbn. rewrite app_length. cbn. lia.
  - apply (pres_bind K (tR tch ftch) Rt); [apply (pres_liftR K (tR tch ftch) Rr)|]. intros v h.
    apply (step K (tR tch ftch) Rt); [apply tR_quiet, quiet_new_s|]. intros id h' E. injection E as <- <-.
    apply tR_add_s; [exact Ht|]. cbn. rewrite app_length. cbn. lia.
  - apply (pres_raise K (tR tch ftch) Rr).
Qed.
Lemma tR_slice_add (tch ftch : nat -> Prop) sl objects : tch sl -> pres K (tR tch ftch) (slice_add K sl objects).
Proof. intros Ht. apply (pres_forM K _ (tR_refl tch ftch) (tR_trans tch ftch)). intros a _. now apply tR_add1. Qed.
Lemma tR_clear_p ftch sl : pres K (tR (only sl) ftch) (clear_p K sl).
Proof. apply tR_upd_sl. intros h s E. split; [apply wf_with_p; intros id []|]. left. split; reflexivity. Qed.
Lemma tR_clear_i ftch sl : pres K (tR (only sl) ftch) (clear_i K sl).
Proof.
  apply tR_upd_sl. intros h s E. split; [|left; split; reflexivity]. intros Ws. pose proof (proj1 Ws) as (V1 & V2 & V3 & V4). apply (wf_no_ext h s); try reflexivity; try exact Ws; try (intros id []); assumption.
Qed.
Lemma tR_clear_s ftch sl : pres K (tR (only sl) ftch) (clear_s K sl).
Proof.
  apply tR_upd_sl. intros h s E. split; [|left; split; reflexivity]. intros Ws. pose proof (proj1 Ws) as (V1 & V2 & V3 & V4). apply (wf_no_ext h s); try reflexivity; try exact Ws; try (intros id []); assumption.
Qed.
Lemma tR_sample tch ftch sl x : pres K (tR tch ftch) (upd_sl K sl (with_sample x)).
Proof.
  apply tR_upd_sl. intros h s E. split; [|right; split; reflexivity]. intros (V & N & F). split; [exact V|]. split; [exact N|exact F].
Qed.
Lemma tR_clear ftch sl : pres K (tR (only sl) ftch) (clear K sl).
Proof.
  pose proof (tR_trans (only sl) ftch) as Rt. unfold clear.
  apply (pres_bind K _ Rt); [apply tR_clear_p|intros _]. apply (pres_bind K _ Rt); [apply tR_clear_i|intros _].
  apply (pres_bind K _ Rt); [apply tR_clear_s|intros _]. apply tR_sample.
Qed.
(** New slices and fruits. *)
Lemma tR_new_sl tch ftch : pres K (tR tch ftch) (new_sl K slice_new).
Proof.
  intros h. cbn [new_sl snd]. match goal with |- tR _ _ _ ?x => set (h' := x) end.
  assert (G : grow h h') by (apply grow_same; reflexivity).
  split; [|split; [exact G|]].
  - intros (A & B). split.
    + intros j s Hj. cbn in Hj. destruct (Nat.lt_ge_cases j (length (h_sl K h))) as [L|L].
      * rewrite nth_error_app1 in Hj by exact L. eapply wf_slice_grow; [exact G|eauto].
      * rewrite nth_error_app2 in Hj by exact L. destruct (j - length (h_sl K h)) as [|[|]]; try discriminate. injection Hj as <-.
        split; [repeat split; cbn; intros; contradiction|]. split; [intros C; now destruct C|discriminate].
    + intros j f Hj. specialize (B j f Hj). destruct B as (B1 & B2). split; [|exact B2].
      intros sl Hs. cbn. rewrite app_length. specialize (B1 sl Hs). lia.
  - split; [cbn; rewrite app_length; lia|]. split; [cbn; lia|]. split.
    + intros j s Hj. cbn in Hj. destruct (Nat.lt_ge_cases j (length (h_sl K h))) as [L|L].
      * rewrite nth_error_app1 in Hj by exact L. rewrite Hj. auto.
      * rewrite nth_error_app2 in Hj by exact L. rewrite (proj2 (nth_error_None _ _) L).
        destruct (j - length (h_sl K h)) as [|[|]]; try discriminate. now injection Hj as <-.
    + intros j f Hj. cbn in Hj. rewrite Hj. auto.
Qed.
Lemma tR_new_fr tch ftch n : pres K (tR tch ftch) (new_fr K (fruit_new n)).
Proof.
  intros h. cbn [new_fr snd]. match goal with |- tR _ _ _ ?x => set (h' := x) end.
  assert (G : grow h h') by (apply grow_same; reflexivity).
  split; [|split; [exact G|]].
  - intros (A & B). split.
    + intros j s Hj. eapply wf_slice_grow; [exact G|eauto].
    + intros j f Hj. cbn in Hj. destruct (Nat.lt_ge_cases j (length (h_fr K h))) as [L|L].
      * rewrite nth_error_app1 in Hj by exact L. exact (B j f Hj).
      * rewrite nth_error_app2 in Hj by exact L. destruct (j - length (h_fr K h)) as [|[|]]; try discriminate. injection Hj as <-.
        split; [intros sl []|intros C; now destruct C].
  - split; [cbn; lia|]. split; [cbn; rewrite app_length; lia|]. split.
    + intros j s Hj. cbn in Hj. rewrite Hj. auto.
    + intros j s Hj. cbn in Hj. destruct (Nat.lt_ge_cases j (length (h_fr K h))) as [L|L].
      * rewrite nth_error_app1 in Hj by exact L. rewrite Hj. auto.
      * rewrite nth_error_app2 in Hj by exact L. rewrite (proj2 (nth_error_None _ _) L).
        destruct (j - length (h_fr K h)) as [|[|]]; try discriminate. now injection Hj as <-.
Qed.
Lemma tR_set_fr (tch ftch : nat -> Prop) h f x x' : nth_error (h_fr K h) f = Some x -> (wf_fruit K h x -> wf_fruit K h x') ->
  (ftch f /\ f_fitted x' = false) \/ (f_slices x' = f_slices x /\ f_fitted x' = f_fitted x) ->
  tR tch ftch h (snd (set_fr K f x' h)).
Proof.
  intros E Wx D. assert (L : f < length (h_fr K h)) by (eapply nth_lt; exact E). cbn [set_fr snd].
  match goal with |- tR _ _ _ ?x => set (h' := x) end. assert (G : grow h h') by (apply grow_same; reflexivity).
  split; [|split; [exact G|]].
  - intros (A & B). split; [intros j s Hj; eapply wf_slice_grow; [exact G|eauto]|].
    intros j y Hj. cbn in Hj. rewrite nth_error_upd in Hj.
    destruct ((f =? j) && (j <? length (h_fr K h))); [injection Hj as <-; apply Wx; exact (B f x E)|exact (B j y Hj)].
  - split; [cbn; lia|]. split; [cbn; rewrite upd_length; lia|]. split.
    + intros j s Hj. cbn in Hj. rewrite Hj. auto.
    + intros j y Hj. cbn in Hj. rewrite nth_error_upd in Hj.
      destruct (Nat.eqb_spec f j) as [->|Hn]; cbn [andb] in Hj.
      * rewrite (proj2 (Nat.ltb_lt _ _) L) in Hj. injection Hj as <-. rewrite E. exact D.
      * rewrite Hj. auto.
Qed.
Lemma wf_fr_cut h sl x : sl < length (h_sl K h) -> wf_fruit K h x -> wf_fruit K h (fr_cut sl x).
Proof.
  intros L (A & B). split; cbn.
  - intros s Hs. apply in_snoc in Hs as [Hs| ->]; auto.
  - intros _. rewrite app_length. cbn. lia.
Qed.
Lemma tR_cut_at (tch ftch : nat -> Prop) f sl h : ftch f -> sl < length (h_sl K h) -> tR tch ftch h (snd (upd_fr K f (fr_cut sl) h)).
Proof.
  intros Hf L. unfold upd_fr, bindM, look. destruct (nth_error (h_fr K h) f) as [x|] eqn:E; [|apply tR_refl].
  apply (tR_set_fr tch ftch h f x); [exact E|apply wf_fr_cut; exact L|]. left. split; [exact Hf|reflexivity].
Qed.
Lemma tR_fruit_cut (tch ftch : nat -> Prop) f sl : ftch f -> pres K (tR tch ftch) (fruit_cut K f sl).
Proof.
  intros Hf h. pose proof (tR_refl tch ftch) as Rr. pose proof (tR_trans tch ftch) as Rt. unfold fruit_cut. destruct sl as [sl|].
  - unfold bindM at 1 2, look at 1. destruct (nth_error (h_sl K h) sl) as [s|] eqn:E; [|apply Rr].
    cbn [ret]. apply tR_cut_at; [exact Hf|eapply nth_lt; exact E].
  - apply (step K _ Rt); [apply tR_new_sl|]. intros id h' E. injection E as <- <-.
    apply tR_cut_at; [exact Hf|]. cbn. rewrite app_length. cbn. lia.
Qed.
Lemma new_sl_ok h : new_sl K slice_new h = (Ok (length (h_sl K h)), snd (new_sl K slice_new h)).
Proof. reflexivity. Qed.
Ltac tpres Rr Rt := repeat lazymatch goal with
  | |- pres _ ?R (bindM _ _ _) => apply (pres_bind _ R Rt); [|intros]
  | |- pres _ ?R (ret _ _) => apply (pres_ret _ R Rr)
  | |- pres _ ?R (raise _ _) => apply (pres_raise _ R Rr)
  | |- pres _ ?R (liftR _ _) => apply (pres_liftR _ R Rr)
  | |- pres _ ?R (look _ _ _) => apply (pres_look _ R Rr)
  | |- pres _ ?R (forM _ _ _) => apply (pres_forM _ R Rr Rt); intros
  end.
Lemma tR_slice_copy (tch ftch : nat -> Prop) sl h : (forall j, length (h_sl K h) <= j -> tch j) -> tR tch ftch h (snd (slice_copy K sl h)).
Proof.
  intros Ht. pose proof (tR_refl tch ftch) as Rr. pose proof (tR_trans tch ftch) as Rt. unfold slice_copy.
  apply (step K _ Rt); [apply (pres_look K _ Rr)|]. intros s h' E. assert (h' = h) by (unfold look in E; destruct (nth_error (h_sl K h) sl); congruence). subst h'.
  apply (step K _ Rt); [apply tR_new_sl|]. intros n h' E'.
  assert (En : n = length (h_sl K h)) by (injection E' as <- _; reflexivity). clear E'. subst n. cbv beta.
  match goal with |- tR _ _ ?x (snd (?m ?x)) => enough (G : pres K (tR tch ftch) m) by exact (G x) end.
  tpres Rr Rt; apply tR_slice_add; auto.
Qed.
Definition dc_body (s : slice) (new : nat) : M K nat :=
  bindM K (forM K (sl_p s) (fun id => bindM K (look K (h_p K) id) (fun p => bindM K (liftR K (p_copy K p)) (fun p' => add1 K new (ClsP K (Ok p')))))) (fun _ =>
  bindM K (forM K (sl_i s) (fun id => bindM K (look K (h_i K) id) (fun p => bindM K (liftR K (i_copy K p)) (fun p' => add1 K new (ClsI K (Ok p')))))) (fun _ =>
  bindM K (forM K (sl_s s) (fun id => bindM K (look K (h_s K) id) (fun p => bindM K (liftR K (s_copy K p)) (fun p' => add1 K new (ClsS K (Ok p')))))) (fun _ =>
  bindM K (upd_sl K new (with_sample (sl_sample s))) (fun _ => ret K new)))).
Lemma slice_deepcopy_eq sl h : slice_deepcopy K sl h =
  match nth_error (h_sl K h) sl with
  | Some s => dc_body s (length (h_sl K h)) (snd (new_sl K slice_new h))
  | None => (Err AttributeError, h)
  end.
Proof. unfold slice_deepcopy, bindM at 1, look at 1. destruct (nth_error (h_sl K h) sl) as [s|]; reflexivity. Qed.
Lemma tR_dc_body (tch ftch : nat -> Prop) s n : tch n -> pres K (tR tch ftch) (dc_body s n).
Proof.
  intros Hn. pose proof (tR_refl tch ftch) as Rr. pose proof (tR_trans tch ftch) as Rt. unfold dc_body.
  tpres Rr Rt; try (apply tR_add1; exact Hn). apply tR_sample.
Qed.
Lemma tR_slice_deepcopy (tch ftch : nat -> Prop) sl h : (forall j, length (h_sl K h) <= j -> tch j) -> tR tch ftch h (snd (slice_deepcopy K sl h)).
Proof.
  intros Ht. rewrite slice_deepcopy_eq. destruct (nth_error (h_sl K h) sl) as [s|]; [|apply tR_refl].
  eapply tR_trans; [apply tR_new_sl|]. apply tR_dc_body. auto.
Qed.
Lemma forM_bind_ok {A B} (l : list A) f (g : M K B) h b h' : bindM K (forM K l f) (fun _ => g) h = (Ok b, h') -> exists h1, forM K l f h = (Ok tt, h1) /\ g h1 = (Ok b, h').
Proof. unfold bindM. destruct (forM K l f h) as [[[]|e] h1]; [eauto|discriminate]. Qed.
Lemma bind_unit_ok {B} (m : M K unit) (g : M K B) h b h' : bindM K m (fun _ => g) h = (Ok b, h') -> exists h1, m h = (Ok tt, h1) /\ g h1 = (Ok b, h').
Proof. unfold bindM. destruct (m h) as [[[]|e] h1]; [eauto|discriminate]. Qed.
Lemma dc_body_ret s n h a h' : dc_body s n h = (Ok a, h') -> a = n.
Proof.
  intros E. unfold dc_body in E. do 4 (apply bind_unit_ok in E as (? & _ & E)). now injection E as <- _.
Qed.
(** The reference a copy returns. *)
Lemma slice_deepcopy_ret sl h a h' : slice_deepcopy K sl h = (Ok a, h') -> a = length (h_sl K h) /\ a < length (h_sl K h').
Proof.
  intros E. rewrite slice_deepcopy_eq in E. destruct (nth_error (h_sl K h) sl) as [s|]; [|discriminate].
  pose proof (dc_body_ret _ _ _ _ _ E) as ->. split; [reflexivity|].
  pose proof (tR_dc_body (fun _ => True) (fun _ => True) s (length (h_sl K h)) I (snd (new_sl K slice_new h))) as (_ & _ & G & _).
  rewrite E in G. cbn in G. rewrite app_length in G. cbn in G. cbn [snd] in G. lia.
Qed.
Definition sc_body (s : slice) (new : nat) : M K nat :=
  bindM K (slice_add K new (map (ArgP K) (sl_p s))) (fun _ => bindM K (slice_add K new (map (ArgI K) (sl_i s))) (fun _ =>
  bindM K (slice_add K new (map (ArgS K) (sl_s s))) (fun _ => ret K new))).
Lemma slice_copy_eq sl h : slice_copy K sl h =
  match nth_error (h_sl K h) sl with
  | Some s => sc_body s (length (h_sl K h)) (snd (new_sl K slice_new h))
  | None => (Err AttributeError, h)
  end.
Proof. unfold slice_copy, bindM at 1, look at 1. destruct (nth_error (h_sl K h) sl) as [s|]; reflexivity. Qed.
Lemma tR_sc_body (tch ftch : nat -> Prop) s n : tch n -> pres K (tR tch ftch) (sc_body s n).
Proof.
  intros Hn. pose proof (tR_refl tch ftch) as Rr. pose proof (tR_trans tch ftch) as Rt. unfold sc_body.
  tpres Rr Rt; apply tR_slice_add; exact Hn.
Qed.
Lemma slice_copy_ret sl h a h' : slice_copy K sl h = (Ok a, h') -> a = length (h_sl K h) /\ a < length (h_sl K h').
Proof.
  intros E. rewrite slice_copy_eq in E. destruct (nth_error (h_sl K h) sl) as [s|]; [|discriminate].
  assert (Ea : a = length (h_sl K h)).
  { revert E. unfold sc_body. intros E. do 3 (apply bind_unit_ok in E as (? & _ & E)). now injection E as <- _. }
  subst a. split; [reflexivity|].
  pose proof (tR_sc_body (fun _ => True) (fun _ => True) s (length (h_sl K h)) I (snd (new_sl K slice_new h))) as (_ & _ & G & _).
  rewrite E in G. cbn in G. rewrite app_length in G. cbn in G. cbn [snd] in G. lia.
Qed.

(** ** Fruits *)
Lemma tR_get_slice (tch ftch : nat -> Prop) f z : pres K (tR tch ftch) (fruit_get_slice K f z).
Proof.
  pose proof (tR_refl tch ftch) as Rr. pose proof (tR_trans tch ftch) as Rt. unfold fruit_get_slice. tpres Rr Rt.
  destruct z as [z|]; tpres Rr Rt; match goal with |- pres _ _ (match ?x with Some _ => _ | None => _ end) => destruct x end; tpres Rr Rt.
Qed.
Lemma get_slice_same f z h a h' : fruit_get_slice K f z h = (Ok a, h') -> h' = h.
Proof.
  unfold fruit_get_slice, bindM at 1, look. destruct (nth_error (h_fr K h) f) as [x|]; [|discriminate]. destruct z as [z|].
  - unfold bindM, liftR. destruct (py_index (length (f_slices x)) z) as [i|e]; [|discriminate].
    destruct (nth_error (f_slices x) i); [|discriminate]. intros E. now injection E.
  - destruct (nth_error (f_slices x) (f_idx x)); [|discriminate]. intros E. now injection E.
Qed.
Lemma get_slice_selected f h a h' : fruit_get_slice K f None h = (Ok a, h') -> selected K h f = Some a.
Proof.
  unfold fruit_get_slice, bindM at 1, look, selected. destruct (nth_error (h_fr K h) f) as [x|]; [|discriminate].
  destruct (nth_error (f_slices x) (f_idx x)); [|discriminate]. intros E. now injection E as <- _.
Qed.
Lemma tR_copycut (tch ftch : nat -> Prop) f h : ftch f -> (forall j, length (h_sl K h) <= j -> tch j) -> tR tch ftch h (snd (fruit_copycut K f h)).
Proof.
  intros Hf Ht. pose proof (tR_refl tch ftch) as Rr. pose proof (tR_trans tch ftch) as Rt. unfold fruit_copycut.
  apply (step K _ Rt); [apply tR_get_slice|]. intros s h1 E. pose proof (get_slice_same _ _ _ _ _ E) as ->.
  apply (step K _ Rt); [now apply tR_slice_deepcopy|]. intros d h2 E2. now apply tR_fruit_cut.
Qed.
Lemma tR_switch (tch ftch : nat -> Prop) f z : pres K (tR tch ftch) (fruit_switch K f z).
Proof.
  pose proof (tR_refl tch ftch) as Rr. unfold fruit_switch. apply (pres_look_bind K _ Rr). intros x h Hx.
  destruct ((0 <=? z)%Z && (z <? Z.of_nat (length (f_slices x)))%Z) eqn:E; [|apply Rr].
  apply (tR_set_fr tch ftch h f x); [exact Hx| |right; split; reflexivity].
  intros (A & B). split; [exact A|]. intros _. cbn. apply andb_true_iff in E as (E1 & E2). lia.
Qed.
Lemma tR_fr_unfit (tch ftch : nat -> Prop) f : ftch f -> pres K (tR tch ftch) (upd_fr K f (fr_fitted false)).
Proof.
  intros Hf. pose proof (tR_refl tch ftch) as Rr. unfold upd_fr. apply (pres_look_bind K _ Rr). intros x h Hx.
  apply (tR_set_fr tch ftch h f x); [exact Hx| |left; split; [exact Hf|reflexivity]]. intros (A & B). split; assumption.
Qed.
Lemma tR_fruit_add (tch ftch : nat -> Prop) f objects h : ftch f -> (forall j, selected K h f = Some j \/ length (h_sl K h) <= j -> tch j) ->
  tR tch ftch h (snd (fruit_add K f objects h)).
Proof.
  intros Hf Ht. pose proof (tR_refl tch ftch) as Rr. pose proof (tR_trans tch ftch) as Rt. unfold fruit_add.
  apply (step K _ Rt); [apply (pres_look K _ Rr)|]. intros x h1 E.
  assert (h1 = h /\ nth_error (h_fr K h) f = Some x) as (-> & Hx).
  { unfold look in E. destruct (nth_error (h_fr K h) f) as [y|]; [|discriminate]. injection E as <- <-. auto. }
  clear E. destruct (f_slices x) as [|s0 sls] eqn:Es; cbn [nonempty].
  - apply (step K _ Rt); [now apply tR_fruit_cut|]. intros [] h1 E1.
    apply (step K _ Rt); [apply tR_get_slice|]. intros s h2 E2. pose proof (get_slice_selected _ _ _ _ E2) as Hs. pose proof (get_slice_same _ _ _ _ _ E2) as ->. clear E2.
    assert (Hn : s = length (h_sl K h)).
    { unfold fruit_cut, bindM at 1, new_sl in E1. unfold upd_fr, bindM, look in E1. cbn [h_fr] in E1. rewrite Hx in E1.
      unfold set_fr in E1. injection E1 as <-. unfold selected in Hs. cbn [h_fr] in Hs.
      rewrite upd_nth_error_eq in Hs by (eapply nth_lt; exact Hx). unfold fr_cut in Hs. cbn in Hs. rewrite Es in Hs. cbn in Hs. now injection Hs as <-. }
    match goal with |- tR _ _ ?x (snd (?m ?x)) => enough (G : pres K (tR tch ftch) m) by exact (G x) end.
    tpres Rr Rt; [apply tR_slice_add; apply Ht; right; lia|now apply tR_fr_unfit].
  - apply (step K _ Rt); [apply Rr|]. intros [] h1 E1. injection E1 as <-.
    apply (step K _ Rt); [apply tR_get_slice|]. intros s h2 E2. pose proof (get_slice_selected _ _ _ _ E2) as Hs. pose proof (get_slice_same _ _ _ _ _ E2) as ->.
    match goal with |- tR _ _ ?x (snd (?m ?x)) => enough (G : pres K (tR tch ftch) m) by exact (G x) end.
    tpres Rr Rt; [apply tR_slice_add; apply Ht; now left|now apply tR_fr_unfit].
Qed.
Lemma tR_copy_loop (tch ftch : nat -> Prop) (cp : nat -> M K nat) sls new n h :
  (forall sl h, n <= length (h_sl K h) -> tR tch ftch h (snd (cp sl h))) -> ftch new -> n <= length (h_sl K h) ->
  tR tch ftch h (snd (forM K sls (fun sl => bindM K (cp sl) (fun s => fruit_cut K new (Some s))) h)).
Proof.
  intros Ec Hf. pose proof (tR_refl tch ftch) as Rr. pose proof (tR_trans tch ftch) as Rt. revert h.
  induction sls as [|sl sls IH]; intros h Hn; cbn [forM]; [apply Rr|].
  assert (Q : tR tch ftch h (snd (bindM K (cp sl) (fun s => fruit_cut K new (Some s)) h))).
  { apply (step K _ Rt); [now apply Ec|]. intros s h1 _. now apply tR_fruit_cut. }
  apply (step K _ Rt); [exact Q|]. intros [] h1 E. apply IH. rewrite E in Q. destruct Q as (_ & _ & Q & _). cbn in Q. lia.
Qed.
Lemma tR_fruit_copy f h : tR (fun j => length (h_sl K h) <= j) (fun j => length (h_fr K h) <= j) h (snd (fruit_copy K f h)).
Proof.
  set (tch := fun j => length (h_sl K h) <= j). set (ftch := fun j => length (h_fr K h) <= j).
  pose proof (tR_refl tch ftch) as Rr. pose proof (tR_trans tch ftch) as Rt. unfold fruit_copy.
  apply (step K _ Rt); [apply (pres_look K _ Rr)|]. intros x h1 E.
  assert (h1 = h) by (unfold look in E; destruct (nth_error (h_fr K h) f); congruence). subst h1. clear E.
  apply (step K _ Rt); [apply tR_new_fr|]. intros n h1 E. injection E as <- <-.
  apply (step K _ Rt); [|intros; apply Rr].
  apply (tR_copy_loop tch ftch (slice_copy K) _ _ (length (h_sl K h))); [|unfold ftch; lia|cbn; lia].
  intros sl h0 Hn. apply tR_slice_copy. unfold tch. intros; lia.
Qed.
Lemma tR_fruit_deepcopy f h : tR (fun j => length (h_sl K h) <= j) (fun j => length (h_fr K h) <= j) h (snd (fruit_deepcopy K f h)).
Proof.
  set (tch := fun j => length (h_sl K h) <= j). set (ftch := fun j => length (h_fr K h) <= j).
  pose proof (tR_refl tch ftch) as Rr. pose proof (tR_trans tch ftch) as Rt. unfold fruit_deepcopy.
  apply (step K _ Rt); [apply (pres_look K _ Rr)|]. intros x h1 E.
  assert (h1 = h) by (unfold look in E; destruct (nth_error (h_fr K h) f); congruence). subst h1. clear E.
  apply (step K _ Rt); [apply tR_new_fr|]. intros n h1 E. injection E as <- <-.
  apply (step K _ Rt); [|intros; apply Rr].
  apply (tR_copy_loop tch ftch (slice_deepcopy K) _ _ (length (h_sl K h))); [|unfold ftch; lia|cbn; lia].
  intros sl h0 Hn. apply tR_slice_deepcopy. unfold tch. intros; lia.
Qed.

(** ** Fits *)
Definition fR (P : nat -> Prop) (h h' : heap) : Prop :=
  wf h' /\ grow h h' /\ h_fr K h' = h_fr K h /\ length (h_sl K h') = length (h_sl K h) /\
  forall j s, nth_error (h_sl K h) j = Some s -> exists s', nth_error (h_sl K h') j = Some s' /\ struct_of s' = struct_of s /\
    (sl_fitted s' = sl_fitted s \/ (P j /\ sl_fitted s' = true)).
Lemma fR_refl P h : wf h -> fR P h h.
Proof. intros Wf. split; [exact Wf|]. split; [apply grow_refl|]. split; [reflexivity|]. split; [reflexivity|]. intros j s Hj. exists s. auto. Qed.
Lemma fR_trans (P P' Q : nat -> Prop) a b c : (forall j, P j -> Q j) -> (forall j, P' j -> Q j) -> fR P a b -> fR P' b c -> fR Q a c.
Proof.
  intros E1 E2 (A0 & A1 & A2 & A3 & A4) (B0 & B1 & B2 & B3 & B4). split; [exact B0|]. split; [eapply grow_trans; eassumption|]. split; [congruence|]. split; [congruence|].
  intros j s Hj. destruct (A4 j s Hj) as (s1 & H1 & S1 & F1). destruct (B4 j s1 H1) as (s2 & H2 & S2 & F2).
  exists s2. split; [exact H2|]. split; [congruence|].
  destruct F2 as [F2|(F2 & F2')]; [|auto]. destruct F1 as [F1|(F1 & F1')]; [left; congruence|right; split; [auto|congruence]].
Qed.
Lemma fR_slice_fit sl X c h : wf h -> fR (fun j => j = sl /\ fst (slice_fit K sl X c h) = Ok tt) h (snd (slice_fit K sl X c h)).
Proof.
  intros Wf. destruct (slice_fit_post K W sl X c h Wf) as (A & (B1 & B2 & B3 & B4) & C).
  destruct (slice_fit K sl X c h) as [r h'] eqn:E. cbn [fst snd] in *.
  split; [exact A|]. split; [exact B1|]. split; [exact B2|]. split; [exact B3|].
  intros j s Hj. destruct (B4 j s Hj) as (s' & Hs' & Nj & O1 & O2 & O3 & O4). exists s'. split; [exact Hs'|].
  split; [unfold struct_of; congruence|].
  destruct (Nat.eq_dec j sl) as [->|Hn]; [|left; now rewrite (Nj Hn)].
  unfold flag in C. rewrite Hs', Hj in C. cbn in C. destruct r as [[]|e]; [right|left]; [|congruence].
  split; [auto|congruence].
Qed.
Lemma fR_forM X c sls h : wf h ->
  fR (fun j => exists l1 l2, sls = l1 ++ j :: l2 /\ fits_all K X c (l1 ++ [j]) h) h
     (snd (forM K sls (fun sl => slice_fit K sl X (Some c)) h)).
Proof.
  revert h. induction sls as [|sl sls IH]; intros h Wf; cbn [forM]; [now apply fR_refl|].
  pose proof (fR_slice_fit sl X (Some c) h Wf) as R1.
  destruct (slice_fit K sl X (Some c) h) as [[[]|e] h1] eqn:E; cbn [fst snd] in R1.
  - rewrite (bind_ok K _ _ _ _ _ E). eapply fR_trans; [| |exact R1|apply IH; apply R1].
    + intros j (-> & _). exists [], sls. split; [reflexivity|]. unfold fits_all. cbn [app forM]. rewrite (bind_ok K _ _ _ _ _ E). reflexivity.
    + intros j (l1 & l2 & -> & F). exists (sl :: l1), l2. split; [reflexivity|]. unfold fits_all. cbn [app forM]. rewrite (bind_ok K _ _ _ _ _ E). exact F.
  - rewrite (bind_err K _ _ _ _ _ E). cbn [snd]. eapply (fR_trans _ (fun _ => False)); [| |exact R1|apply fR_refl; apply R1].
    + intros j (_ & C). discriminate.
    + intros j [].
Qed.

(** ** Every call *)
Definition opR (h : heap) (o : op K) (h' : heap) : Prop :=
  wf h' /\ grow h h' /\ length (h_sl K h) <= length (h_sl K h') /\ length (h_fr K h) <= length (h_fr K h') /\
  (forall j s', nth_error (h_sl K h') j = Some s' ->
    match nth_error (h_sl K h) j with
    | Some s => (changes K h o j /\ sl_fitted s' = false) \/
                (struct_of s' = struct_of s /\ (sl_fitted s' = sl_fitted s \/ (fits K h o j /\ sl_fitted s' = true)))
    | None => sl_fitted s' = false
    end) /\
  (forall j f', nth_error (h_fr K h') j = Some f' ->
    match nth_error (h_fr K h) j with
    | Some f => (fruit_changes K o j /\ f_fitted f' = false) \/
                (f_slices f' = f_slices f /\ (f_fitted f' = f_fitted f \/ (fruit_fits K h o j /\ f_fitted f' = true)))
    | None => f_fitted f' = false
    end).
Lemma opR_tR (tch ftch : nat -> Prop) h o h' : wf h ->
  (forall j, j < length (h_sl K h) -> tch j -> changes K h o j) -> (forall j, j < length (h_fr K h) -> ftch j -> fruit_changes K o j) ->
  tR tch ftch h h' -> opR h o h'.
Proof.
  intros Wf E1 E2 (A1 & A2 & A3 & A4 & A5 & A6). split; [auto|]. split; [exact A2|]. split; [exact A3|]. split; [exact A4|]. split.
  - intros j s' Hj. specialize (A5 j s' Hj). destruct (nth_error (h_sl K h) j) as [s|] eqn:Es; [|exact A5].
    destruct A5 as [(A5 & F)|(A5 & F)]; [left; split; [apply E1; [eapply nth_lt; exact Es|exact A5]|exact F]|right; auto].
  - intros j s' Hj. specialize (A6 j s' Hj). destruct (nth_error (h_fr K h) j) as [s|] eqn:Es; [|exact A6].
    destruct A6 as [(A6 & F)|(A6 & F)]; [left; split; [apply E2; [eapply nth_lt; exact Es|exact A6]|exact F]|right; auto].
Qed.
Lemma opR_quiet h o h' : wf h -> quiet h h' -> opR h o h'.
Proof. intros Wf Q. apply (opR_tR none none); [exact Wf|intros j _ []|intros j _ []|now apply tR_quiet]. Qed.
Lemma void_snd {A} (m : M K A) h : snd (void K m h) = snd (m h).
Proof. unfold void. destruct (m h) as [[a|e] h']; reflexivity. Qed.
Lemma opR_fR (P : nat -> Prop) h o h' : (forall j, P j -> fits K h o j) -> fR P h h' -> opR h o h'.
Proof.
  intros E (A0 & A1 & A2 & A3 & A4). split; [exact A0|]. split; [exact A1|]. split; [lia|]. rewrite A2. split; [lia|]. split.
  - intros j s' Hj. destruct (nth_error (h_sl K h) j) as [s|] eqn:Es.
    + destruct (A4 j s Es) as (s1 & H1 & S1 & F1). assert (s1 = s') by congruence. subst s1. right. split; [exact S1|].
      destruct F1 as [F1|(F1 & F1')]; auto.
    + exfalso. apply nth_error_None in Es. apply nth_lt in Hj. lia.
  - intros j f Hj. rewrite Hj. auto.
Qed.
(** Followed by something quiet. *)
Lemma opR_then h o h1 h2 : opR h o h1 -> quiet h1 h2 -> opR h o h2.
Proof.
  intros (A0 & A1 & A2 & A3 & A4 & A5) Q. pose proof Q as (G & E1 & E2). split; [eapply wf_quiet; eassumption|].
  split; [eapply grow_trans; eassumption|]. rewrite E1, E2. auto.
Qed.
Lemma opR_fruit_fit h o f X c : wf h ->
  (forall j, (exists x l1 l2, nth_error (h_fr K h) f = Some x /\ f_slices x = l1 ++ j :: l2 /\ fits_all K X (match c with Some c => c | None => X end) (l1 ++ [j]) h) -> fits K h o j) ->
  (fst (fruit_fit K f X c h) = Ok tt -> fruit_fits K h o f) -> opR h o (snd (fruit_fit K f X c h)).
Proof.
  intros Wf E1 E2. unfold fruit_fit in *. set (cc := match c with Some c => c | None => X end) in *.
  unfold bindM at 1, look at 1. unfold bindM at 1, look at 1 in E2.
  destruct (nth_error (h_fr K h) f) as [x|] eqn:Hx; [|apply opR_quiet; [exact Wf|apply quiet_refl]].
  pose proof (fR_forM X cc (f_slices x) h Wf) as R.
  assert (R' : opR h o (snd (forM K (f_slices x) (fun sl => slice_fit K sl X (Some cc)) h))).
  { eapply opR_fR; [|exact R]. intros j (l1 & l2 & Es & F). apply E1. exists x, l1, l2. auto. }
  destruct (forM K (f_slices x) (fun sl => slice_fit K sl X (Some cc)) h) as [[[]|e] h1] eqn:E; cbn [snd] in R, R'.
  2:{ rewrite (bind_err K _ _ _ _ _ E). exact R'. }
  rewrite (bind_ok K _ _ _ _ _ E) in *. destruct R as (Wf1 & G & F1 & L1 & _).
  unfold upd_fr, bindM, look in *. rewrite F1, Hx in *. cbn [fst set_fr snd] in *. specialize (E2 eq_refl).
  destruct R' as (B0 & B1 & B2 & B3 & B4 & B5).
  match goal with |- opR h o ?x => set (h2 := x) end.
  assert (Q : grow h1 h2) by (apply grow_same; reflexivity).
  split; [|split; [eapply grow_trans; eassumption|]].
  - destruct B0 as (C1 & C2). split.
    + intros j s Hj. eapply wf_slice_grow; [exact Q|]. eapply C1. exact Hj.
    + intros j y Hj. cbn in Hj. rewrite F1, nth_error_upd in Hj.
      destruct ((f =? j) && (j <? length (h_fr K h))); [injection Hj as <-|].
      * assert (Cx := C2 f x). rewrite F1 in Cx. destruct (Cx Hx) as (D1 & D2). split; assumption.
      * apply (C2 j y). now rewrite F1.
  - split; [exact B2|]. split; [cbn; rewrite upd_length, F1; lia|]. split; [exact B4|].
    intros j y Hj. cbn in Hj. rewrite F1, nth_error_upd in Hj.
    destruct (Nat.eqb_spec f j) as [<-|Hn]; cbn [andb] in Hj.
    + assert (Lf : f < length (h_fr K h)) by (eapply nth_lt; exact Hx). rewrite (proj2 (Nat.ltb_lt _ _) Lf) in Hj. injection Hj as <-.
      rewrite Hx. right. split; [reflexivity|]. right. split; [exact E2|reflexivity].
    + rewrite Hj. auto.
Qed.
Theorem exec_opR h o : wf h -> opR h o (snd (exec K o h)).
Proof.
  intros Wf. pose proof (quiet_refl K) as Rr. pose proof (quiet_trans K) as Rt.
  assert (Qs : forall o (m : M K unit), pres K quiet m -> opR h o (snd (m h))) by (intros o' m Q; apply opR_quiet; [exact Wf|apply Q]).
  assert (Qv : forall A o (m : M K A), pres K quiet m -> opR h o (snd (void K m h))) by (intros A o' m Q; rewrite void_snd; apply opR_quiet; [exact Wf|apply Q]).
  destruct o; cbn [exec].
  - apply Qv, quiet_new_p. - apply Qv, quiet_new_i. - apply Qv, quiet_new_s.
  - rewrite void_snd. apply (opR_tR none none); [exact Wf|intros j _ []|intros j _ []|apply tR_new_sl].
  - rewrite void_snd. apply (opR_tR none none); [exact Wf|intros j _ []|intros j _ []|apply tR_new_fr].
  - apply Qs. intros h0. apply (step K _ Rt); [apply (pres_look K _ Rr)|]. intros p h1 _. apply (step K _ Rt); [apply Rr|]. intros g h2 _.
    destruct (p_fit K g X p) as [[x p'] g']. apply (step K _ Rt); [apply quiet_set_p|]. intros _ h3 _.
    apply (step K _ Rt); [apply quiet_set_g|]. intros _ h4 _. apply Rr.
  - apply Qs. intros h0. apply (step K _ Rt); [apply (pres_look K _ Rr)|]. intros p h1 _.
    destruct (p_transform K X p) as [x p']. apply (step K _ Rt); [apply quiet_set_p|]. intros _ h3 _. rewrite void_snd. apply Rr.
  - apply Qs. apply (pres_look_bind K _ Rr). intros i h0 Hi. apply (step K _ Rt); [apply Rr|]. intros g h2 E. injection E as <- <-.
    destruct (i_fit K (h_g K h0) X i) as [[x i'] g'] eqn:Ef. apply (step K _ Rt).
    { apply (quiet_set_i K id i' i h0 Hi). pose proof (i_fit_n K W (h_g K h0) X i) as E. rewrite Ef in E. exact E. }
    intros _ h3 _. apply (step K _ Rt); [apply quiet_set_g|]. intros _ h4 _. apply Rr.
  - apply Qs. apply (pres_look_bind K _ Rr). intros s h0 Hi. apply (step K _ Rt); [apply Rr|]. intros g h2 E. injection E as <- <-.
    destruct (s_fit K (h_g K h0) Y s) as [[x s'] g'] eqn:Ef. apply (step K _ Rt).
    { apply (quiet_set_s K id s' s h0 Hi). pose proof (s_fit_nf K W (h_g K h0) Y s) as E. pose proof (s_fit_requires K W (h_g K h0) Y s) as E'.
      pose proof (s_fit_label K W (h_g K h0) Y s) as E2. rewrite Ef in E, E', E2. split; [|split]; assumption. }
    intros _ h3 _. apply (step K _ Rt); [apply quiet_set_g|]. intros _ h4 _. apply Rr.
  - apply Qs. apply (pres_look_bind K _ Rr). intros s h0 Hi.
    destruct (s_transform K Y s) as [x s'] eqn:Ef. apply (step K _ Rt).
    { apply (quiet_set_s K id s' s h0 Hi). pose proof (s_transform_nf K W Y s) as E. pose proof (s_transform_requires K W Y s) as E'.
      pose proof (s_transform_label K W Y s) as E2. rewrite Ef in E, E', E2. split; [|split]; assumption. }
    intros _ h3 _. rewrite void_snd. apply Rr.
  - apply (opR_tR none none); [exact Wf|intros j _ []|intros j _ []|apply tR_sample].
  - apply (opR_tR (only sl) none); [exact Wf|intros j _ ->; reflexivity|intros j _ []|apply tR_slice_add; reflexivity].
  - apply (opR_tR (only sl) none); [exact Wf|intros j _ ->; reflexivity|intros j _ []|apply tR_clear_p].
  - apply (opR_tR (only sl) none); [exact Wf|intros j _ ->; reflexivity|intros j _ []|apply tR_clear_i].
  - apply (opR_tR (only sl) none); [exact Wf|intros j _ ->; reflexivity|intros j _ []|apply tR_clear_s].
  - apply (opR_tR (only sl) none); [exact Wf|intros j _ ->; reflexivity|intros j _ []|apply tR_clear].
  - eapply opR_fR; [|now apply fR_slice_fit]. intros j (-> & E). cbn. auto.
  - apply Qv, quiet_slice_transform, W.
  - rewrite void_snd. unfold slice_fit_transform.
    assert (R : opR h (OFitTransform K sl X) (snd (slice_fit K sl X None h))).
    { eapply opR_fR; [|now apply fR_slice_fit]. intros j (-> & E). cbn. auto. }
    destruct (slice_fit K sl X None h) as [[[]|e] h1] eqn:E; cbn [snd] in R.
    + rewrite (bind_ok K _ _ _ _ _ E). eapply opR_then; [exact R|]. apply (quiet_slice_transform K W).
    + rewrite (bind_err K _ _ _ _ _ E). exact R.
  - rewrite void_snd. apply (opR_tR (fun j => length (h_sl K h) <= j) none); [exact Wf|intros j L C; lia|intros j _ []|]. apply tR_slice_copy. auto.
  - rewrite void_snd. apply (opR_tR (fun j => length (h_sl K h) <= j) none); [exact Wf|intros j L C; lia|intros j _ []|]. apply tR_slice_deepcopy. auto.
  - apply (opR_tR none (only f)); [exact Wf|intros j _ []|intros j _ ->; reflexivity|]. apply tR_fruit_cut. reflexivity.
  - apply (opR_tR (fun j => length (h_sl K h) <= j) (only f)); [exact Wf|intros j L C; lia|intros j _ ->; reflexivity|]. apply tR_copycut; [reflexivity|auto].
  - apply (opR_tR none none); [exact Wf|intros j _ []|intros j _ []|apply tR_switch].
  - apply (opR_tR (fun j => selected K h f = Some j \/ length (h_sl K h) <= j) (only f)); [exact Wf| |intros j _ ->; reflexivity|apply tR_fruit_add; [reflexivity|auto]].
    intros j L [E|C]; [exact E|lia].
  - apply opR_fruit_fit; [exact Wf|auto|cbn; auto].
  - apply Qv. apply (quiet_fruit_transform K W).
  - rewrite void_snd. unfold fruit_fit_transform.
    assert (R : opR h (FFitTransform K f X cbs) (snd (fruit_fit K f X None h))) by (apply opR_fruit_fit; [exact Wf|auto|cbn; auto]).
    destruct (fruit_fit K f X None h) as [[[]|e] h1] eqn:E; cbn [snd] in R.
    + rewrite (bind_ok K _ _ _ _ _ E). eapply opR_then; [exact R|]. apply (quiet_fruit_transform K W).
    + rewrite (bind_err K _ _ _ _ _ E). exact R.
  - rewrite void_snd. apply (opR_tR (fun j => length (h_sl K h) <= j) (fun j => length (h_fr K h) <= j)); [exact Wf|intros; lia|intros; lia|apply tR_fruit_copy].
  - rewrite void_snd. apply (opR_tR (fun j => length (h_sl K h) <= j) (fun j => length (h_fr K h) <= j)); [exact Wf|intros; lia|intros; lia|apply tR_fruit_deepcopy].
Qed.
Lemma wf0 g : wf (heap0 K g).
Proof. split; intros j x Hj; destruct j; discriminate. Qed.
Lemma run_app h a b : run K h (a ++ b) = run K (run K h a) b.
Proof. apply fold_left_app. Qed.
Theorem reachable_wf h : reachable K h -> wf h.
Proof.
  intros (g & ops & ->). pose proof (wf0 g) as Wf. revert Wf. generalize (heap0 K g). induction ops as [|o ops IH]; intros h Wf; [exact Wf|].
  cbn. apply IH. apply (exec_opR h o Wf).
Qed.
End Steps.
