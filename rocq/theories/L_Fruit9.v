(** Frame: calls that do not mention a region leave it unchanged. *)
From Coq Require Import Ascii String List Arith ZArith Bool RelationClasses Lia.
From Verif Require Import Num Arr M_Str M_Words M_Np M_Fruit S_Fruit S_Sep L_Arr L_Fruit L_Fruit2 L_Fruit3 L_Fruit4.
Import ListNotations.

Section Frame.
Context {T : Type} `{Num T}.
Variable K : kit T.
Variable Q : region.
Notation heap := (heap K).

Definition fr (h h' : heap) : Prop :=
  exists_in K Q h /\ unreferenced K Q h -> (exists_in K Q h' /\ unreferenced K Q h') /\ unchanged K Q h h'.
Lemma unchanged_refl h : unchanged K Q h h. Proof. repeat split. Qed.
Lemma fr_refl h : fr h h. Proof. intros E. split; [exact E|apply unchanged_refl]. Qed.
Lemma fr_trans a b c : fr a b -> fr b c -> fr a c.
Proof.
  intros A B E. destruct (A E) as (E1 & U1 & U2 & U3 & U4 & U5). destruct (B E1) as (E2 & V1 & V2 & V3 & V4 & V5). split; [exact E2|].
  split; [|split; [|split; [|split]]]; intros id Hid; [rewrite V1|rewrite V2|rewrite V3|rewrite V4|rewrite V5]; auto.
Qed.
Lemma len_app1 {A} (l : list A) v : length (l ++ [v]) = S (length l).
Proof. rewrite app_length. cbn. lia. Qed.
Ltac five := split; [|split; [|split; [|split]]].
Lemma fr_new_p v : pres K fr (new_p K v).
Proof.
  intros h ((E1 & E2 & E3 & E4 & E5) & (R1 & R2)). split; [split; [five; cbn; auto; intros id Hid; rewrite len_app1; specialize (E1 id Hid); lia|split; assumption]|].
  five; cbn; auto. intros id Hid. apply nth_error_app1. auto.
Qed.
Lemma fr_new_i v : pres K fr (new_i K v).
Proof.
  intros h ((E1 & E2 & E3 & E4 & E5) & (R1 & R2)). split; [split; [five; cbn; auto; intros id Hid; rewrite len_app1; specialize (E2 id Hid); lia|split; assumption]|].
  five; cbn; auto. intros id Hid. apply nth_error_app1. auto.
Qed.
Lemma fr_new_s v : pres K fr (new_s K v).
Proof.
  intros h ((E1 & E2 & E3 & E4 & E5) & (R1 & R2)). split; [split; [five; cbn; auto; intros id Hid; rewrite len_app1; specialize (E3 id Hid); lia|split; assumption]|].
  five; cbn; auto. intros id Hid. apply nth_error_app1. auto.
Qed.
Lemma nth_snoc {A} (l : list A) v j x : nth_error (l ++ [v]) j = Some x -> nth_error l j = Some x \/ (j = length l /\ x = v).
Proof.
  intros E. destruct (Nat.lt_ge_cases j (length l)) as [L|L].
  - left. now rewrite nth_error_app1 in E.
  - right. rewrite nth_error_app2 in E by exact L. destruct (j - length l) as [|k] eqn:Ek; cbn in E; [|destruct k; discriminate].
    injection E as <-. split; [lia|reflexivity].
Qed.
Lemma fr_new_sl : pres K fr (new_sl K slice_new).
Proof.
  intros h ((E1 & E2 & E3 & E4 & E5) & (R1 & R2)). split; [split; [five; cbn; auto; intros id Hid; rewrite len_app1; specialize (E4 id Hid); lia|split; [|assumption]]|].
  - intros j s Hj Hq. cbn in Hj. apply nth_snoc in Hj as [Hj|(_ & ->)]; [eauto|]. repeat split; cbn; intros; contradiction.
  - five; cbn; auto. intros id Hid. apply nth_error_app1. auto.
Qed.
Lemma fr_new_fr n : pres K fr (new_fr K (fruit_new n)).
Proof.
  intros h ((E1 & E2 & E3 & E4 & E5) & (R1 & R2)). split; [split; [five; cbn; auto; intros id Hid; rewrite len_app1; specialize (E5 id Hid); lia|split; [assumption|]]|].
  - intros j s Hj Hq. cbn in Hj. apply nth_snoc in Hj as [Hj|(_ & ->)]; [eauto|]. cbn. intros; contradiction.
  - five; cbn; auto. intros id Hid. apply nth_error_app1. auto.
Qed.
Lemma fr_set_p id v : ~ q_p Q id -> pres K fr (set_p K id v).
Proof.
  intros Hq h ((E1 & E2 & E3 & E4 & E5) & (R1 & R2)). split; [split; [five; cbn; auto; intros j Hj; rewrite upd_length; auto|split; assumption]|].
  five; cbn; auto. intros j Hj. apply upd_nth_error_neq. congruence.
Qed.
Lemma fr_set_i id v : ~ q_i Q id -> pres K fr (set_i K id v).
Proof.
  intros Hq h ((E1 & E2 & E3 & E4 & E5) & (R1 & R2)). split; [split; [five; cbn; auto; intros j Hj; rewrite upd_length; auto|split; assumption]|].
  five; cbn; auto. intros j Hj. apply upd_nth_error_neq. congruence.
Qed.
Lemma fr_set_s id v : ~ q_s Q id -> pres K fr (set_s K id v).
Proof.
  intros Hq h ((E1 & E2 & E3 & E4 & E5) & (R1 & R2)). split; [split; [five; cbn; auto; intros j Hj; rewrite upd_length; auto|split; assumption]|].
  five; cbn; auto. intros j Hj. apply upd_nth_error_neq. congruence.
Qed.
Lemma upd_cases {A} i (v : A) l j x : nth_error (upd i v l) j = Some x -> (j = i /\ x = v) \/ nth_error l j = Some x.
Proof. rewrite nth_error_upd. destruct (Nat.eqb_spec i j) as [->|]; cbn [andb]; [|auto]. destruct (j <? length l); [intros E; injection E; auto|auto]. Qed.
Lemma fr_set_sl id s : ~ q_sl Q id -> slice_avoids Q s -> pres K fr (set_sl K id s).
Proof.
  intros Hq Hs h ((E1 & E2 & E3 & E4 & E5) & (R1 & R2)). split; [split; [five; cbn; auto; intros j Hj; rewrite upd_length; auto|split; [|assumption]]|].
  - intros j s0 Hj Hn. cbn in Hj. apply upd_cases in Hj as [(_ & ->)|Hj]; eauto.
  - five; cbn; auto. intros j Hj. apply upd_nth_error_neq. congruence.
Qed.
Lemma fr_set_fr id x : ~ q_fr Q id -> (forall sl, In sl (f_slices x) -> ~ q_sl Q sl) -> pres K fr (set_fr K id x).
Proof.
  intros Hq Hs h ((E1 & E2 & E3 & E4 & E5) & (R1 & R2)). split; [split; [five; cbn; auto; intros j Hj; rewrite upd_length; auto|split; [assumption|]]|].
  - intros j s0 Hj Hn. cbn in Hj. apply upd_cases in Hj as [(_ & ->)|Hj]; eauto.
  - five; cbn; auto. intros j Hj. apply upd_nth_error_neq. congruence.
Qed.
Lemma fr_set_g g : pres K fr (set_g K g). Proof. intros h E. split; [exact E|repeat split]. Qed.
Lemma fr_emit c e : pres K fr (emit K c e). Proof. intros h E. split; [exact E|repeat split]. Qed.
Lemma fr_same {A} (m : M K A) : (forall h, snd (m h) = h) -> pres K fr m.
Proof. intros E h. rewrite E. apply fr_refl. Qed.
(** Lookups of objects outside of the region. *)
Lemma fr_look_sl {B} sl (f : slice -> M K B) : ~ q_sl Q sl -> (forall s, slice_avoids Q s -> pres K fr (f s)) -> pres K fr (bindM K (look K (h_sl K) sl) f).
Proof.
  intros Hq E. apply (pres_look_bind K _ fr_refl). intros s h Hs (E1 & E2). apply (E s); [|auto]. exact (proj1 E2 sl s Hs Hq).
Qed.
Lemma fr_look_fr {B} f (g : fruit -> M K B) : ~ q_fr Q f -> (forall x, (forall sl, In sl (f_slices x) -> ~ q_sl Q sl) -> pres K fr (g x)) -> pres K fr (bindM K (look K (h_fr K) f) g).
Proof.
  intros Hq E. apply (pres_look_bind K _ fr_refl). intros s h Hs (E1 & E2). apply (E s); [|auto]. exact (proj2 E2 f s Hs Hq).
Qed.
Ltac fp := repeat lazymatch goal with
  | |- pres _ fr (bindM _ _ _) => apply (pres_bind K fr fr_trans); [|intros]
  | |- pres _ fr (forM _ _ _) => apply (pres_forM K fr fr_refl fr_trans); intros
  | |- pres _ fr (collect _ _ _) => apply (pres_collect K fr fr_refl fr_trans); intros
  | |- pres _ fr (ret _ _) => apply (pres_ret K fr fr_refl)
  | |- pres _ fr (raise _ _) => apply (pres_raise K fr fr_refl)
  | |- pres _ fr (liftR _ _) => apply (pres_liftR K fr fr_refl)
  | |- pres _ fr (look _ _ _) => apply (pres_look K fr fr_refl)
  | |- pres _ fr (get_g _) => apply (pres_get_g K fr fr_refl)
  | |- pres _ fr (set_g _ _) => apply fr_set_g
  | |- pres _ fr (emit _ _ _) => apply fr_emit
  | |- pres _ fr (new_p _ _) => apply fr_new_p
  | |- pres _ fr (new_i _ _) => apply fr_new_i
  | |- pres _ fr (new_s _ _) => apply fr_new_s
  | |- pres _ fr (set_p _ _ _) => apply fr_set_p
  | |- pres _ fr (set_i _ _ _) => apply fr_set_i
  | |- pres _ fr (set_s _ _ _) => apply fr_set_s
  end.
Lemma fr_upd_sl sl f : ~ q_sl Q sl -> (forall s, slice_avoids Q s -> slice_avoids Q (f s)) -> pres K fr (upd_sl K sl f).
Proof. intros Hq E. unfold upd_sl. apply fr_look_sl; [exact Hq|]. intros s Hs. apply fr_set_sl; auto. Qed.
Lemma av_snoc (P : nat -> Prop) l id : (forall i, In i l -> ~ P i) -> ~ P id -> forall i, In i (l ++ [id]) -> ~ P i.
Proof. intros A B i Hi. apply in_app_iff in Hi as [Hi|[<-|[]]]; auto. Qed.
Lemma fr_add_p sl id : ~ q_sl Q sl -> ~ q_p Q id -> pres K fr (add_p K sl id).
Proof. intros A B. apply fr_upd_sl; [exact A|]. intros s (S1 & S2 & S3 & S4). split; [|auto]. cbn. now apply av_snoc. Qed.
Lemma fr_add_i sl id : ~ q_sl Q sl -> ~ q_i Q id -> pres K fr (add_i K sl id).
Proof. intros A B. apply fr_upd_sl; [exact A|]. intros s (S1 & S2 & S3 & S4). split; [auto|]. split; [|auto]. cbn. now apply av_snoc. Qed.
Lemma fr_add_s sl id : ~ q_sl Q sl -> ~ q_s Q id -> pres K fr (add_s K sl id).
Proof. intros A B. apply fr_upd_sl; [exact A|]. intros s (S1 & S2 & S3 & S4). split; [auto|]. split; [auto|]. split; [|auto]. cbn. now apply av_snoc. Qed.
Lemma fr_step {A B} (m : M K A) (f : A -> M K B) h : fr h (snd (m h)) ->
  (forall a h', m h = (Ok a, h') -> (exists_in K Q h /\ unreferenced K Q h) -> fr h' (snd (f a h'))) -> fr h (snd (bindM K m f h)).
Proof.
  intros A1 A2 E. unfold bindM. destruct (m h) as [[a|e] h1]; cbn [snd] in *; [|auto].
  refine (fr_trans h h1 _ A1 _ E). now apply A2.
Qed.
Lemma fr_add1 sl a : ~ q_sl Q sl -> arg_avoids K Q a -> pres K fr (add1 K sl a).
Proof.
  intros A B. destruct a as [id|id|id|r|r|r|]; cbn [add1 arg_avoids] in *;
    [fp; now apply fr_add_p|fp; now apply fr_add_i|fp; now apply fr_add_s| | | |fp]; (apply (pres_bind K fr fr_trans); [fp|intros v]);
    intros h; (apply fr_step; [apply fr_new_p || apply fr_new_i || apply fr_new_s|]); intros n h' E (Ex & _); injection E as <- _.
  - apply fr_add_p; [exact A|]. intros C. apply Ex in C. lia.
  - apply fr_add_i; [exact A|]. intros C. apply Ex in C. lia.
  - apply fr_add_s; [exact A|]. intros C. apply Ex in C. lia.
Qed.
Lemma fr_slice_add sl objects : ~ q_sl Q sl -> Forall (arg_avoids K Q) objects -> pres K fr (slice_add K sl objects).
Proof. intros A B. unfold slice_add. apply (pres_forM K fr fr_refl fr_trans). intros a Ha. apply fr_add1; [exact A|]. rewrite Forall_forall in B. auto. Qed.
Lemma av_with s f : slice_avoids Q s -> (sl_p (f s) = sl_p s \/ sl_p (f s) = []) -> (sl_i (f s) = sl_i s \/ sl_i (f s) = []) ->
  (sl_s (f s) = sl_s s \/ sl_s (f s) = []) -> (sl_ext (f s) = sl_ext s \/ sl_ext (f s) = []) -> slice_avoids Q (f s).
Proof.
  intros (S1 & S2 & S3 & S4) A B C D. unfold slice_avoids.
  destruct A as [-> | ->], B as [-> | ->], C as [-> | ->], D as [-> | ->]; repeat split; auto; cbn; intros; contradiction.
Qed.
Ltac clr A := apply fr_upd_sl; [exact A|]; intros s Hs; apply (av_with s _ Hs); cbn; auto.
Lemma fr_clear_p sl : ~ q_sl Q sl -> pres K fr (clear_p K sl).
Proof. intros A. unfold clear_p. apply fr_upd_sl; [exact A|]. intros s Hs. apply (av_with s (with_p []) Hs); cbn; auto. Qed.
Lemma fr_clear_i sl : ~ q_sl Q sl -> pres K fr (clear_i K sl).
Proof. intros A. unfold clear_i. apply fr_upd_sl; [exact A|]. intros s Hs. apply (av_with s (fun s => with_ext [] (with_i [] s)) Hs); cbn; auto. Qed.
Lemma fr_clear_s sl : ~ q_sl Q sl -> pres K fr (clear_s K sl).
Proof. intros A. unfold clear_s. apply fr_upd_sl; [exact A|]. intros s Hs. apply (av_with s (fun s => with_ext [] (with_s [] s)) Hs); cbn; auto. Qed.
Lemma fr_sample sl x : ~ q_sl Q sl -> pres K fr (upd_sl K sl (with_sample x)).
Proof. intros A. apply fr_upd_sl; [exact A|]. intros s Hs. apply (av_with s (with_sample x) Hs); cbn; auto. Qed.
Lemma fr_fitted_sl sl x : ~ q_sl Q sl -> pres K fr (upd_sl K sl (with_fitted x)).
Proof. intros A. apply fr_upd_sl; [exact A|]. intros s Hs. apply (av_with s (with_fitted x) Hs); cbn; auto. Qed.
Lemma fr_clear sl : ~ q_sl Q sl -> pres K fr (clear K sl).
Proof. intros A. unfold clear. fp; [now apply fr_clear_p|now apply fr_clear_i|now apply fr_clear_s|now apply fr_sample]. Qed.
Lemma fr_nfeatures sl : pres K fr (slice_nfeatures K sl).
Proof. unfold slice_nfeatures, sum_nf, niteratedsums. fp. Qed.
Lemma fr_select_sample size n : pres K fr (select_sample K size n).
Proof.
  unfold select_sample. fp. destruct size as [|f].
  - destruct (n =? 0); fp. destruct (k_randint K a n). fp.
  - destruct (n <? Nat.max (f n) 1); fp. destruct (k_choice K a n (Nat.max (f n) 1)). fp.
Qed.
Lemma fr_fit_preps c ids Y : (forall id, In id ids -> ~ q_p Q id) -> pres K fr (fit_preps K c ids Y).
Proof.
  revert Y. induction ids as [|id ids IH]; intros Y A; cbn [fit_preps]; fp.
  destruct (p_fit K a0 Y (p_attach K c a)) as [[x p1] g']. fp; [apply A; now left|]. destruct (p_transform K Y p1) as [y p2]. fp; [apply A; now left|].
  apply IH. intros; apply A; now right.
Qed.
Lemma fr_fit_iss c Y id : ~ q_i Q id -> pres K fr (fit_iss K c Y id).
Proof. intros A. unfold fit_iss. fp. destruct (i_requires K (i_attach K c a)); [destruct (i_fit K a0 Y (i_attach K c a)) as [[x i1] g']|]; fp; exact A. Qed.
Lemma fr_fit_sieve c Y id : ~ q_s Q id -> pres K fr (fit_sieve K c Y id).
Proof. intros A. unfold fit_sieve. fp. destruct (s_fit K a0 Y (s_attach K c a)) as [[x s1] g']. fp. exact A. Qed.
Lemma fr_copy_sieve id : pres K fr (copy_sieve K id). Proof. unfold copy_sieve. fp. Qed.
(** The copies are fresh. *)
Lemma copies_fresh ids h l h' : collect K ids (copy_sieve K) h = (Ok l, h') -> exists_in K Q h -> forall id, In id l -> ~ q_s Q id.
Proof.
  revert h l h'. induction ids as [|i ids IH]; intros h l h' E Ex id Hid; cbn [collect] in E; [injection E as <- _; contradiction|].
  unfold copy_sieve at 1 in E. unfold bindM at 1 2 in E. unfold look in E. destruct (nth_error (h_s K h) i) as [v|]; [|discriminate].
  unfold bindM at 1, liftR in E. destruct (s_copy K v) as [v'|]; [|discriminate]. unfold new_s at 1 in E.
  match type of E with bindM K _ _ ?x = _ => set (h1 := x) in E end. unfold bindM in E.
  destruct (collect K ids (copy_sieve K) h1) as [[l'|] h2] eqn:E2; [|discriminate]. injection E as <- <-.
  destruct Hid as [<-|Hid]; [intros C; apply Ex in C; lia|]. eapply IH; [exact E2| |exact Hid].
  destruct Ex as (E1 & E3 & E4 & E5 & E6). split; [|split; [|split; [|split]]]; try assumption. intros k Hk. unfold h1. cbn. rewrite len_app1. specialize (E4 k Hk). lia.
Qed.
Lemma fr_fit_ext c sl sieves its : ~ q_sl Q sl -> pres K fr (fit_ext K c sl sieves its).
Proof.
  intros A. induction its as [|[Y|e] its IH]; cbn [fit_ext]; [fp| |fp]. intros h. apply fr_step; [apply (pres_collect K fr fr_refl fr_trans); intros; apply fr_copy_sieve|].
  intros l h1 E (Ex & _). pose proof (copies_fresh _ _ _ _ E Ex) as F. clear E.
  match goal with |- fr ?x (snd (?m ?x)) => enough (G : pres K fr m) by exact (G x) end. fp; [now apply fr_fit_sieve, F| |exact IH].
  apply fr_upd_sl; [exact A|]. intros s (S1 & S2 & S3 & S4). split; [exact S1|]. split; [exact S2|]. split; [exact S3|].
  intros row id Hr Hid. cbn in Hr. apply in_app_iff in Hr as [Hr|[<-|[]]]; eauto.
Qed.
Lemma fr_slice_fit sl X cache : ~ q_sl Q sl -> pres K fr (slice_fit K sl X cache).
Proof.
  intros A. unfold slice_fit. apply fr_look_sl; [exact A|]. intros s (S1 & S2 & S3 & S4).
  destruct (negb (nonempty (sl_i s))); [fp|]. destruct (negb (nonempty (sl_s s))); [fp|].
  apply (pres_bind K fr fr_trans); [apply fr_select_sample|intros idx].
  apply (pres_bind K fr fr_trans); [now apply fr_fit_preps|intros Y].
  apply (pres_bind K fr fr_trans); [fp; now apply fr_fit_iss, S2|intros _].
  apply (pres_bind K fr fr_trans); [fp|intros svs]. destruct (negb (existsb (s_requires K) svs)); [now apply fr_fitted_sl|].
  apply (pres_bind K fr fr_trans).
  { apply fr_upd_sl; [exact A|]. intros s' Hs'. apply (av_with s' (with_ext []) Hs'); cbn; auto. }
  intros _. apply (pres_bind K fr fr_trans); [fp|intros is]. apply (pres_bind K fr fr_trans); [now apply fr_fit_ext|intros _]. now apply fr_fitted_sl.
Qed.
Lemma fr_run_preps c cbs ids Y : (forall id, In id ids -> ~ q_p Q id) -> pres K fr (run_preps K c cbs ids Y).
Proof.
  revert Y. induction ids as [|id ids IH]; intros Y A; cbn [run_preps]; fp.
  destruct (p_transform K Y (p_attach K c a)) as [y p1]. fp; [apply A; now left|]. apply IH. intros; apply A; now right.
Qed.
Lemma fr_run_sieves c cbs ids Y kA : (forall id, In id ids -> ~ q_s Q id) -> pres K fr (run_sieves K c cbs ids Y kA).
Proof.
  revert kA. induction ids as [|id ids IH]; intros kA A; cbn [run_sieves]; fp. destruct kA as [k B].
  destruct (s_transform K Y (s_attach K c a)) as [y s1]. fp; [apply A; now left|]. apply IH. intros; apply A; now right.
Qed.
Lemma fr_run_itsums c cbs s i its kA : slice_avoids Q s -> pres K fr (run_itsums K c cbs s i its kA).
Proof.
  intros (S1 & S2 & S3 & S4). revert i kA. induction its as [|[Y|e] its IH]; intros i kA; cbn [run_itsums]; [fp| |fp].
  apply (pres_bind K fr fr_trans); [fp|intros _].
  assert (G : forall ids, (forall id, In id ids -> ~ q_s Q id) -> pres K fr (bindM K (run_sieves K c cbs ids Y kA) (fun kA' => run_itsums K c cbs s (S i) its kA'))).
  { intros ids V. fp; [now apply fr_run_sieves|apply IH]. }
  destruct (nonempty (sl_ext s)).
  - destruct (nth_error (sl_ext s) i) as [row|] eqn:Er; [|intros h; cbn; apply fr_refl]. apply (G row). intros id. apply S4. eapply nth_error_In, Er.
  - now apply (G (sl_s s)).
Qed.
Lemma fr_slice_transform sl X cbs cache : ~ q_sl Q sl -> pres K fr (slice_transform K sl X cbs cache).
Proof.
  intros A. unfold slice_transform. apply fr_look_sl; [exact A|]. intros s Hs. destruct (negb (sl_fitted s)); [fp|].
  apply (pres_bind K fr fr_trans); [apply fr_run_preps, Hs|intros Y]. apply (pres_bind K fr fr_trans); [fp|intros _].
  apply (pres_bind K fr fr_trans); [apply fr_nfeatures|intros nf].
  apply (pres_bind K fr fr_trans); [fp; now apply Hs|intros _].
  apply (pres_bind K fr fr_trans); [fp|intros is]. apply (pres_bind K fr fr_trans); [now apply fr_run_itsums|intros kA]. fp.
Qed.
Lemma fr_dc_body s n : ~ q_sl Q n -> pres K fr (dc_body K s n).
Proof. intros A. unfold dc_body. fp; try (apply fr_add1; [exact A|exact I]). now apply fr_sample. Qed.
Lemma fr_slice_deepcopy sl : pres K fr (slice_deepcopy K sl).
Proof.
  intros h. rewrite slice_deepcopy_eq. destruct (nth_error (h_sl K h) sl) as [s|]; [|apply fr_refl]. intros E.
  refine (fr_trans h (snd (new_sl K slice_new h)) _ _ _ E); [apply fr_new_sl|]. apply fr_dc_body. intros C. apply (proj1 E) in C. lia.
Qed.
Lemma fr_sc_body s n : slice_avoids Q s -> ~ q_sl Q n -> pres K fr (sc_body K s n).
Proof.
  intros (S1 & S2 & S3 & _) A. unfold sc_body. fp; apply fr_slice_add; try exact A; apply Forall_forall; intros ar Ha; apply in_map_iff in Ha as (id & <- & Hid); cbn; auto.
Qed.
Lemma fr_slice_copy sl : ~ q_sl Q sl -> pres K fr (slice_copy K sl).
Proof.
  intros A h. rewrite slice_copy_eq. destruct (nth_error (h_sl K h) sl) as [s|] eqn:Es; [|apply fr_refl]. intros E.
  refine (fr_trans h (snd (new_sl K slice_new h)) _ _ _ E); [apply fr_new_sl|]. apply fr_sc_body; [exact (proj1 (proj2 E) sl s Es A)|]. intros C. apply (proj1 E) in C. lia.
Qed.
Lemma fr_upd_fr f g : ~ q_fr Q f -> (forall x, f_slices (g x) = f_slices x) -> pres K fr (upd_fr K f g).
Proof. intros A B. unfold upd_fr. apply fr_look_fr; [exact A|]. intros x Hx. apply fr_set_fr; [exact A|]. now rewrite B. Qed.
Lemma fr_upd_cut f sl : ~ q_fr Q f -> ~ q_sl Q sl -> pres K fr (upd_fr K f (fr_cut sl)).
Proof. intros A B. unfold upd_fr. apply fr_look_fr; [exact A|]. intros x Hx. apply fr_set_fr; [exact A|]. cbn. now apply av_snoc. Qed.
Lemma fr_fruit_cut f sl : ~ q_fr Q f -> match sl with Some sl => ~ q_sl Q sl | None => True end -> pres K fr (fruit_cut K f sl).
Proof.
  intros A B h. unfold fruit_cut. destruct sl as [sl|].
  - apply fr_step; [apply (pres_bind K fr fr_trans); [fp|intros _; fp]|]. intros id h' E _.
    unfold bindM, look in E. destruct (nth_error (h_sl K h) sl); [|discriminate]. injection E as <- <-. now apply fr_upd_cut.
  - apply fr_step; [apply fr_new_sl|]. intros id h' E (Ex & _). injection E as <- _. apply fr_upd_cut; [exact A|]. intros C. apply Ex in C. lia.
Qed.
Lemma fr_get_slice f z : pres K fr (fruit_get_slice K f z).
Proof.
  unfold fruit_get_slice. fp. destruct z as [z|]; fp; match goal with |- pres _ _ (match ?x with Some _ => _ | None => _ end) => destruct x end; fp.
Qed.
Lemma get_slice_in f h a h' : fruit_get_slice K f None h = (Ok a, h') -> exists x, nth_error (h_fr K h) f = Some x /\ In a (f_slices x).
Proof.
  unfold fruit_get_slice, bindM, look. destruct (nth_error (h_fr K h) f) as [x|]; [|discriminate].
  destruct (nth_error (f_slices x) (f_idx x)) as [id|] eqn:E; [|discriminate]. intros E'. injection E' as <- _. exists x. split; [reflexivity|]. eapply nth_error_In, E.
Qed.
Lemma fr_fruit_copycut f : ~ q_fr Q f -> pres K fr (fruit_copycut K f).
Proof.
  intros A h. unfold fruit_copycut. apply fr_step; [apply fr_get_slice|]. intros s h1 E1 _. apply fr_step; [apply fr_slice_deepcopy|].
  intros d h2 E2 (Ex & _). apply slice_deepcopy_ret in E2 as (-> & _). apply fr_fruit_cut; [exact A|]. intros C. apply Ex in C. lia.
Qed.
Lemma fr_fruit_switch f z : ~ q_fr Q f -> pres K fr (fruit_switch K f z).
Proof. intros A. unfold fruit_switch. apply fr_look_fr; [exact A|]. intros x Hx. destruct (_ && _); [|fp]. apply fr_set_fr; assumption. Qed.
Lemma fr_fruit_add f objects : ~ q_fr Q f -> Forall (arg_avoids K Q) objects -> pres K fr (fruit_add K f objects).
Proof.
  intros A B. unfold fruit_add. apply fr_look_fr; [exact A|]. intros x _. apply (pres_bind K fr fr_trans); [destruct (nonempty (f_slices x)); [fp|now apply fr_fruit_cut]|intros _].
  intros h. apply fr_step; [apply fr_get_slice|]. intros s h1 E (Ex & Un). pose proof (get_slice_same K _ _ _ _ _ E) as ->. apply get_slice_in in E as (y & Hy & Hs).
  pose proof (proj2 Un f y Hy A s Hs) as Hq.
  match goal with |- fr ?x (snd (?m ?x)) => enough (G : pres K fr m) by exact (G x) end. fp; [now apply fr_slice_add|]. now apply fr_upd_fr.
Qed.
Lemma fr_fruit_fit f X c : ~ q_fr Q f -> pres K fr (fruit_fit K f X c).
Proof. intros A. unfold fruit_fit. apply fr_look_fr; [exact A|]. intros x Hx. fp; [now apply fr_slice_fit, Hx|]. now apply fr_upd_fr. Qed.
Lemma fr_run_slices c X cbs ids index A : (forall sl, In sl ids -> ~ q_sl Q sl) -> pres K fr (run_slices K c X cbs ids index A).
Proof.
  revert index A. induction ids as [|id ids IH]; intros index A V; cbn [run_slices]; fp.
  - apply fr_nfeatures. - apply fr_slice_transform, V. now left. - apply IH. intros; apply V; now right.
Qed.
Lemma fr_fruit_transform f X cbs c : ~ q_fr Q f -> pres K fr (fruit_transform K f X cbs c).
Proof.
  intros A. unfold fruit_transform, fruit_nfeatures. apply fr_look_fr; [exact A|]. intros x Hx. destruct (negb (f_fitted x)); fp.
  - apply fr_nfeatures. - now apply fr_run_slices.
Qed.
Lemma fr_copy_loop (cp : nat -> M K nat) sls new h0 : exists_in K Q h0 -> (forall sl, In sl sls -> pres K fr (cp sl)) ->
  (forall sl h a h', cp sl h = (Ok a, h') -> a = length (h_sl K h)) -> ~ q_fr Q new ->
  pres K fr (forM K sls (fun sl => bindM K (cp sl) (fun s => fruit_cut K new (Some s)))).
Proof.
  intros _ Ec Er Hn. apply (pres_forM K fr fr_refl fr_trans). intros sl Hsl h. apply fr_step; [now apply Ec|].
  intros s h1 E (Ex & _). rewrite (Er _ _ _ _ E). apply fr_fruit_cut; [exact Hn|]. intros C. apply Ex in C. lia.
Qed.
Lemma fr_fruit_copy f : ~ q_fr Q f -> pres K fr (fruit_copy K f).
Proof.
  intros A. unfold fruit_copy. apply fr_look_fr; [exact A|]. intros x Hx h. apply fr_step; [apply fr_new_fr|]. intros n h1 E (Ex & _). injection E as <- <-.
  apply fr_step; [|intros; apply fr_refl]. apply (fr_copy_loop _ _ _ h Ex).
  - intros sl Hsl. now apply fr_slice_copy, Hx.
  - intros sl h0 a h' E. now apply slice_copy_ret in E as (-> & _).
  - intros C. apply Ex in C. lia.
Qed.
Lemma fr_fruit_deepcopy f : pres K fr (fruit_deepcopy K f).
Proof.
  unfold fruit_deepcopy. apply (pres_bind K fr fr_trans); [fp|]. intros x h. apply fr_step; [apply fr_new_fr|]. intros n h1 E (Ex & _). injection E as <- <-.
  apply fr_step; [|intros; apply fr_refl]. apply (fr_copy_loop _ _ _ h Ex).
  - intros sl Hsl. apply fr_slice_deepcopy.
  - intros sl h0 a h' E. now apply slice_deepcopy_ret in E as (-> & _).
  - intros C. apply Ex in C. lia.
Qed.
Lemma fr_void {A} (m : M K A) : pres K fr m -> pres K fr (void K m).
Proof. intros E h. rewrite void_snd. apply E. Qed.
Theorem exec_frame o : avoids K Q o -> pres K fr (exec K o).
Proof.
  destruct o; cbn [avoids exec]; intros A; try apply fr_void.
  - fp. - fp. - fp. - apply fr_new_sl. - apply fr_new_fr.
  - fp. destruct (p_fit K a0 X a) as [[x p'] g']. fp. exact A.
  - fp. destruct (p_transform K X a) as [x p']. fp; [exact A|]. apply fr_void. fp.
  - fp. destruct (i_fit K a0 X a) as [[x p'] g']. fp. exact A.
  - fp. destruct (s_fit K a0 Y a) as [[x p'] g']. fp. exact A.
  - fp. destruct (s_transform K Y a) as [x p']. fp; [exact A|]. apply fr_void. fp.
  - now apply fr_sample.
  - now apply fr_slice_add.
  - now apply fr_clear_p. - now apply fr_clear_i. - now apply fr_clear_s. - now apply fr_clear.
  - now apply fr_slice_fit.
  - now apply fr_slice_transform.
  - unfold slice_fit_transform. fp; [now apply fr_slice_fit|now apply fr_slice_transform].
  - now apply fr_slice_copy. - now apply fr_slice_deepcopy.
  - now apply fr_fruit_cut. - now apply fr_fruit_copycut. - now apply fr_fruit_switch. - now apply fr_fruit_add.
  - now apply fr_fruit_fit. - now apply fr_fruit_transform.
  - unfold fruit_fit_transform. fp; [now apply fr_fruit_fit|now apply fr_fruit_transform].
  - now apply fr_fruit_copy. - now apply fr_fruit_deepcopy.
Qed.
Theorem run_frame ops h : Forall (avoids K Q) ops -> fr h (run K h ops).
Proof.
  intros F. revert h. induction F as [|o ops A F IH]; intros h; [apply fr_refl|]. cbn. eapply fr_trans; [apply (exec_frame o A)|apply IH].
Qed.
End Frame.
