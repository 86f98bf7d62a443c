(** C33: what callbacks receive during transform. *)
From Coq Require Import Ascii String List Arith ZArith Bool RelationClasses Lia.
From Verif Require Import Num Arr M_Str M_Words M_Np M_Prep M_Fruit S_Fruit S_Trace L_Arr L_Fruit L_Fruit2 L_Fruit3 L_Fruit4 L_Fruit5 L_Fruit6 L_Fruit7 L_Fruit8 P_Fruit2.
Import ListNotations.

Section C33.
Context {T : Type} `{Num T}.
Variable K : kit T.
Variable W : lawful K.
Notation heap := (heap K).

(** ** Matrices *)
Lemma py_slice_rows {A} a n (l : list A) : py_slice (Some (Z.of_nat a)) (Some (Z.of_nat (a + n))) l = firstn n (skipn a l).
Proof.
  unfold py_slice. cbn [lo_bound hi_bound]. unfold py_bound.
  replace (Z.of_nat a <? 0)%Z with false by (symmetry; apply Z.ltb_ge; lia).
  replace (Z.of_nat (a + n) <? 0)%Z with false by (symmetry; apply Z.ltb_ge; lia).
  rewrite !Nat2Z.id. destruct (le_lt_dec (length l) a) as [L|L].
  - rewrite (Nat.min_r a) by lia. rewrite !skipn_all2 by lia. now rewrite !firstn_nil.
  - rewrite (Nat.min_l a) by lia. destruct (le_lt_dec (length l) (a + n)) as [L2|L2].
    + rewrite Nat.min_r by lia. rewrite !firstn_all2 by (rewrite skipn_length; lia). reflexivity.
    + rewrite Nat.min_l by lia. f_equal. lia.
Qed.
Lemma hfold_app (P : mts T) R1 R2 : hfold P (R1 ++ R2) = hfold (hfold P R1) R2.
Proof. unfold hfold. apply fold_left_app. Qed.
Lemma hfold_firstn m k (P : mts T) Rs ns : shape m k P -> Forall2 (shape m) ns Rs -> map (firstn k) (hfold P Rs) = P.
Proof.
  intros SP F. revert k P SP. induction F as [|n R ns Rs HR F IH]; intros k P SP.
  - cbn. rewrite <- (map_id P) at 2. apply map_ext_in. intros p Hp. rewrite firstn_all2; [reflexivity|]. now rewrite (proj2 SP p Hp).
  - change (hfold P (R :: Rs)) with (hfold (happ P R) Rs). pose proof (IH _ _ (happ_shape _ _ _ _ _ SP HR)) as E.
    assert (E2 : map (firstn k) (map (firstn (k + n)) (hfold (happ P R) Rs)) = map (firstn k) (hfold (happ P R) Rs)).
    { rewrite map_map. apply map_ext. intros row. rewrite firstn_firstn. f_equal. lia. }
    rewrite <- E2, E. clear - SP HR. destruct SP as (A & B), HR as (C & D). unfold happ. rewrite map_map. revert R C D. rewrite <- A. clear A.
    induction P as [|p P IH]; intros [|r R] C D; cbn in *; try discriminate; [reflexivity|]. f_equal.
    + rewrite firstn_app, (B p) by (now left). rewrite Nat.sub_diag, firstn_all2 by (rewrite (B p); [lia|now left]). apply app_nil_r.
    + apply IH; [intros; apply B; now right|congruence|intros; apply D; now right].
Qed.
Lemma padded_first m (P : mts T) R1 R2 n1 n2 N : shape m 0 P -> Forall2 (shape m) n1 R1 -> Forall2 (shape m) n2 R2 -> list_sum (n1 ++ n2) = N ->
  padded N (hfold P R1) = first_columns (list_sum n1) (hfold P (R1 ++ R2)).
Proof.
  intros SP F1 F2 L. rewrite hfold_app. pose proof (hfold_shape _ _ _ _ _ SP F1) as S1. cbn in S1. pose proof (hfold_firstn _ _ _ _ _ S1 F2) as E.
  pose proof (hfold_shape _ _ _ _ _ S1 F2) as S2. rewrite list_sum_app in L. rewrite <- E at 1. unfold padded, first_columns. rewrite map_map. apply map_ext_in. intros row Hrow.
  pose proof (proj2 S2 row Hrow) as Lr. rewrite firstn_length, Nat.min_l by lia. rewrite Lr, L. reflexivity.
Qed.
Lemma sieve_events_nth N m P k svs Rs : length Rs = length svs -> k = m ->
  sieve_events K N k P svs Rs = map ESieve (map (fun j => firstn (nth j (map (s_nf K) svs) 0) (skipn (m + list_sum (firstn j (map (s_nf K) svs))) (padded N (hfold P (firstn (S j) Rs))))) (seq 0 (length svs))).
Proof.
  intros L ->. revert m P Rs L. induction svs as [|s svs IH]; intros m P [|R Rs] L; try discriminate; [reflexivity|].
  cbn [sieve_events length seq map]. rewrite py_slice_rows. f_equal; [cbn; now rewrite Nat.add_0_r|].
  rewrite (IH (m + s_nf K s) (happ P R) Rs) by (cbn in L; lia). rewrite <- seq_shift, !map_map. apply map_ext. intros j. cbn [nth map firstn list_sum fold_right]. f_equal. f_equal.
  change (fold_right Init.Nat.add 0 (firstn j (map (s_nf K) svs))) with (list_sum (firstn j (map (s_nf K) svs))). rewrite Nat.add_assoc. reflexivity.
Qed.
(** The events of the iterated sums come in blocks. *)
Lemma itsum_blocks c get i Ys Rss N k P tot : all_outs K c get i Ys = Ok Rss ->
  (forall j svs, get j = Ok svs -> nsieves K svs = tot) ->
  exists blocks, itsum_events K get i N k P Ys Rss = concat blocks /\ length blocks = length Ys /\
    forall t Y, nth_error Ys t = Some Y -> exists svs Rs, get (i + t) = Ok svs /\ outs K c Y svs = Ok Rs /\ nth_error Rss t = Some Rs /\
      nth_error blocks t = Some (EItsum Y :: sieve_events K N (k + t * tot) (hfold P (concat (firstn t Rss))) svs Rs).
Proof.
  intros E G. revert i k P Rss E. induction Ys as [|Y Ys IH]; intros i k P Rss E; cbn [all_outs] in E.
  - injection E as <-. exists []. split; [reflexivity|]. split; [reflexivity|]. intros [|t] Y0 EY; discriminate.
  - destruct (get i) as [svs|e] eqn:Eg; [|discriminate]. cbn [bind] in E. destruct (outs K c Y svs) as [Rs|e] eqn:Eo; [|discriminate]. cbn [bind] in E.
    destruct (all_outs K c get (S i) Ys) as [Rss'|e] eqn:Ea; [|discriminate]. injection E as <-.
    destruct (IH (S i) (k + nsieves K svs) (hfold P Rs) Rss' Ea) as (bl & E1 & E2 & E3).
    exists ((EItsum Y :: sieve_events K N k P svs Rs) :: bl). cbn [itsum_events concat length]. rewrite Eg, E1. split; [reflexivity|]. split; [congruence|].
    intros [|t] Y0 EY.
    + injection EY as <-. exists svs, Rs. rewrite Nat.add_0_r. cbn [Nat.mul firstn concat hfold fold_left nth_error]. rewrite Nat.add_0_r. auto.
    + destruct (E3 t Y0 EY) as (svs' & Rs' & A1 & A2 & A3 & A4). exists svs', Rs'. rewrite <- Nat.add_succ_comm. split; [exact A1|]. split; [exact A2|]. split; [exact A3|].
      cbn [nth_error firstn concat]. rewrite A4. rewrite (G i svs Eg), hfold_app. cbn [Nat.mul]. rewrite Nat.add_assoc. reflexivity.
Qed.

(** ** One slice *)
Lemma repeat_app' {A} (x : A) a b : repeat x (a + b) = repeat x a ++ repeat x b.
Proof. induction a; cbn; congruence. Qed.
Lemma view_trace h sl s v X c B evs : length c = length X -> wf K h -> nth_error (h_sl K h) sl = Some s -> shaped K h s ->
  objs (h_p K h) (sl_p s) (v_p K v) -> objs (h_i K h) (sl_i s) (v_i K v) -> objs (h_s K h) (sl_s s) (v_s K v) ->
  Forall2 (objs (h_s K h)) (sl_ext s) (v_e K v) -> v_fit K v = sl_fitted s ->
  ev_view K c X v = Ok (B, evs) -> slice_trace K h c X s B evs.
Proof.
  intros Lc Wf Es Sh Op Oi Os Oe Vf E. unfold ev_view in E. rewrite Vf in E. destruct (sl_fitted s) eqn:Fs; [|discriminate].
  pose proof (good_getter K h sl s _ _ Wf Es Fs Sh Os Oe) as GG. pose proof (shaped_iss K h s _ Sh Oi) as Ex. pose proof (shaped_prep K h s _ Sh Op) as Pr.
  apply (ev_slice_ok K W c X _ _ _ _ B evs Lc Pr Ex GG) in E as (Zs & ns & Ys & Rss & St & Fn & EY & Ea & EA & Ee).
  pose proof (stages_rows K c _ X Zs Lc Pr St) as LX.
  destruct (iterate_iss_spec K W c _ ns Fn Ex _ Ys (eq_trans LX (eq_sym Lc)) EY) as (LY & FY & IY).
  destruct (all_outs_shape K c _ 0 Ys Rss _ (eq_trans Lc (eq_sym LX)) FY Ea _ GG) as (LR & SR & LRs).
  set (nfs := map (s_nf K) (v_s K v)) in *. set (Y := last Zs X) in *.
  set (N := nsieves K (v_s K v) * fold_right Nat.mul 1 ns) in *.
  destruct (itsum_blocks c (getter K (v_s K v) (v_e K v)) 0 Ys Rss N 0 (repeat [] (length Y)) (nsieves K (v_s K v)) Ea) as (bl & E1 & E2 & E3).
  { intros j l Hl. destruct (GG j l Hl) as (_ & En). unfold nsieves. now rewrite En. }
  exists (v_p K v), (v_i K v), (v_s K v), Zs, ns, bl. fold Y. split; [exact Op|]. split; [exact Oi|]. split; [exact Os|]. split; [exact St|]. split; [exact Fn|].
  split; [rewrite Ee, E1; reflexivity|]. split; [congruence|].
  intros js Fj. destruct (IY js Fj) as (Z & EZ & IZ). set (t := radix ns js) in *.
  destruct (E3 t Z EZ) as (svk & Rs & Eg & Eo & ERs & Eb). cbn [Nat.add] in Eg, Eb.
  destruct (GG t svk Eg) as (Shk & Enk). fold nfs in Enk.
  pose proof (mapM_Forall2 (fun s0 => fst (s_transform K Z (s_attach K c s0))) svk Rs) as MF. unfold outs in Eo. apply MF in Eo.
  assert (LRk : length Rs = length svk) by (symmetry; eapply Forall2_len; exact Eo).
  assert (Lk : length svk = length (v_s K v)) by (apply (f_equal (@length nat)) in Enk; unfold nfs in Enk; now rewrite !map_length in Enk).
  rewrite (sieve_events_nth N (t * nsieves K (v_s K v)) _ _ svk Rs LRk eq_refl) in Eb.
  eexists Z, _. split; [exact IZ|]. split; [exact Eb|]. split; [rewrite map_length, seq_length; exact Lk|].
  intros j v0 Ej nfs' k. subst nfs'. fold nfs in k. assert (Lj : j < length svk) by (rewrite Lk; apply nth_error_Some; congruence).
  rewrite nth_error_map. rewrite nth_error_nth' with (d := 0) by (rewrite seq_length; exact Lj). rewrite seq_nth by exact Lj. cbn [option_map Nat.add].
  rewrite Enk. assert (Enj : nth j nfs 0 = s_nf K v0). { unfold nfs. erewrite nth_error_nth; [reflexivity|]. now apply map_nth_error. }
  rewrite Enj. unfold nsieves. fold nfs. change (t * list_sum nfs + list_sum (firstn j nfs)) with k. do 2 f_equal. f_equal.
  (* the matrix so far *)
  assert (Lt : t < length Ys) by (apply nth_error_Some; congruence).
  assert (LN : list_sum (concat (repeat nfs (length Ys))) = N).
  { unfold N, nsieves. fold nfs. rewrite <- LY. clear. induction (length Ys) as [|n IH]; [cbn; lia|]. cbn [repeat concat]. rewrite list_sum_app, IH. lia. }
  assert (SRs : Forall2 (shape (length Y)) nfs Rs).
  { rewrite <- Enk. assert (LZ : length Z = length Y). { rewrite Forall_forall in FY. apply FY. eapply nth_error_In, EZ. } rewrite <- LZ.
    eapply outs_shape; [exact (eq_trans (eq_trans Lc (eq_sym LX)) (eq_sym LZ))|exact Shk|]. unfold outs. now apply MF. }
  destruct (nth_error_split _ _ ERs) as (Ra & Rb & ERss & LRa). 
  assert (Lr : length Ys = t + S (length Rb)) by (rewrite <- LR, ERss, app_length; cbn; lia).
  assert (SRab : Forall2 (shape (length Y)) (concat (repeat nfs t)) (concat Ra) /\ Forall2 (shape (length Y)) (concat (repeat nfs (length Rb))) (concat Rb)).
  { clear - SR ERss Lr LRa LRs. subst Rss. rewrite Lr in SR. rewrite repeat_app', !concat_app in SR. cbn [repeat concat] in SR.
    assert (G : forall l : list (list (mts T)), Forall (fun Rs => length Rs = length nfs) l -> length (concat l) = length (concat (repeat nfs (length l)))).
    { clear. induction l as [|x l IH]; intros F; [reflexivity|]. inversion F; subst. cbn. rewrite !app_length, IH by assumption. lia. }
    apply Forall_app in LRs as (LRs1 & LRs2). apply Forall_inv in LRs2 as LRs3. apply Forall_inv_tail in LRs2.
    assert (FA : forall A B (R : A -> B -> Prop) l1 l2 m1 m2, length l1 = length m1 -> Forall2 R (l1 ++ l2) (m1 ++ m2) -> Forall2 R l1 m1 /\ Forall2 R l2 m2).
    { clear. intros A B R l1. induction l1 as [|x l1 IH]; intros l2 [|y m1] m2 L F; cbn in *; try discriminate; [split; [constructor|exact F]|].
      inversion F; subst. destruct (IH l2 m1 m2 ltac:(lia) ltac:(assumption)). split; [constructor; assumption|assumption]. }
    apply FA in SR as (S1 & S2); [|rewrite (G Ra LRs1), LRa; reflexivity]. apply FA in S2 as (S2 & S3); [|congruence]. split; assumption. }
  destruct SRab as (SRa & SRb).
  rewrite ERss, <- LRa, firstn_app, Nat.sub_diag, firstn_all. cbn [firstn]. rewrite app_nil_r. rewrite <- hfold_app. rewrite EA, ERss, concat_app. cbn [concat].
  rewrite <- (firstn_skipn (S j) Rs) at 2. rewrite <- app_assoc, app_assoc.
  assert (FS : Forall2 (shape (length Y)) (firstn (S j) nfs) (firstn (S j) Rs) /\ Forall2 (shape (length Y)) (skipn (S j) nfs) (skipn (S j) Rs)).
  { clear - SRs. revert SRs. generalize (S j). generalize nfs. intros l n F. revert n. induction F as [|x y l Rs Hxy F IH]; intros [|n]; cbn; [split; constructor|split; constructor|split; constructor; assumption|].
    destruct (IH n). split; [constructor; assumption|assumption]. }
  destruct FS as (FS1 & FS2).
  rewrite (padded_first (length Y) _ (concat Ra ++ firstn (S j) Rs) (skipn (S j) Rs ++ concat Rb) (concat (repeat nfs t) ++ firstn (S j) nfs) (skipn (S j) nfs ++ concat (repeat nfs (length Rb)))).
  - f_equal. rewrite list_sum_app. unfold k. rewrite <- Enj.
    assert (A1 : list_sum (concat (repeat nfs t)) = t * list_sum nfs). { clear. induction t as [|n IH]; [reflexivity|]. cbn [repeat concat]. rewrite list_sum_app, IH. cbn. lia. }
    assert (A2 : list_sum (firstn (S j) nfs) = list_sum (firstn j nfs) + nth j nfs 0).
    { assert (Lj' : j < length nfs) by (unfold nfs; rewrite map_length; lia). clear - Lj'. revert j Lj'. induction nfs as [|x l IH]; intros [|j] L; cbn in L; try lia.
      - cbn. lia.
      - cbn [firstn nth]. change (list_sum (x :: firstn (S j) l) = list_sum (x :: firstn j l) + nth j l 0). change (x + list_sum (firstn (S j) l) = x + list_sum (firstn j l) + nth j l 0).
        rewrite IH by lia. lia. }
    lia.
  - apply shape_zero.
  - apply Forall2_app; assumption.
  - apply Forall2_app; assumption.
  - rewrite <- LN, Lr, repeat_app', concat_app. cbn [repeat concat]. rewrite !list_sum_app. pose proof (f_equal list_sum (firstn_skipn (S j) nfs)) as Q. rewrite list_sum_app in Q. lia.
Qed.

(** ** Fruits *)
Lemma received_after cbs evs h h' cb : after K W cbs evs h h' -> received K h' cb = received K h cb ++ (if cb <? cbs then evs else []).
Proof.
  intros (_ & E & _). unfold received. rewrite E, rev_app_distr, rev_involutive, filter_app, map_app. f_equal. clear.
  induction evs as [|e evs IH]; [now destruct (cb <? cbs)|]. cbn [expand flat_map]. fold (expand cbs evs). rewrite filter_app, map_app, IH. clear.
  assert (G : forall a n, map snd (filter (fun x : nat * event T => fst x =? cb) (map (fun c => (c, e)) (seq a n))) = if (a <=? cb) && (cb <? a + n) then [e] else []).
  { intros a n. revert a. induction n as [|n IH]; intros a; cbn [seq map filter].
    - destruct (Nat.leb_spec a cb); destruct (Nat.ltb_spec cb (a + 0)); try reflexivity. lia.
    - cbn [fst]. destruct (Nat.eqb_spec a cb) as [->|N]; cbn [map]; rewrite IH.
      + destruct (Nat.leb_spec (S cb) cb); [lia|]. rewrite Nat.leb_refl. destruct (Nat.ltb_spec cb (cb + S n)); [reflexivity|lia].
      + destruct (Nat.leb_spec (S a) cb); destruct (Nat.leb_spec a cb); destruct (Nat.ltb_spec cb (S a + n)); destruct (Nat.ltb_spec cb (a + S n)); try reflexivity; lia. }
  rewrite G. destruct (Nat.leb_spec 0 cb); [|lia]. cbn [andb Nat.add]. destruct (cb <? cbs); reflexivity.
Qed.
(** A view together with what it is a view of. *)
Definition traced (h : heap) (X c : dataset T) (sl : nat) (v : sview K) : Prop :=
  sees K W h sl v /\ exists s, nth_error (h_sl K h) sl = Some s /\ (forall B evs, ev_view K c X v = Ok (B, evs) -> slice_trace K h c X s B evs).
Lemma traced_views h X c ids : length c = length X -> wf K h -> (forall sl, In sl ids -> sl < length (h_sl K h)) ->
  (forall sl s, In sl ids -> nth_error (h_sl K h) sl = Some s -> shaped K h s) ->
  exists vs, Forall2 (good_view K W h X c) ids vs /\ Forall2 (traced h X c) ids vs.
Proof.
  intros Lc Wf. induction ids as [|sl ids IH]; intros V Sh; [exists []; split; constructor|].
  destruct IH as (vs & F & F2); [intros; apply V; now right|intros; eapply Sh; [right|]; eassumption|].
  destruct (nth_error (h_sl K h) sl) as [s|] eqn:Es; [|apply nth_error_None in Es; specialize (V sl (or_introl eq_refl)); lia].
  destruct (sees_exists K W h sl s Wf Es) as (v & Vv & Vp & Vi & Vs & Ve & Vf).
  exists (v :: vs). split.
  - constructor; [|exact F]. split; [exact Vv|]. intros B evs E. eapply (view_shape K W h sl s v); try eassumption. eapply Sh; [now left|exact Es].
  - constructor; [|exact F2]. split; [exact Vv|]. exists s. split; [exact Es|]. intros B evs E. eapply view_trace; try eassumption. eapply Sh; [now left|exact Es].
Qed.
(** During a transform of fruit [f] that returns, every one of the given
    callbacks receives on_next_slice and the trace of the slice, for every
    slice in turn; other callbacks receive nothing. *)
Theorem callback_protocol h f x X cbs cache A h' :
  reachable K h -> nth_error (h_fr K h) f = Some x ->
  (forall sl s, In sl (f_slices x) -> nth_error (h_sl K h) sl = Some s -> shaped K h s) -> cache_rows cache X ->
  fruit_transform K f X cbs cache h = (Ok A, h') ->
  let c := match cache with Some c => c | None => X end in
  exists Bs traces,
    Forall2 (fun sl B => fst (slice_transform K sl X cbs (Some c) h) = Ok B) (f_slices x) Bs /\
    Forall2 (fun sl Bt => exists s, nth_error (h_sl K h) sl = Some s /\ slice_trace K h c X s (fst Bt) (snd Bt)) (f_slices x) (combine Bs traces) /\
    length traces = length (f_slices x) /\
    (forall cb, cb < cbs -> received K h' cb = received K h cb ++ flat_map (fun tr => ENextSlice :: tr) traces) /\
    (forall cb, cbs <= cb -> received K h' cb = received K h cb).
Proof.
  intros Re Ex Sh Cf E c. assert (Lc : length c = length X) by (destruct cache; [exact Cf|reflexivity]). pose proof (reachable_wf K W h Re) as Wf.
  destruct (traced_views h X c (f_slices x) Lc Wf (proj1 (proj2 Wf f x Ex)) Sh) as (vs & GV & TV).
  assert (V : Forall2 (sees K W h) (f_slices x) vs) by (eapply Forall2_impl; [|exact GV]; intros ? ? (Q & _); exact Q).
  assert (Fx : f_fitted x = true).
  { unfold fruit_transform in E. rewrite (bind_ok K _ _ h x h) in E by (unfold look; now rewrite Ex). destruct (f_fitted x); [reflexivity|discriminate]. }
  pose proof (fruit_transform_evals K W h f x vs X cbs cache Ex Fx V) as Ev. fold c in Ev.
  destruct (evals_inv K W _ _ _ _ _ _ Ev E) as (evs & Er & Af). unfold ev_fruit in Er.
  destruct (mapM (v_nf K) vs) as [ws|e] eqn:Em; [|discriminate]. pose proof Em as Fw. apply mapM_Forall2 in Fw. rewrite padded_zero in Er.
  destruct (ev_slices K c X vs 0 _) as [[A0 e0]|e] eqn:Er0; [|discriminate]. injection Er as _ ->.
  destruct (ev_slices_ok K W h X c _ vs ws 0 _ _ A0 evs GV (shape_zero _) Fw (le_n _) Er0) as (Bs & es & A1 & A2 & A3 & A4 & A5 & A6).
  exists Bs, es. split; [|split; [|split; [|split]]].
  - pose proof A1 as A1'. apply Forall2_combine in A1'; [|exact A2|exact A3]. eapply Forall2_comp; [|exact V|exact A1'].
    intros sl v B Vs (e & Ee). pose proof (transform_view K W h sl v X cbs (Some c) Vs) as Et. cbn iota in Et. rewrite Ee in Et. eapply evals_fst, Et.
  - eapply Forall2_comp; [|exact TV|exact A1]. intros sl v [B e] (_ & s & Hs & Ht) Ee. exists s. split; [exact Hs|]. now apply Ht.
  - rewrite A3. symmetry. eapply Forall2_len, V.
  - intros cb Hcb. rewrite (received_after _ _ _ _ cb Af). apply Nat.ltb_lt in Hcb. rewrite Hcb. now rewrite A6.
  - intros cb Hcb. rewrite (received_after _ _ _ _ cb Af). apply Nat.ltb_ge in Hcb. rewrite Hcb. apply app_nil_r.
Qed.
(** The same for a slice that is transformed on its own. *)
Theorem slice_callback_protocol h sl s X cbs cache B h' :
  reachable K h -> nth_error (h_sl K h) sl = Some s -> shaped K h s -> cache_rows cache X ->
  slice_transform K sl X cbs cache h = (Ok B, h') ->
  exists tr, slice_trace K h (match cache with Some c => c | None => X end) X s B tr /\
    (forall cb, cb < cbs -> received K h' cb = received K h cb ++ tr) /\ (forall cb, cbs <= cb -> received K h' cb = received K h cb).
Proof.
  intros Re Es Sh Cf E. assert (Lc : length (match cache with Some c => c | None => X end) = length X) by (destruct cache; [exact Cf|reflexivity]).
  pose proof (reachable_wf K W h Re) as Wf. destruct (sees_exists K W h sl s Wf Es) as (v & Vv & Vp & Vi & Vs & Ve & Vf).
  pose proof (transform_view K W h sl v X cbs cache Vv) as Ev. destruct (evals_inv K W _ _ _ _ _ _ Ev E) as (evs & Er & Af).
  exists evs. split; [eapply view_trace; eassumption|]. split; intros cb Hcb; rewrite (received_after _ _ _ _ cb Af).
  - apply Nat.ltb_lt in Hcb. now rewrite Hcb.
  - apply Nat.ltb_ge in Hcb. rewrite Hcb. apply app_nil_r.
Qed.
End C33.
Print Assumptions callback_protocol.
Print Assumptions slice_callback_protocol.
