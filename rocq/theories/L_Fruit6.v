(** Columns of the feature matrix. *)
From Coq Require Import Ascii String List Arith ZArith Bool RelationClasses Lia.
From Verif Require Import Num Arr M_Str M_Words M_Np M_Prep M_Fruit S_Fruit L_Arr L_Fruit.
Import ListNotations.

Section Cols.
Context {T : Type} `{Num T}.

(** ** Matrices side by side *)
Definition happ (P R : mts T) : mts T := map (fun pr => fst pr ++ snd pr) (combine P R).
Definition hfold (P : mts T) (Rs : list (mts T)) : mts T := fold_left happ Rs P.
Definition padded (N : nat) (P : mts T) : mts T := map (fun p => p ++ repeat nzero (N - length p)) P.
Definition shape (m k : nat) (P : mts T) : Prop := length P = m /\ forall p, In p P -> length p = k.
Lemma happ_shape m k n P R : shape m k P -> shape m n R -> shape m (k + n) (happ P R).
Proof.
  intros (A & B) (C & D). split; [unfold happ; rewrite map_length, combine_length; lia|].
  intros p Hp. apply in_map_iff in Hp as ((a, b) & <- & Hab). cbn. rewrite app_length.
  rewrite (B a), (D b); [reflexivity| |]; [eapply in_combine_r|eapply in_combine_l]; exact Hab.
Qed.
Lemma map2M_combine {A B C} (f : A -> B -> res C) (g : A * B -> C) l1 l2 :
  (forall a b, In (a, b) (combine l1 l2) -> f a b = Ok (g (a, b))) -> map2M f l1 l2 = Ok (map g (combine l1 l2)).
Proof.
  revert l2. induction l1 as [|a l1 IH]; intros [|b l2] E; cbn; try reflexivity.
  rewrite E by (now left). cbn [bind]. rewrite IH; [reflexivity|]. intros. apply E. now right.
Qed.
Lemma set_cols_pad m k nf R P N : shape m k P -> shape m nf R -> k + nf <= N ->
  set_cols k nf R (padded N P) = Ok (padded N (happ P R)).
Proof.
  intros (A & B) (C & D) L. unfold set_cols.
  replace (length R =? length (padded N P)) with true by (symmetry; apply Nat.eqb_eq; unfold padded; rewrite map_length; lia).
  rewrite (map2M_combine _ (fun ab => firstn k (snd ab) ++ fst ab ++ skipn (k + nf) (snd ab))).
  - f_equal. unfold padded, happ. revert R C D. rewrite <- A. clear A. induction P as [|p P IH]; intros [|r R] C D; cbn in *; try discriminate; [reflexivity|].
    f_equal; [|apply IH; [intros; apply B; now right|congruence|intros; apply D; now right]].
    assert (Lp : length p = k) by (apply B; now left). assert (Lr : length r = nf) by (apply D; now left).
    rewrite firstn_app, <- Lp, Nat.sub_diag, firstn_all, app_nil_r, skipn_app.
    rewrite (skipn_all2 p) by lia. cbn. rewrite <- app_assoc. f_equal. f_equal. rewrite app_length.
    replace (length p + nf - length p) with nf by lia. rewrite Lr. rewrite Lp in *.
    clear - L. replace (N - k) with (nf + (N - (k + nf))) by lia. rewrite repeat_app, skipn_app, repeat_length, Nat.sub_diag.
    rewrite skipn_all2 by (rewrite repeat_length; lia). reflexivity.
  - intros r row Hr. pose proof (in_combine_l _ _ _ _ Hr) as Hr1. pose proof (in_combine_r _ _ _ _ Hr) as Hr2.
    unfold padded in Hr2. apply in_map_iff in Hr2 as (p & <- & Hp). pose proof (B p Hp) as Lp. pose proof (D r Hr1) as Lr.
    assert (LL : length (p ++ repeat nzero (N - length p)) = N) by (rewrite app_length, repeat_length; lia).
    unfold py_set_slice. rewrite LL. cbn [lo_bound hi_bound]. unfold py_bound.
    replace (Z.of_nat k <? 0)%Z with false by (symmetry; apply Z.ltb_ge; lia).
    replace (Z.of_nat (k + nf) <? 0)%Z with false by (symmetry; apply Z.ltb_ge; lia).
    rewrite !Nat2Z.id, !Nat.min_l by lia. replace (k + nf - k) with nf by lia.
    rewrite Lr, Nat.eqb_refl. reflexivity.
Qed.
Lemma padded_full m N P : shape m N P -> padded N P = P.
Proof.
  intros (_ & B). unfold padded. rewrite <- (map_id P) at 2. apply map_ext_in. intros p Hp. rewrite (B p Hp), Nat.sub_diag. apply app_nil_r.
Qed.
Lemma padded_zero m N : repeat (repeat (nzero (T:=T)) N) m = padded N (repeat [] m).
Proof. unfold padded. induction m as [|m IH]; cbn; [reflexivity|]. rewrite IH, Nat.sub_0_r. reflexivity. Qed.
Lemma shape_zero m : shape m 0 (repeat [] m).
Proof. split; [apply repeat_length|]. intros p Hp. now apply repeat_spec in Hp as ->. Qed.
(** ** Columns *)
Lemma column_happ_l m k n P R c : shape m k P -> shape m n R -> c < k -> column (happ P R) c = column P c.
Proof.
  intros (A & B) (C & D) Hc. unfold column, happ. revert R C D. rewrite <- A. clear A. induction P as [|p P IH]; intros [|r R] C D; cbn in *; try discriminate; [reflexivity|].
  f_equal; [|apply IH; [intros; apply B; now right|congruence|intros; apply D; now right]].
  apply app_nth1. rewrite (B p) by (now left). exact Hc.
Qed.
Lemma column_happ_r m k n P R c : shape m k P -> shape m n R -> column (happ P R) (k + c) = column R c.
Proof.
  intros (A & B) (C & D). unfold column, happ. revert R C D. rewrite <- A. clear A. induction P as [|p P IH]; intros [|r R] C D; cbn in *; try discriminate; [reflexivity|].
  f_equal; [|apply IH; [intros; apply B; now right|congruence|intros; apply D; now right]].
  rewrite app_nth2; rewrite (B p) by (now left); [|lia]. f_equal. lia.
Qed.
Lemma hfold_shape m k P Rs ns : shape m k P -> Forall2 (shape m) ns Rs -> shape m (k + list_sum ns) (hfold P Rs).
Proof.
  revert k P ns. induction Rs as [|R Rs IH]; intros k P ns HP F; inversion F as [|n ? ns' ? Hn F']; subst.
  - cbn. now rewrite Nat.add_0_r.
  - change (shape m (k + (n + list_sum ns')) (hfold (happ P R) Rs)). replace (k + (n + list_sum ns')) with (k + n + list_sum ns') by lia. apply (IH (k + n) (happ P R)); [now apply happ_shape|exact F'].
Qed.
Lemma column_hfold_l m k P Rs ns c : shape m k P -> Forall2 (shape m) ns Rs -> c < k -> column (hfold P Rs) c = column P c.
Proof.
  revert k P ns. induction Rs as [|R Rs IH]; intros k P ns HP F Hc; inversion F as [|n ? ns' ? Hn F']; subst; [reflexivity|].
  change (hfold P (R :: Rs)) with (hfold (happ P R) Rs). rewrite (IH (k + n) _ ns'); [|now apply happ_shape|exact F'|lia]. eapply column_happ_l; eassumption.
Qed.
Lemma column_hfold m k P Rs ns i R n c : shape m k P -> Forall2 (shape m) ns Rs ->
  nth_error Rs i = Some R -> nth_error ns i = Some n -> c < n -> column (hfold P Rs) (k + list_sum (firstn i ns) + c) = column R c.
Proof.
  revert k P ns i. induction Rs as [|R0 Rs IH]; intros k P ns i HP F E1 E2 Hc; inversion F as [|n0 ? ns' ? Hn F']; subst; [destruct i; discriminate|].
  destruct i as [|i]; cbn in E1, E2.
  - injection E1 as ->. injection E2 as ->. cbn [firstn]. change (list_sum []) with 0. rewrite Nat.add_0_r. pose proof (happ_shape _ _ _ _ _ HP Hn) as Hh.
    change (hfold P (R :: Rs)) with (hfold (happ P R) Rs). rewrite (column_hfold_l m (k + n) _ _ ns'); [|exact Hh|exact F'|lia].
    eapply column_happ_r; eassumption.
  - rewrite <- (IH (k + n0) (happ P R0) ns' i (happ_shape _ _ _ _ _ HP Hn) F' E1 E2 Hc). cbn [firstn].
    change (list_sum (n0 :: firstn i ns')) with (n0 + list_sum (firstn i ns')). change (hfold P (R0 :: Rs)) with (hfold (happ P R0) Rs). f_equal. lia.
Qed.

Variable K : kit T.
Notation heap := (heap K).
(** ** The sieves on one iterated sum *)
Definition outs (c : dataset T) (Y : mts T) (svs : list (sieveT K)) : res (list (mts T)) :=
  mapM (fun s => fst (s_transform K Y (s_attach K c s))) svs.
Fixpoint sieve_events (N k : nat) (P : mts T) (svs : list (sieveT K)) (Rs : list (mts T)) : list (event T) :=
  match svs, Rs with
  | s :: svs', R :: Rs' => ESieve (py_slice (Some (Z.of_nat k)) (Some (Z.of_nat (k + s_nf K s))) (padded N (happ P R)))
                           :: sieve_events N (k + s_nf K s) (happ P R) svs' Rs'
  | _, _ => []
  end.
Lemma outs_shape c Y svs Rs : length c = length Y -> (forall s, In s svs -> sieve_shaped K s) -> outs c Y svs = Ok Rs ->
  Forall2 (shape (length Y)) (map (s_nf K) svs) Rs.
Proof.
  intros Lc. revert Rs. induction svs as [|s svs IH]; intros Rs Sh E; cbn in E.
  - injection E as <-. constructor.
  - destruct (fst (s_transform K Y (s_attach K c s))) as [R|e] eqn:Es; [|discriminate]. cbn in E.
    unfold outs in IH. destruct (mapM _ svs) as [Rs'|e] eqn:Em; [|discriminate]. injection E as <-. cbn. constructor.
    + exact (Sh s (or_introl eq_refl) c Y R Lc Es).
    + apply IH; [|reflexivity]. intros. apply Sh. now right.
Qed.
Lemma ev_sieves_eq c svs Y m k P N : shape m k P -> length c = m -> length Y = m -> (forall s, In s svs -> sieve_shaped K s) ->
  k + nsieves K svs <= N ->
  ev_sieves K c svs Y (k, padded N P) =
  match outs c Y svs with
  | Ok Rs => Ok ((k + nsieves K svs, padded N (hfold P Rs)), sieve_events N k P svs Rs)
  | Err e => Err e
  end.
Proof.
  unfold outs, nsieves. intros HP Hc. revert k P HP. induction svs as [|s svs IH]; intros k P HP HY Sh L; cbn [ev_sieves mapM].
  - cbn. now rewrite Nat.add_0_r.
  - destruct (fst (s_transform K Y (s_attach K c s))) as [R|e] eqn:Es; [|reflexivity].
    assert (HR : shape m (s_nf K s) R) by (destruct (Sh s (or_introl eq_refl) c Y R ltac:(congruence) Es) as (A & B); split; [congruence|exact B]).
    assert (Es' : list_sum (map (s_nf K) (s :: svs)) = s_nf K s + list_sum (map (s_nf K) svs)) by reflexivity.
    rewrite Es' in *. rewrite (set_cols_pad m) by (assumption || lia).
    rewrite IH; [|now apply happ_shape|exact HY|intros; apply Sh; now right|lia].
    cbn [bind]. destruct (mapM _ svs) as [Rs|e]; [|reflexivity]. cbn [bind sieve_events]. change (hfold P (R :: Rs)) with (hfold (happ P R) Rs).
    f_equal. f_equal. f_equal. lia.
Qed.
(** ** All iterated sums *)
Fixpoint all_outs (c : dataset T) (get : nat -> res (list (sieveT K))) (i : nat) (Ys : list (mts T)) : res (list (list (mts T))) :=
  match Ys with
  | [] => Ok []
  | Y :: r => let! svs := get i in let! Rs := outs c Y svs in let! Rss := all_outs c get (S i) r in Ok (Rs :: Rss)
  end.
Fixpoint itsum_events (get : nat -> res (list (sieveT K))) (i N k : nat) (P : mts T) (Ys : list (mts T)) (Rss : list (list (mts T))) : list (event T) :=
  match Ys, Rss with
  | Y :: Ys', Rs :: Rss' =>
      match get i with
      | Ok svs => EItsum Y :: sieve_events N k P svs Rs ++ itsum_events get (S i) N (k + nsieves K svs) (hfold P Rs) Ys' Rss'
      | Err _ => []
      end
  | _, _ => []
  end.
Lemma ev_itsums_eq c get i Ys m k P N tot : length c = m -> shape m k P -> Forall (fun Y => length Y = m) Ys ->
  (forall j svs, get j = Ok svs -> (forall s, In s svs -> sieve_shaped K s) /\ nsieves K svs = tot) ->
  k + length Ys * tot <= N ->
  ev_itsums K c get i (map Ok Ys) (k, padded N P) =
  match all_outs c get i Ys with
  | Ok Rss => Ok ((k + length Ys * tot, padded N (hfold P (concat Rss))), itsum_events get i N k P Ys Rss)
  | Err e => Err e
  end.
Proof.
  intros Hc. revert i k P. induction Ys as [|Y Ys IH]; intros i k P HP HY G L; cbn [all_outs map ev_itsums].
  - cbn. now rewrite Nat.add_0_r.
  - inversion HY as [|? ? HY1 HY2]; subst. destruct (get i) as [svs|e] eqn:Eg; [|reflexivity]. destruct (G i svs Eg) as (Sh & Et). cbn in L.
    rewrite (ev_sieves_eq c svs Y (length c)) by (solve [auto | congruence | lia]). cbn [bind]. destruct (outs c Y svs) as [Rs|e] eqn:Eo; [|reflexivity]. cbn [bind].
    pose proof (outs_shape c Y svs Rs ltac:(congruence) Sh Eo) as HR. rewrite HY1 in HR.
    rewrite (IH (S i) (k + nsieves K svs) (hfold P Rs) (hfold_shape _ _ _ _ _ HP HR) HY2 G ltac:(rewrite Et; lia)).
    destruct (all_outs c get (S i) Ys) as [Rss|e]; [|reflexivity].
    cbn [bind concat length itsum_events]. rewrite Eg. unfold hfold. rewrite fold_left_app. f_equal. f_equal. f_equal. rewrite Et. lia.
Qed.
Lemma all_outs_nth c get i Ys Rss k Y : all_outs c get i Ys = Ok Rss -> nth_error Ys k = Some Y ->
  exists svs Rs, get (i + k) = Ok svs /\ outs c Y svs = Ok Rs /\ nth_error Rss k = Some Rs.
Proof.
  revert i Rss k. induction Ys as [|Y0 Ys IH]; intros i Rss k E EY; [destruct k; discriminate|]. cbn [all_outs] in E.
  destruct (get i) as [svs|e] eqn:Eg; [|discriminate]. cbn [bind] in E. destruct (outs c Y0 svs) as [Rs|e] eqn:Eo; [|discriminate]. cbn [bind] in E.
  destruct (all_outs c get (S i) Ys) as [Rss'|e] eqn:Ea; [|discriminate]. injection E as <-. destruct k as [|k].
  - injection EY as <-. exists svs, Rs. rewrite Nat.add_0_r. auto.
  - rewrite <- Nat.add_succ_comm. apply (IH (S i) Rss' k Ea EY).
Qed.
Lemma all_outs_shape c get i Ys Rss m : length c = m -> Forall (fun Y => length Y = m) Ys -> all_outs c get i Ys = Ok Rss ->
  forall nfs, (forall j svs, get j = Ok svs -> (forall s, In s svs -> sieve_shaped K s) /\ map (s_nf K) svs = nfs) ->
  length Rss = length Ys /\ Forall2 (shape m) (concat (repeat nfs (length Ys))) (concat Rss) /\ Forall (fun Rs => length Rs = length nfs) Rss.
Proof.
  intros Hc HY E nfs G. revert i Rss E. induction Ys as [|Y Ys IH]; intros i Rss E; cbn [all_outs] in E.
  - injection E as <-. cbn. auto.
  - inversion HY as [|? ? HY1 HY2]; subst. destruct (get i) as [svs|e] eqn:Eg; [|discriminate]. cbn [bind] in E. destruct (outs c Y svs) as [Rs|e] eqn:Eo; [|discriminate]. cbn [bind] in E.
    destruct (all_outs c get (S i) Ys) as [Rss'|e] eqn:Ea; [|discriminate]. injection E as <-.
    destruct (IH HY2 (S i) Rss' Ea) as (A & B & C). destruct (G i svs Eg) as (Sh & En). pose proof (outs_shape c Y svs Rs ltac:(congruence) Sh Eo) as HR. rewrite HY1 in HR.
    rewrite En in HR. cbn. split; [congruence|]. split; [apply Forall2_app; assumption|]. constructor; [|exact C].
    symmetry. eapply Forall2_len, HR.
Qed.
Lemma concat_nth {A} (ll : list (list A)) n i j l : Forall (fun l => length l = n) ll -> nth_error ll i = Some l -> j < n ->
  nth_error (concat ll) (i * n + j) = nth_error l j.
Proof.
  revert i. induction ll as [|l0 ll IH]; intros i F E Hj; [destruct i; discriminate|]. inversion F as [|? ? F1 F2]; subst. destruct i as [|i]; cbn in *.
  - injection E as ->. apply nth_error_app1. exact Hj.
  - rewrite nth_error_app2 by lia. rewrite <- (IH i F2 E Hj). f_equal. lia.
Qed.
Lemma concat_repeat_nth {A} (l : list A) n i j : i < n -> j < length l -> nth_error (concat (repeat l n)) (i * length l + j) = nth_error l j.
Proof.
  intros Hi Hj. apply (concat_nth (repeat l n) (length l) i j l); [|now apply nth_error_repeat|exact Hj].
  clear Hi. induction n; cbn; constructor; auto.
Qed.
Lemma list_sum_firstn_repeat (l : list nat) n i j : i < n -> j <= length l ->
  list_sum (firstn (i * length l + j) (concat (repeat l n))) = i * list_sum l + list_sum (firstn j l).
Proof.
  revert i. induction n as [|n IH]; intros i Hi Hj; [lia|]. cbn [repeat concat]. rewrite firstn_app, list_sum_app. destruct i as [|i]; cbn [Nat.mul].
  - cbn [Nat.add]. replace (j - length l) with 0 by lia. cbn [firstn]. change (list_sum []) with 0. lia.
  - rewrite firstn_all2 by lia. replace (length l + i * length l + j - length l) with (i * length l + j) by lia. rewrite IH by lia. lia.
Qed.
(** ** The iterated sums of nested ISS *)
Lemma nth_lt' {A} (l : list A) i x : nth_error l i = Some x -> i < length l.
Proof. intros E. apply nth_error_Some. congruence. Qed.
Lemma map_Ok_app {A} (l1 l2 : list (res A)) Ys : l1 ++ l2 = map Ok Ys -> exists Y1 Y2, l1 = map Ok Y1 /\ l2 = map Ok Y2 /\ Ys = Y1 ++ Y2.
Proof.
  revert Ys. induction l1 as [|x l1 IH]; intros Ys E; cbn in E; [exists [], Ys; auto|].
  destruct Ys as [|Y Ys]; [discriminate|]. cbn in E. injection E as -> E. destruct (IH Ys E) as (Y1 & Y2 & -> & -> & ->). exists (Y :: Y1), Y2. auto.
Qed.
Lemma iterate_concat (i : issT K) is X Ys : iterate_iss K (i :: is) X = map Ok Ys ->
  exists L YY, sums_of K i X L /\ Ys = concat YY /\
    Forall2 (fun (s : mts T) ys => iterate_iss K is (map (fun row => [row]) s) = map Ok ys) L YY.
Proof.
  cbn [iterate_iss]. unfold sums_of. generalize (i_batches K i X). intros bs. revert Ys. induction bs as [|[b|e] bs IH]; intros Ys E; cbn in E.
  - destruct Ys; [|discriminate]. exists [], []. split; [exists []; auto|]. auto.
  - apply map_Ok_app in E as (Y1 & Y2 & E1 & E2 & ->). destruct (IH Y2 E2) as (L & YY & (bs' & -> & ->) & -> & F).
    assert (G : exists YY1, Y1 = concat YY1 /\ Forall2 (fun (s : mts T) ys => iterate_iss K is (map (fun row => [row]) s) = map Ok ys) b YY1).
    { clear - E1. revert Y1 E1. induction b as [|s b IH]; intros Y1 E1; cbn in E1.
      - destruct Y1; [|discriminate]. exists []. auto.
      - apply map_Ok_app in E1 as (Z1 & Z2 & E1 & E2 & ->). destruct (IH Z2 E2) as (YY1 & -> & F). exists (Z1 :: YY1). split; [reflexivity|]. constructor; assumption. }
    destruct G as (YY1 & -> & F1). exists (b ++ concat bs'), (YY1 ++ YY). split; [exists (b :: bs'); auto|].
    split; [now rewrite concat_app|]. now apply Forall2_app.
  - destruct Ys; discriminate.
Qed.
Lemma iterate_iss_counts m is ns : Forall2 (fun i n => i_n K i = Ok n) is ns -> (forall i, In i is -> iss_counts K m i) ->
  forall X Ys, length X = m -> iterate_iss K is X = map Ok Ys ->
  length Ys = fold_right Nat.mul 1 ns /\ Forall (fun Y => length Y = length X) Ys /\
  forall js, Forall2 lt js ns -> exists Z, nth_error Ys (radix ns js) = Some Z /\ itsum K is js X Z.
Proof.
  induction 1 as [|i n is ns Hi F IH]; intros Ex X Ys LX E.
  - cbn in E. destruct Ys as [|Y [|]]; try discriminate. injection E as <-. cbn. split; [reflexivity|]. split; [constructor; [apply map_length|constructor]|].
    intros js Fj. inversion Fj. subst. cbn. eexists. split; reflexivity.
  - apply iterate_concat in E as (L & YY & HL & -> & FL).
    destruct (Ex i (or_introl eq_refl) X L n LX HL Hi) as (Ln & Lr).
    assert (IH' := IH (fun i0 Hi0 => Ex i0 (or_intror Hi0))).
    assert (A : Forall2 (fun (s : mts T) ys => length ys = fold_right Nat.mul 1 ns /\ Forall (fun Y => length Y = length X) ys /\
        forall js, Forall2 lt js ns -> exists Z, nth_error ys (radix ns js) = Some Z /\ itsum K is js (map (fun row => [row]) s) Z) L YY).
    { clear - FL IH' Lr LX. induction FL as [|s ys L YY Hs FL IHL]; constructor.
      - destruct (IH' _ _ ltac:(rewrite map_length, (Lr s) by (now left); exact LX) Hs) as (A & B & C). split; [exact A|]. split; [|exact C]. rewrite map_length, (Lr s) in B by (now left). exact B.
      - apply IHL. intros. apply Lr. now right. }
    assert (LYY : length YY = n) by (rewrite <- Ln; symmetry; eapply Forall2_len; exact FL).
    assert (FY : Forall (fun l : list (mts T) => length l = fold_right Nat.mul 1 ns) YY) by (clear - A; induction A as [|? ? ? ? (B & _) A IHA]; constructor; auto).
    split; [|split].
    + cbn. clear - FY LYY. subst n. induction FY as [|l YY El FY IHF]; cbn; [reflexivity|]. rewrite app_length, IHF. lia.
    + clear - A. induction A as [|? ? ? ? (_ & B & _) A IHA]; cbn; [constructor|]. apply Forall_app. auto.
    + intros js Fj. inversion Fj as [|j ? js' ? Hj Fj']; subst.
      destruct (nth_error L j) as [s|] eqn:Es; [|apply nth_error_None in Es; lia].
      destruct (Forall2_nth_error _ _ _ _ _ A Es) as (ys & Eys & _ & _ & C). destruct (C js' Fj') as (Z & EZ & IZ).
      exists Z. split.
      * cbn. rewrite (concat_nth YY _ j _ ys FY Eys); [exact EZ|]. apply nth_lt' in EZ. clear - FY Eys EZ.
        rewrite Forall_forall in FY. rewrite <- (FY ys); [exact EZ|]. eapply nth_error_In, Eys.
      * cbn. exists L, s. auto.
Qed.
Lemma iterate_iss_spec (W : lawful K) c is ns : Forall2 (fun i n => i_n K i = Ok n) is ns -> (forall i, In i is -> iss_exact K i) ->
  forall X Ys, length X = length c -> iterate_iss K (map (i_attach K c) is) X = map Ok Ys ->
  length Ys = fold_right Nat.mul 1 ns /\ Forall (fun Y => length Y = length X) Ys /\
  forall js, Forall2 lt js ns -> exists Z, nth_error Ys (radix ns js) = Some Z /\ itsum K (map (i_attach K c) is) js X Z.
Proof.
  intros F Ex. apply (iterate_iss_counts (length c)).
  - clear Ex. induction F as [|i n is ns Hi F IH]; constructor; [|exact IH]. rewrite <- Hi. apply (eqI_n K W), (eqI_attach K W).
  - intros i Hi. apply in_map_iff in Hi as (i0 & <- & Hi0). apply Ex, Hi0.
Qed.
End Cols.
