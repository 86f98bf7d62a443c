(** Concatenated and reversed series: lemmas for C80-C82. *)
From Coq Require Import Ascii String List Arith ZArith Bool Lia Reals Lra Permutation Sorting.
From Verif Require Import S_Shuffle S_Chen Num Arr L_Arr S_ISS S_Plan S_Words M_Str M_Semiring M_Words M_ISS
  L_Tuples L_Reals L_Max L_Words L_Gen L_Rows L_ISS L_Single L_Ext L_Word2 L_General L_Algebra L_Homog.
Import ListNotations.
Local Open Scope R_scope.

(** ** Sums along lists of points *)
Lemma fsum_app {P} (ts us : list P) : forall fs,
  fsum (ts ++ us) fs = Rsum (map (fun j => fsum ts (firstn j fs) * fsum us (skipn j fs)) (seq 0 (S (length fs)))).
Proof.
  assert (Z : forall s k (f : nat -> R), (forall j, (s <= j < s + k)%nat -> f j = 0) -> Rsum (map f (seq s k)) = 0).
  { intros s k f E. apply Rsum_zero. intros j Hj. apply in_seq in Hj. apply E. lia. }
  induction ts as [|t ts IH]; intros fs.
  - cbn [app]. cbn [seq map]. rewrite Rsum_cons. cbn [firstn skipn]. rewrite fsum_nil, (Z 1%nat); [lra|].
    intros j Hj. destruct fs as [|f fs]; [cbn in Hj; lia|]. destruct j; [lia|]. cbn [firstn fsum]. lra.
  - destruct fs as [|f fs].
    + cbn. rewrite !fsum_nil. lra.
    + cbn [app]. rewrite fsum_cons, (IH fs), (IH (f :: fs)).
      cbn [length]. change (seq 0 (S (S (length fs)))) with (0%nat :: seq 1 (S (length fs))). cbn [map]. rewrite !Rsum_cons. cbn [firstn skipn].
      rewrite !fsum_nil, <- !seq_shift, !map_map. cbn [firstn skipn].
      rewrite <- (Rsum_map_scal (f t)).
      rewrite (map_ext (fun x => fsum (t :: ts) (f :: firstn x fs) * fsum us (skipn x fs))
        (fun x => f t * (fsum ts (firstn x fs) * fsum us (skipn x fs)) + fsum ts (f :: firstn x fs) * fsum us (skipn x fs)))
        by (intros; rewrite fsum_cons; lra).
      rewrite Rsum_map_plus. lra.
Qed.
Lemma fsum_rev {P} (ts : list P) : forall fs, fsum (rev ts) (rev fs) = fsum ts fs.
Proof.
  induction ts as [|t ts IH]; intros [|f fs].
  - reflexivity.
  - cbn [rev]. destruct (rev fs); reflexivity.
  - change (rev (@nil (P -> R))) with (@nil (P -> R)); now rewrite !fsum_nil.
  - rewrite fsum_cons. cbn [rev]. rewrite fsum_snoc. rewrite IH. specialize (IH (f :: fs)). cbn [rev] in IH. rewrite IH. lra.
Qed.
Lemma fsum_map {P Q} (g : P -> Q) ts : forall fs, fsum (map g ts) fs = fsum ts (map (fun f p => f (g p)) fs).
Proof.
  induction ts as [|t ts IH]; intros [|f fs]; try reflexivity. cbn [map fsum]. rewrite IH. specialize (IH (f :: fs)). cbn [map] in IH. now rewrite IH.
Qed.
Lemma fsum_pointwise {P} (ts : list P) (fs gs : list (P -> R)) : length fs = length gs ->
  (forall j p, (j < length fs)%nat -> In p ts -> nth j fs (fun _ => 0) p = nth j gs (fun _ => 0) p) -> fsum ts fs = fsum ts gs.
Proof.
  intros L E. apply fsum_ext. revert gs L E. induction fs as [|f fs IH]; intros [|g gs] L E; try discriminate; constructor.
  - intros p Hp. apply (E 0%nat p); [cbn; lia|assumption].
  - apply IH; [now injection L|]. intros j p Hj Hp. apply (E (S j) p); [cbn; lia|assumption].
Qed.

(** ** Maxima over non-decreasing tuples *)
Lemma fapp_app a b s t : length a = length s -> fapp (a ++ b) (s ++ t) = fapp a s ++ fapp b t.
Proof. revert s. induction a as [|f a IH]; intros [|x s] L; try discriminate; [reflexivity|]. unfold fapp in *. cbn. f_equal. apply IH. now injection L. Qed.
Lemma fapp_map fs (g : nat -> nat) tau : fapp fs (map g tau) = fapp (map (fun f i => f (g i)) fs) tau.
Proof. revert tau. induction fs as [|f fs IH]; intros [|x tau]; try reflexivity. unfold fapp in *. cbn. f_equal. apply IH. Qed.
Lemma fapp_length fs tau : length fs = length tau -> length (fapp fs tau) = length fs.
Proof. revert tau. induction fs as [|f fs IH]; intros [|x tau] L; try discriminate; [reflexivity|]. unfold fapp in *. cbn. f_equal. apply IH. now injection L. Qed.
Lemma fapp_rev fs tau : length fs = length tau -> fapp (rev fs) (rev tau) = rev (fapp fs tau).
Proof.
  revert tau. induction fs as [|f fs IH]; intros [|x tau] L; try discriminate; [reflexivity|]. injection L as L.
  cbn [rev]. rewrite fapp_app by (now rewrite !rev_length). rewrite IH by assumption. reflexivity.
Qed.
Lemma fapp_ext fs gs tau : length fs = length gs ->
  (forall j i, (j < length fs)%nat -> In i tau -> nth j fs (fun _ => 0) i = nth j gs (fun _ => 0) i) -> fapp fs tau = fapp gs tau.
Proof.
  revert gs tau. induction fs as [|f fs IH]; intros [|g gs] [|x tau] L E; try discriminate; try reflexivity. unfold fapp in *. cbn. f_equal.
  - apply (E 0%nat x); [cbn; lia|now left].
  - apply IH; [now injection L|]. intros j i Hj Hi. apply (E (S j) i); [cbn; lia|now right].
Qed.
Lemma nondec_app j k n1 t a b : (0 < n1)%nat -> nondec_upto j (n1 - 1) a -> nondec_upto k t b ->
  nondec_upto (j + k) (n1 + t) (a ++ map (fun i => n1 + i)%nat b).
Proof.
  intros Hn (La & Sa & Fa) (Lb & Sb & Fb). split; [rewrite app_length, map_length; lia|]. split.
  - assert (Sb' : Sorted le (map (fun i => n1 + i)%nat b)).
    { clear - Sb. induction Sb as [|x l Sl IH Hl]; cbn; constructor; auto. destruct Hl; cbn; constructor. lia. }
    assert (F : Forall (fun i => (n1 <= i)%nat) (map (fun i => n1 + i)%nat b)) by (apply Forall_map, Forall_forall; intros; lia).
    revert Sb' F. generalize (map (fun i => n1 + i)%nat b). intros c Sc Fc. clear - Hn Sa Fa Sc Fc. induction Sa as [|x l Sl IH Hl]; [assumption|]. inversion Fa; subst.
    cbn. constructor; [auto|]. destruct Hl as [|y l' Hy]; cbn; [destruct Fc; constructor; lia|now constructor].
  - apply Forall_app. split; [eapply Forall_impl; [|exact Fa]; cbn; intros; lia|]. apply Forall_map. eapply Forall_impl; [|exact Fb]. cbn. intros. lia.
Qed.
Lemma nondec_split k n1 t tau : (0 < n1)%nat -> nondec_upto k (n1 + t) tau ->
  exists j a b, (j <= k)%nat /\ tau = a ++ map (fun i => n1 + i)%nat b /\ nondec_upto j (n1 - 1) a /\ nondec_upto (k - j) t b.
Proof.
  intros Hn. revert k. induction tau as [|x tau IH]; intros k (L & S & F).
  - cbn in L. subst k. exists 0%nat, [], []. repeat split; auto; constructor.
  - cbn in L. destruct k as [|k]; [discriminate|]. injection L as L. inversion S as [|y l Sl Hl]; subst y l. inversion F as [|y l Fx Fl]; subst y l.
    destruct (IH k) as (j & a & b & Hj & E & Ha & Hb); [now repeat split|].
    destruct (lt_dec x n1) as [Hx|Hx].
    + exists (Datatypes.S j), (x :: a), b. split; [lia|]. split; [now rewrite E|]. split.
      * destruct Ha as (A1 & A2 & A3). split; [cbn; lia|]. split; [|constructor; [lia|assumption]]. constructor; [assumption|].
        rewrite E in Hl. destruct a; [constructor|]. inversion Hl; subst. now constructor.
      * now replace (Datatypes.S k - Datatypes.S j)%nat with (k - j)%nat by lia.
    + (* all later entries are >= n1 too *)
      assert (G : Forall (fun i => (n1 <= i)%nat) tau).
      { apply Sorted_StronglySorted in S; [|intros p q r; lia]. inversion S as [|y l _ Sx]; subst. eapply Forall_impl; [|exact Sx]. cbn. intros; lia. }
      exists 0%nat, [], (map (fun i => i - n1)%nat (x :: tau)). split; [lia|]. split.
      * cbn [app]. rewrite map_map. rewrite <- (map_id (x :: tau)) at 1. apply map_ext_in. intros i [<-|Hi]; [lia|]. rewrite Forall_forall in G. specialize (G i Hi). lia.
      * split; [repeat split; constructor|]. split; [rewrite map_length; cbn; lia|]. split.
        -- clear - S. induction S as [|y l Sl IH Hl]; cbn; constructor; auto. destruct Hl; cbn; constructor. lia.
        -- apply Forall_map. eapply Forall_impl; [|exact F]. cbn. intros; lia.
Qed.

Lemma nth_firstn_lt {A} (l : list A) d : forall m i, (i < m)%nat -> nth i (firstn m l) d = nth i l d.
Proof. induction l as [|x l IH]; intros [|m] [|i] Hi; cbn; try lia; try reflexivity. apply IH. lia. Qed.
Lemma nth_skipn_ {A} (l : list A) d : forall m i, nth i (skipn m l) d = nth (m + i) l d.
Proof. induction l as [|x l IH]; intros [|m] i; cbn; try reflexivity; [now destruct i|apply IH]. Qed.
Section MaxSplit.
Variables (V : list R -> R) (op : R -> R -> R) (ok : R -> Prop).
Hypothesis V_app : forall a b, V (a ++ b) = op (V a) (V b).
Hypothesis op_mono : forall a b c d, ok a -> ok c -> a <= b -> c <= d -> op a c <= op b d.
Lemma max_split (fs gs hs : list (nat -> R)) n1 t m (p s : nat -> R) : (0 < n1)%nat ->
  length fs = length hs -> length gs = length hs ->
  (forall j i, (j < length hs)%nat -> (i < n1)%nat -> nth j hs (fun _ => 0) i = nth j fs (fun _ => 0) i) ->
  (forall j i, (j < length hs)%nat -> (i <= t)%nat -> nth j hs (fun _ => 0) (n1 + i)%nat = nth j gs (fun _ => 0) i) ->
  (forall j tau, (j <= length hs)%nat -> nondec_upto j (n1 - 1) tau -> ok (V (fapp (firstn j fs) tau))) ->
  (forall j tau, (j <= length hs)%nat -> nondec_upto (length hs - j) t tau -> ok (V (fapp (skipn j gs) tau))) ->
  is_max (nondec_upto (length hs) (n1 + t)) (fun tau => V (fapp hs tau)) m ->
  (forall j, (j <= length hs)%nat -> is_max (nondec_upto j (n1 - 1)) (fun tau => V (fapp (firstn j fs) tau)) (p j)) ->
  (forall j, (j <= length hs)%nat -> is_max (nondec_upto (length hs - j) t) (fun tau => V (fapp (skipn j gs) tau)) (s j)) ->
  (exists j, (j <= length hs)%nat /\ m = op (p j) (s j)) /\ (forall j, (j <= length hs)%nat -> op (p j) (s j) <= m).
Proof.
  intros Hn Lf Lg EA EB OA OB [(tau & Ht & Hm) UB] HP HS. set (k := length hs) in *.
  assert (VAL : forall j a b, (j <= k)%nat -> nondec_upto j (n1 - 1) a -> nondec_upto (k - j) t b ->
    V (fapp hs (a ++ map (fun i => n1 + i)%nat b)) = op (V (fapp (firstn j fs) a)) (V (fapp (skipn j gs) b))).
  { intros j a b Hj (La & _ & Fa) (Lb & _ & Fb). rewrite <- V_app. f_equal.
    rewrite <- (firstn_skipn j hs) at 1. rewrite fapp_app by (rewrite firstn_length; fold k; lia). rewrite fapp_map. f_equal.
    - apply fapp_ext; [rewrite !firstn_length; fold k; lia|]. intros q i Hq Hi. rewrite firstn_length in Hq. fold k in Hq.
      rewrite Forall_forall in Fa. specialize (Fa i Hi).
      rewrite !nth_firstn_lt by lia. apply EA; lia.
    - apply fapp_ext; [rewrite map_length, !skipn_length; fold k; lia|]. intros q i Hq Hi. rewrite map_length, skipn_length in Hq. fold k in Hq.
      rewrite Forall_forall in Fb. specialize (Fb i Hi).
      pose proof (map_nth (fun (f : nat -> R) i => f (n1 + i)%nat) (skipn j hs) (fun _ => 0) q) as MN. cbv beta in MN. rewrite MN.
      rewrite !nth_skipn_. apply EB; [lia|assumption]. }
  assert (LE : forall j, (j <= k)%nat -> op (p j) (s j) <= m).
  { intros j Hj. destruct (HP j Hj) as [(a & Ha & <-) _]. destruct (HS j Hj) as [(b & Hb & <-) _]. rewrite <- VAL by assumption.
    apply UB. replace k with (j + (k - j))%nat by lia. now apply nondec_app. }
  split; [|exact LE]. destruct (nondec_split k n1 t tau Hn Ht) as (j & a & b & Hj & -> & Ha & Hb).
  exists j. split; [assumption|]. apply Rle_antisym; [|now apply LE]. rewrite <- Hm, (VAL j) by assumption.
  apply op_mono; [now apply OA|now apply OB|now apply (HP j Hj)|now apply (HS j Hj)].
Qed.
End MaxSplit.

(** Reversal of non-decreasing tuples. *)
Definition flip (n : nat) (tau : list nat) : list nat := rev (map (fun i => n - 1 - i)%nat tau).
Lemma flip_nondec k n tau : (0 < n)%nat -> nondec_upto k (n - 1) tau -> nondec_upto k (n - 1) (flip n tau).
Proof.
  intros Hn (L & S & F). unfold flip. split; [now rewrite rev_length, map_length|]. split.
  - clear L. induction S as [|x l Sl IH Hl]; [constructor|]. inversion F as [|y m Fx Fl]; subst y m. cbn [map rev].
    assert (A := sorted_snoc le (rev (map (fun i => n - 1 - i)%nat l)) (n - 1 - x)%nat).
    apply Sorted_StronglySorted in IH; [|intros p q r; lia|assumption].
    apply StronglySorted_Sorted. apply A; [assumption|]. apply Forall_rev, Forall_map.
    assert (G : StronglySorted le (x :: l)) by (apply Sorted_StronglySorted; [intros p q r; lia|now constructor]).
    inversion G; subst. eapply Forall_impl; [|eassumption]. cbn. intros. lia.
  - apply Forall_rev, Forall_map. eapply Forall_impl; [|exact F]. cbn. intros. lia.
Qed.
Lemma flip_flip k n tau : nondec_upto k (n - 1) tau -> flip n (flip n tau) = tau.
Proof.
  intros (_ & _ & F). unfold flip. rewrite map_rev, rev_involutive, map_map. rewrite <- (map_id tau) at 2. apply map_ext_in. intros i Hi.
  rewrite Forall_forall in F. specialize (F i Hi). lia.
Qed.
Lemma max_flip (V : list R -> R) fs hs n m : (forall l, V (rev l) = V l) -> (0 < n)%nat -> length fs = length hs ->
  (forall j i, (j < length hs)%nat -> (i < n)%nat -> nth j hs (fun _ => 0) i = nth j fs (fun _ => 0) (n - 1 - i)%nat) ->
  is_max (nondec_upto (length fs) (n - 1)) (fun tau => V (fapp fs tau)) m ->
  is_max (nondec_upto (length fs) (n - 1)) (fun tau => V (fapp (rev hs) tau)) m.
Proof.
  intros VR Hn L E [(tau & Ht & Hm) UB].
  assert (VAL : forall tau, nondec_upto (length fs) (n - 1) tau -> V (fapp (rev hs) (flip n tau)) = V (fapp fs tau)).
  { intros ta (La & _ & Fa). unfold flip. rewrite fapp_rev by (rewrite map_length; lia). rewrite VR, fapp_map. f_equal. apply fapp_ext; [now rewrite map_length|].
    intros j i Hj Hi. rewrite map_length in Hj. rewrite Forall_forall in Fa. specialize (Fa i Hi).
    pose proof (map_nth (fun (f : nat -> R) i => f (n - 1 - i)%nat) hs (fun _ => 0) j) as MN. cbv beta in MN. rewrite MN. rewrite E by lia. f_equal. lia. }
  split.
  - exists (flip n tau). split; [now apply flip_nondec|]. now rewrite VAL.
  - intros ta Hta. rewrite <- (flip_flip _ n ta Hta). rewrite VAL by (now apply flip_nondec). apply UB. now apply flip_nondec.
Qed.

(** ** The output of an ISS in terms of the letters of its words *)
Definition lv (x : list (list R)) (D : nat) (els : list (list Z)) : list (nat -> R) := map (fun el i => ext_val x (table D el) i) els.
Definition lp (x : list (list R)) (D : nat) (els : list (list Z)) : list (nat -> R) := map (fun el i => ext_val_plus x (table D el) i) els.

Lemma denotes_exts w els : no_zero els -> denotes w els -> sw_exts w = map (table (top_dim els)) els /\ sw_exts w <> [].
Proof.
  intros Hz [E S]. rewrite (simple_word_nz' _ els) in E by assumption. injection E as E. rewrite <- E. cbn [sw_exts].
  split; [reflexivity|]. destruct S as (tw & [Hne _] & _ & ->). destruct tw; [congruence|discriminate].
Qed.
Lemma Forall2_nth {A B} (P : A -> B -> Prop) l l' : Forall2 P l l' -> forall r b, nth_error l' r = Some b -> exists a, nth_error l r = Some a /\ P a b.
Proof. induction 1 as [|x y l l' H _ IH]; intros [|r] b E; cbn in *; try discriminate; [injection E as <-; eauto|eauto]. Qed.
Lemma Forall2_nth_l {A B} (P : A -> B -> Prop) l l' : Forall2 P l l' -> forall r a, nth_error l r = Some a -> exists b, nth_error l' r = Some b /\ P a b.
Proof. induction 1 as [|x y l l' H _ IH]; intros [|r] b E; cbn in *; try discriminate; [injection E as <-; eauto|eauto]. Qed.

Lemma table_pad els el D : In el els -> (top_dim els <= D)%nat -> table D el = table (top_dim els) el ++ repeat 0%Z (D - top_dim els).
Proof.
  intros Hel HD. unfold table. replace D with (top_dim els + (D - top_dim els))%nat at 1 by lia. rewrite seq_app, map_app. f_equal.
  cbn [plus]. rewrite (map_ext_in _ (fun _ => 0%Z)).
  - assert (C : forall k s, map (fun _ : nat => 0%Z) (seq s k) = repeat 0%Z k).
    { induction k as [|k IH]; intros s; [reflexivity|]. cbn. f_equal. apply IH. }
    apply C.
  - intros d Hd. apply in_seq in Hd. apply (occurrences_above els); [assumption|lia].
Qed.
Lemma ext_val_plus_pad X e k i : ext_val_plus X (e ++ repeat 0%Z k) i = ext_val_plus X e i.
Proof.
  unfold ext_val_plus. rewrite app_length, repeat_length, seq_app, map_app, Rsum_app. rewrite (Rsum_zero _ (seq _ k)).
  - rewrite Rplus_0_r. f_equal. apply map_ext_in. intros d Hd. apply in_seq in Hd. rewrite app_nth1 by lia. reflexivity.
  - intros d Hd. apply in_seq in Hd. rewrite app_nth2 by lia. rewrite nth_repeat. cbn. lra.
Qed.
Lemma word_val_plus_fapp X w tau : length tau = length w -> word_val_plus X w tau = Rsum (fapp (map (fun e => ext_val_plus X e) w) tau).
Proof.
  revert tau. induction w as [|e w IH] using rev_ind; intros tau Hl.
  - destruct tau; [reflexivity|discriminate].
  - destruct (snoc_cases tau) as [->|(t & i & ->)].
    + rewrite app_length in Hl. cbn in Hl. lia.
    + rewrite !app_length in Hl. cbn in Hl. assert (Ht : length t = length w) by lia.
      rewrite word_val_plus_snoc by assumption. rewrite map_app. cbn [map]. rewrite fapp_snoc by (now rewrite map_length).
      rewrite Rsum_app, IH by assumption. cbn. lra.
Qed.
Lemma lv_same x D els : (top_dim els <= D)%nat -> forall j i, nth j (map (fun e => ext_val x e) (map (table (top_dim els)) els)) (fun _ => 0) i = nth j (lv x D els) (fun _ => 0) i.
Proof.
  intros HD j i. unfold lv. rewrite map_map. destruct (lt_dec j (length els)) as [Hj|Hj].
  - rewrite (nth_indep _ _ (ext_val x (table (top_dim els) []))) by (now rewrite map_length).
    rewrite (map_nth (fun el => ext_val x (table (top_dim els) el))).
    rewrite (nth_indep (map (fun el i => ext_val x (table D el) i) els) _ (fun i => ext_val x (table D []) i)) by (now rewrite map_length).
    rewrite (map_nth (fun el i => ext_val x (table D el) i)). symmetry. apply ext_val_table_grow; [now apply nth_In|assumption].
  - rewrite !nth_overflow by (rewrite map_length; lia). reflexivity.
Qed.
Lemma lp_same x D els : (top_dim els <= D)%nat -> forall j i, nth j (map (fun e => ext_val_plus x e) (map (table (top_dim els)) els)) (fun _ => 0) i = nth j (lp x D els) (fun _ => 0) i.
Proof.
  intros HD j i. unfold lp. rewrite map_map. destruct (lt_dec j (length els)) as [Hj|Hj].
  - rewrite (nth_indep _ _ (ext_val_plus x (table (top_dim els) []))) by (now rewrite map_length).
    rewrite (map_nth (fun el => ext_val_plus x (table (top_dim els) el))).
    rewrite (nth_indep (map (fun el i => ext_val_plus x (table D el) i) els) _ (fun i => ext_val_plus x (table D []) i)) by (now rewrite map_length).
    rewrite (map_nth (fun el i => ext_val_plus x (table D el) i)). rewrite (table_pad els (nth j els []) D) by (try apply nth_In; assumption). now rewrite ext_val_plus_pad.
  - rewrite !nth_overflow by (rewrite map_length; lia). reflexivity.
Qed.

Lemma reals_values c ws elss X n : plain_iss c ws Reals -> Forall2 denotes ws elss -> ws <> [] -> wf_dataset X n ->
  Forall no_zero elss -> Forall (fun x => Forall (fits x n) elss) X ->
  exists rows, iss_transform c X = Ok rows /\
    forall r els i x t D, nth_error elss r = Some els -> nth_error X i = Some x -> (t < n)%nat -> (top_dim els <= D)%nat ->
      value rows r i t = fsum (seq 0 (S t)) (lv x D els).
Proof.
  intros (Ew & Hm & Hs & Hwt) HD Hne HX HZ HF.
  assert (XS : forall r w, nth_error ws r = Some w -> exists els, nth_error elss r = Some els /\ sw_exts w = map (table (top_dim els)) els /\ sw_exts w <> []).
  { intros r w E. destruct (Forall2_nth_l _ _ _ HD r w E) as (els & E' & Hd). exists els. split; [assumption|]. apply denotes_exts; [|assumption].
    rewrite Forall_forall in HZ. apply HZ. eapply nth_error_In, E'. }
  rewrite (reals_api c ws X n); auto.
  - eexists. split; [reflexivity|]. intros r els i x t D Er Ei Ht HDD. destruct (Forall2_nth _ _ _ HD r els Er) as (w & Erw & Hd).
    destruct (XS r w Erw) as (els' & Er' & Ex & _). rewrite Er in Er'. injection Er' as <-.
    unfold value. rewrite (nth_error_nth_ (map _ ws) r _ [] (map_nth_error _ _ _ Erw)).
    assert (Hi : (i < length X)%nat) by (apply nth_error_Some; congruence).
    rewrite (nth_grid (fun x => iss x (sw_exts w)) n X [] i t) by assumption. rewrite (nth_error_nth_ X i x [] Ei).
    rewrite iss_fsum, Ex. apply fsum_pointwise; [unfold lv; now rewrite !map_length|]. intros j p _ _. now apply lv_same.
  - apply Forall_forall. intros w Hw. apply In_nth_error in Hw as (r & Er). destruct (XS r w Er) as (els & Ee & Ex & Hn). split; [assumption|].
    eapply Forall_impl; [|exact HF]. cbn. intros x Hx. rewrite Ex. apply fits_ok. rewrite Forall_forall in Hx. apply Hx. eapply nth_error_In, Ee.
Qed.
Lemma bayes_values c ws elss X n : plain_iss c ws Bayesian -> Forall2 denotes ws elss -> ws <> [] -> wf_dataset X n ->
  Forall (Forall (Forall (fun v => 0 <= v))) X ->
  Forall no_zero elss -> Forall (fun x => Forall (fits x n) elss) X ->
  exists rows, iss_transform c X = Ok rows /\
    forall r els i x t D, nth_error elss r = Some els -> nth_error X i = Some x -> (t < n)%nat -> (top_dim els <= D)%nat ->
      is_max (nondec_upto (length els) t) (fun tau => Rprod (fapp (lv x D els) tau)) (value rows r i t).
Proof.
  intros (Ew & Hm & Hs & Hwt) HD Hne HX HP HZ HF.
  assert (XS : forall r w, nth_error ws r = Some w -> exists els, nth_error elss r = Some els /\ sw_exts w = map (table (top_dim els)) els /\ sw_exts w <> []).
  { intros r w E. destruct (Forall2_nth_l _ _ _ HD r w E) as (els & E' & Hd). exists els. split; [assumption|]. apply denotes_exts; [|assumption].
    rewrite Forall_forall in HZ. apply HZ. eapply nth_error_In, E'. }
  destruct (bayesian_api c ws X n) as (rows & E & L & _ & V); auto.
  - now rewrite Hwt.
  - apply Forall_forall. intros w Hw. apply In_nth_error in Hw as (r & Er). destruct (XS r w Er) as (els & Ee & Ex & Hn). split; [assumption|].
    eapply Forall_impl; [|exact HF]. cbn. intros x Hx. rewrite Ex. apply fits_ok. rewrite Forall_forall in Hx. apply Hx. eapply nth_error_In, Ee.
  - exists rows. split; [assumption|]. intros r els i x t D Er Ei Ht HDD. destruct (Forall2_nth _ _ _ HD r els Er) as (w & Erw & Hd).
    destruct (XS r w Erw) as (els' & Er' & Ex & _). rewrite Er in Er'. injection Er' as <-.
    specialize (V r i t w x Erw Ei Ht). rewrite Hwt, Ex, map_length in V. cbn [wexp] in V. eapply is_max_ext; [| |exact V]; [|reflexivity].
    intros tau (Lt & _ & _). cbn. rewrite word_val_fapp by (now rewrite map_length). rewrite exp_0, Rmult_1_r. f_equal.
    apply fapp_ext; [unfold lv; now rewrite !map_length|]. intros. symmetry. now rewrite <- lv_same.
Qed.
Lemma arctic_values c ws elss X n : plain_iss c ws (Arctic false) -> Forall2 denotes ws elss -> ws <> [] -> wf_dataset X n ->
  Forall no_zero elss -> Forall (fun x => Forall (fun els => (top_dim els <= length x)%nat) elss) X ->
  exists rows, iss_transform c X = Ok rows /\
    forall r els i x t D, nth_error elss r = Some els -> nth_error X i = Some x -> (t < n)%nat -> (top_dim els <= D)%nat ->
      is_max (nondec_upto (length els) t) (fun tau => Rsum (fapp (lp x D els) tau)) (value rows r i t).
Proof.
  intros (Ew & Hm & Hs & Hwt) HD Hne HX HZ HF.
  assert (XS : forall r w, nth_error ws r = Some w -> exists els, nth_error elss r = Some els /\ sw_exts w = map (table (top_dim els)) els /\ sw_exts w <> []).
  { intros r w E. destruct (Forall2_nth_l _ _ _ HD r w E) as (els & E' & Hd). exists els. split; [assumption|]. apply denotes_exts; [|assumption].
    rewrite Forall_forall in HZ. apply HZ. eapply nth_error_In, E'. }
  destruct (arctic_api c ws X n) as (rows & E & L & _ & V); auto.
  - now rewrite Hwt.
  - apply Forall_forall. intros w Hw. apply In_nth_error in Hw as (r & Er). destruct (XS r w Er) as (els & Ee & Ex & Hn). split; [assumption|].
    eapply Forall_impl; [|exact HF]. cbn. intros x Hx. rewrite Ex. unfold tables_in. apply Forall_map, Forall_forall. intros el _. unfold table. rewrite map_length, seq_length.
    rewrite Forall_forall in Hx. apply Hx. eapply nth_error_In, Ee.
  - exists rows. split; [assumption|]. intros r els i x t D Er Ei Ht HDD. destruct (Forall2_nth _ _ _ HD r els Er) as (w & Erw & Hd).
    destruct (XS r w Erw) as (els' & Er' & Ex & _). rewrite Er in Er'. injection Er' as <-.
    specialize (V r i t w x Erw Ei Ht). rewrite Hwt, Ex, map_length in V. cbn [wexp] in V. eapply is_max_ext; [| |exact V]; [|reflexivity].
    intros tau (Lt & _ & _). cbn. rewrite word_val_plus_fapp by (now rewrite map_length). rewrite Rplus_0_r. f_equal.
    apply fapp_ext; [unfold lp; now rewrite !map_length|]. intros. symmetry. now rewrite <- lp_same.
Qed.

(** ** Joined series *)
Definition jn (a b : list (list R)) : list (list R) := map (fun xy => fst xy ++ snd xy) (combine a b).
Lemma jn_length a b : length a = length b -> length (jn a b) = length a.
Proof. intros L. unfold jn. rewrite map_length, combine_length. lia. Qed.
Lemma jn_nth a b d : length a = length b -> nth d (jn a b) [] = nth d a [] ++ nth d b [].
Proof. revert b d. induction a as [|x a IH]; intros [|y b] d L; try discriminate; [destruct d; reflexivity|]; destruct d; [reflexivity|]. cbn. apply IH. now injection L. Qed.
Lemma jn_at_l a b n1 d i : length a = length b -> wf_series a n1 -> (i < n1)%nat -> at_ (jn a b) d i = at_ a d i.
Proof.
  intros L [_ W] Hi. unfold at_. rewrite jn_nth by assumption. destruct (lt_dec d (length a)) as [Hd|Hd].
  - apply app_nth1. rewrite Forall_forall in W. now rewrite (W _ (nth_In _ _ Hd)).
  - now rewrite !nth_overflow with (n := d) by lia.
Qed.
Lemma jn_at_r a b n1 d i : length a = length b -> wf_series a n1 -> at_ (jn a b) d (n1 + i) = at_ b d i.
Proof.
  intros L [_ W]. unfold at_. rewrite jn_nth by assumption. destruct (lt_dec d (length a)) as [Hd|Hd].
  - rewrite Forall_forall in W. rewrite app_nth2 by (rewrite (W _ (nth_In _ _ Hd)); lia). rewrite (W _ (nth_In _ _ Hd)). f_equal. lia.
  - rewrite !nth_overflow with (n := d) by lia. cbn. destruct i, n1; reflexivity.
Qed.
Lemma jn_wf a b n1 n2 : length a = length b -> wf_series a n1 -> wf_series b n2 -> wf_series (jn a b) (n1 + n2).
Proof.
  intros L [N1 W1] [N2 W2]. split.
  - intros E. apply N1. apply length_zero_iff_nil. rewrite <- (jn_length a b L), E. reflexivity.
  - apply Forall_forall. intros r Hr. apply (In_nth _ _ []) in Hr as (d & Hd & <-). rewrite jn_length in Hd by assumption. rewrite jn_nth, app_length by assumption.
    rewrite Forall_forall in W1, W2. rewrite (W1 _ (nth_In _ _ Hd)). rewrite L in Hd. now rewrite (W2 _ (nth_In _ _ Hd)).
Qed.
Lemma join_nth A B : same_dims A B -> forall i a, nth_error A i = Some a ->
  exists b, nth_error B i = Some b /\ length a = length b /\ nth_error (joined A B) i = Some (jn a b).
Proof. intros S. unfold joined. induction S as [|x y A B L _ IH]; intros [|i] a E; cbn in *; try discriminate; [injection E as <-; eauto|eauto]. Qed.
Lemma join_length A B : same_dims A B -> length (joined A B) = length A.
Proof. intros S. unfold joined. rewrite map_length, combine_length. assert (E : length A = length B) by (clear - S; induction S; cbn; congruence). lia. Qed.
Lemma join_nth_inv A B : same_dims A B -> forall i x, nth_error (joined A B) i = Some x ->
  exists a b, nth_error A i = Some a /\ nth_error B i = Some b /\ length a = length b /\ x = jn a b.
Proof. intros S. unfold joined. induction S as [|a b A B L _ IH]; intros [|i] x E; cbn in *; try discriminate; [injection E as <-; eauto 8|eauto]. Qed.
Lemma join_all (P : list (list R) -> Prop) A B (Q1 Q2 : list (list R) -> Prop) : same_dims A B -> Forall Q1 A -> Forall Q2 B ->
  (forall a b, length a = length b -> Q1 a -> Q2 b -> P (jn a b)) -> Forall P (joined A B).
Proof.
  intros S H1 H2 H. apply Forall_forall. intros x Hx. apply In_nth_error in Hx as (i & E). destruct (join_nth_inv A B S i x E) as (a & b & Ea & Eb & L & ->).
  rewrite Forall_forall in H1, H2. apply H; [assumption|apply H1; eapply nth_error_In, Ea|apply H2; eapply nth_error_In, Eb].
Qed.
Lemma nz_el_at X Y i j el : (forall d, at_ X d i = at_ Y d j) -> nz_el X i el <-> nz_el Y j el.
Proof. intros E. split; intros N d Hd Hn; specialize (N d Hd Hn); [rewrite <- E|rewrite E]; exact N. Qed.
Lemma fits_jn a b n1 n2 els : length a = length b -> wf_series a n1 -> fits a n1 els -> fits b n2 els -> fits (jn a b) (n1 + n2) els.
Proof.
  intros L W [T1 F1] [T2 F2]. split; [now rewrite jn_length|]. intros i Hi. destruct (lt_dec i n1) as [H|H].
  - specialize (F1 i H). eapply Forall_impl; [|exact F1]. intros el. apply nz_el_at. intros d. eapply jn_at_l; eauto.
  - specialize (F2 (i - n1)%nat ltac:(lia)). eapply Forall_impl; [|exact F2]. intros el. apply nz_el_at. intros d.
    replace i with (n1 + (i - n1))%nat at 1 by lia. eapply jn_at_r; eauto.
Qed.
Lemma ext_val_at X Y e i j : (forall d, at_ X d i = at_ Y d j) -> ext_val X e i = ext_val Y e j.
Proof. intros E. unfold ext_val. f_equal. apply map_ext. intros d. now rewrite E. Qed.
Lemma ext_val_plus_at X Y e i j : (forall d, at_ X d i = at_ Y d j) -> ext_val_plus X e i = ext_val_plus Y e j.
Proof. intros E. unfold ext_val_plus. f_equal. apply map_ext. intros d. now rewrite E. Qed.
Lemma lv_at X Y D els i j k : (forall d, at_ X d i = at_ Y d j) -> nth k (lv X D els) (fun _ => 0) i = nth k (lv Y D els) (fun _ => 0) j.
Proof.
  intros E. unfold lv. destruct (lt_dec k (length els)) as [Hk|Hk].
  - rewrite (nth_indep _ _ (fun i => ext_val X (table D []) i)) by (now rewrite map_length). rewrite (map_nth (fun el i => ext_val X (table D el) i)).
    rewrite (nth_indep (map _ _) _ (fun i => ext_val Y (table D []) i)) by (now rewrite map_length). rewrite (map_nth (fun el i => ext_val Y (table D el) i)).
    now apply ext_val_at.
  - rewrite !nth_overflow by (rewrite map_length; lia). reflexivity.
Qed.
Lemma lp_at X Y D els i j k : (forall d, at_ X d i = at_ Y d j) -> nth k (lp X D els) (fun _ => 0) i = nth k (lp Y D els) (fun _ => 0) j.
Proof.
  intros E. unfold lp. destruct (lt_dec k (length els)) as [Hk|Hk].
  - rewrite (nth_indep _ _ (fun i => ext_val_plus X (table D []) i)) by (now rewrite map_length). rewrite (map_nth (fun el i => ext_val_plus X (table D el) i)).
    rewrite (nth_indep (map _ _) _ (fun i => ext_val_plus Y (table D []) i)) by (now rewrite map_length). rewrite (map_nth (fun el i => ext_val_plus Y (table D el) i)).
    now apply ext_val_plus_at.
  - rewrite !nth_overflow by (rewrite map_length; lia). reflexivity.
Qed.

(** Sub-words. *)
Lemma top_dim_incl u els : incl u els -> (top_dim u <= top_dim els)%nat.
Proof.
  intros Hi. unfold top_dim at 1. apply list_max_le, Forall_map, Forall_forall. intros z Hz. apply in_concat in Hz as (el & Hel & Hz).
  assert (F := proj1 (list_max_le (map Z.abs_nat (concat els)) (top_dim els)) (le_n _)). rewrite Forall_forall in F. apply F. apply in_map, in_concat. eauto.
Qed.
Lemma fits_incl x n u els : incl u els -> fits x n els -> fits x n u.
Proof.
  intros Hi [T F]. split; [pose proof (top_dim_incl u els Hi); lia|]. intros i Hl. specialize (F i Hl). rewrite Forall_forall in *. auto.
Qed.
Lemma no_zero_incl u els : incl u els -> no_zero els -> no_zero u.
Proof. intros Hi F. unfold no_zero in *. rewrite Forall_forall in *. auto. Qed.
Lemma firstn_incl {A} j (l : list A) : incl (firstn j l) l.
Proof. intros x Hx. rewrite <- (firstn_skipn j l). apply in_app_iff. now left. Qed.
Lemma skipn_incl {A} j (l : list A) : incl (skipn j l) l.
Proof. intros x Hx. rewrite <- (firstn_skipn j l). apply in_app_iff. now right. Qed.
Lemma prefixes_of_nth {A} (w : list A) j : (1 <= j <= length w)%nat -> nth_error (prefixes_of w) (j - 1) = Some (firstn j w).
Proof.
  intros Hj. unfold prefixes_of. erewrite map_nth_error; [reflexivity|]. rewrite (nth_error_nth' _ 0%nat) by (rewrite seq_length; lia). rewrite seq_nth by lia. f_equal. lia.
Qed.
Lemma suffixes_of_nth {A} (w : list A) j : (j < length w)%nat -> nth_error (suffixes_of w) j = Some (skipn j w).
Proof.
  intros Hj. unfold suffixes_of. erewrite map_nth_error; [reflexivity|]. rewrite (nth_error_nth' _ 0%nat) by (rewrite seq_length; lia). rewrite seq_nth by lia. f_equal.
Qed.
Lemma prefixes_of_all {A} (P : list A -> Prop) w : (forall u, incl u w -> P u) -> Forall P (prefixes_of w).
Proof. intros H. apply Forall_map, Forall_forall. intros j _. apply H, firstn_incl. Qed.
Lemma suffixes_of_all {A} (P : list A -> Prop) w : (forall u, incl u w -> P u) -> Forall P (suffixes_of w).
Proof. intros H. apply Forall_map, Forall_forall. intros j _. apply H, skipn_incl. Qed.
