(** Algebra of iterated sums: quasi-shuffle, homogeneity. *)
From Coq Require Import Ascii String List Arith ZArith Bool Lia Reals Lra Permutation.
From Verif Require Import Num Arr L_Arr S_ISS S_Plan S_Words S_Shuffle M_Str M_Semiring M_Words M_ISS
  L_Tuples L_Reals L_Words L_Gen L_Rows L_ISS L_Single L_Ext L_Word2.
Import ListNotations.
Local Open Scope R_scope.

(** Iterated sum along a list of points, first letter first. *)
Section Front.
Context {P : Type}.
Fixpoint fsum (ts : list P) (fs : list (P -> R)) : R :=
  match fs with
  | [] => 1
  | f :: fs' => match ts with
                | [] => 0
                | t :: ts' => f t * fsum ts' fs' + fsum ts' fs
                end
  end.
Lemma fsum_nil ts : fsum ts [] = 1.
Proof. destruct ts; reflexivity. Qed.
Lemma fsum_cons t ts f fs : fsum (t :: ts) (f :: fs) = f t * fsum ts fs + fsum ts (f :: fs).
Proof. reflexivity. Qed.
Lemma fsum_snoc ts : forall fs f t, fsum (ts ++ [t]) (fs ++ [f]) = fsum ts (fs ++ [f]) + fsum ts fs * f t.
Proof.
  induction ts as [|s ts IH]; intros fs f t.
  - destruct fs as [|a fs]; cbn [app].
    + rewrite fsum_cons, !fsum_nil. cbn. lra.
    + rewrite fsum_cons. destruct fs; cbn; lra.
  - destruct fs as [|a fs]; cbn [app].
    + specialize (IH [] f t). cbn [app] in IH. rewrite !fsum_cons, !fsum_nil, IH, fsum_nil. lra.
    + rewrite !fsum_cons, IH. specialize (IH (a :: fs) f t). cbn [app] in IH. rewrite IH. lra.
Qed.
End Front.

Lemma gsum_fsum fs n : gsum fs n = fsum (seq 0 n) fs.
Proof.
  revert n. induction fs as [|f fs IH] using rev_ind; intros n; [now rewrite gsum_nil, fsum_nil|].
  induction n as [|n IHn].
  - rewrite gsum_snoc_0. destruct fs; reflexivity.
  - rewrite gsum_snoc_S, seq_S, fsum_snoc, IHn, IH. reflexivity.
Qed.

Lemma word_val_fapp X w tau : length tau = length w -> word_val X w tau = Rprod (fapp (map (fun e => ext_val X e) w) tau).
Proof.
  revert tau. induction w as [|e w IH] using rev_ind; intros tau Hl.
  - destruct tau; [reflexivity|discriminate].
  - destruct (snoc_cases tau) as [->|(t & i & ->)].
    + rewrite app_length in Hl. cbn in Hl. lia.
    + rewrite !app_length in Hl. cbn in Hl. assert (Ht : length t = length w) by lia.
      rewrite word_val_snoc by assumption. rewrite map_app. cbn [map]. rewrite fapp_snoc by (now rewrite map_length).
      rewrite Rprod_app, IH by assumption. cbn. lra.
Qed.
Lemma iss_fsum X w t : iss X w t = fsum (seq 0 (S t)) (map (fun e => ext_val X e) w).
Proof.
  rewrite <- gsum_fsum. unfold iss, gsum. rewrite map_length. f_equal. apply map_ext_in. intros tau Ht.
  apply itup_In in Ht. now apply word_val_fapp.
Qed.

(** Quasi-shuffle of functions: two letters are merged by a product. *)
Section QS.
Context {P L : Type} (val : list L -> P -> R) (ok : P -> list L -> Prop).
Hypothesis val_app : forall a b p, ok p a -> ok p b -> val (a ++ b) p = val a p * val b p.
Notation S_ ts w := (fsum ts (map val w)).
Lemma qs_nil_r {M} (u : list (list M)) : quasi_shuffle u [] = [u].
Proof. destruct u; reflexivity. Qed.
Lemma qs_cons {M} (a b : list M) u v : quasi_shuffle (a :: u) (b :: v)
  = map (cons a) (quasi_shuffle u (b :: v)) ++ map (cons b) (quasi_shuffle (a :: u) v) ++ map (cons (a ++ b)) (quasi_shuffle u v).
Proof. reflexivity. Qed.
Lemma sum_front t ts a ws : Rsum (map (fun w => S_ (t :: ts) (a :: w)) ws)
  = val a t * Rsum (map (fun w => S_ ts w) ws) + Rsum (map (fun w => S_ ts (a :: w)) ws).
Proof. cbn [map]. induction ws as [|w ws IH]; cbn [map Rsum fold_right]; [lra|]. fold Rsum. unfold Rsum in *. rewrite IH, fsum_cons. lra. Qed.
Lemma quasi_shuffle_fsum ts : forall u v,
  (forall p, In p ts -> Forall (ok p) u /\ Forall (ok p) v) ->
  S_ ts u * S_ ts v = Rsum (map (fun w => S_ ts w) (quasi_shuffle u v)).
Proof.
  induction ts as [|t ts IH]; intros u v Hok.
  - destruct u as [|a u].
    { destruct v; cbn; lra. }
    destruct v as [|b v].
    { cbn. lra. }
    rewrite qs_cons. cbn [map fsum]. rewrite Rmult_0_l. symmetry. apply Rsum_zero. intros w Hw.
    rewrite !in_app_iff, !in_map_iff in Hw. destruct Hw as [(?&<-&_)|[(?&<-&_)|(?&<-&_)]]; reflexivity.
  - destruct u as [|a u].
    { replace (quasi_shuffle [] v) with [v] by (destruct v; reflexivity). cbn [map Rsum fold_right]. rewrite fsum_nil. lra. }
    destruct v as [|b v].
    { rewrite qs_nil_r. cbn [map Rsum fold_right]. rewrite (fsum_nil (t :: ts)). lra. }
    assert (Hok' : forall p, In p ts -> Forall (ok p) (a :: u) /\ Forall (ok p) (b :: v)) by (intros p Hp; apply Hok; now right).
    assert (E1 := IH u (b :: v) ltac:(intros p Hp; destruct (Hok' p Hp) as [H1 H2]; inversion H1; subst; auto)).
    assert (E2 := IH (a :: u) v ltac:(intros p Hp; destruct (Hok' p Hp) as [H1 H2]; inversion H2; subst; auto)).
    assert (E3 := IH u v ltac:(intros p Hp; destruct (Hok' p Hp) as [H1 H2]; inversion H1; inversion H2; subst; auto)).
    assert (E4 := IH (a :: u) (b :: v) Hok').
    rewrite qs_cons in E4 |- *. rewrite !map_app, !Rsum_app, !map_map in E4 |- *. rewrite !sum_front.
    rewrite <- E1, <- E2, <- E3.
    destruct (Hok t (or_introl eq_refl)) as [Ha Hb]. inversion Ha; inversion Hb; subst.
    rewrite val_app by assumption.
    cbn [map] in E4 |- *. rewrite !fsum_cons. 
    transitivity (val a t * (fsum ts (map val u) * fsum ts (val b :: map val v)) + val b t * (fsum ts (val a :: map val u) * fsum ts (map val v))
      + (val a t * val b t) * (fsum ts (map val u) * fsum ts (map val v)) + fsum ts (val a :: map val u) * fsum ts (val b :: map val v)); [lra|].
    rewrite E4. lra.
Qed.
End QS.

(** Count tables and joined letters. *)
Lemma occurrences_app a b d : occurrences (a ++ b) d = (occurrences a d + occurrences b d)%Z.
Proof. unfold occurrences. rewrite !count_occ_app. lia. Qed.

Lemma ext_val_table_app X D a b i : nz_el X i a -> nz_el X i b ->
  ext_val X (table D (a ++ b)) i = ext_val X (table D a) i * ext_val X (table D b) i.
Proof.
  intros Ha Hb. unfold ext_val. unfold table. rewrite !map_length, !seq_length. rewrite <- Rprod_map_mult. f_equal.
  apply map_ext_in. intros d Hd. apply in_seq in Hd.
  assert (N : forall el, nth d (map (fun i => occurrences el (S i)) (seq 0 D)) 0%Z = occurrences el (S d)).
  { intros el. rewrite (nth_indep _ _ (occurrences el (S 0))) by (rewrite map_length, seq_length; lia).
    rewrite (map_nth (fun i => occurrences el (S i))). now rewrite seq_nth by lia. }
  rewrite !N, occurrences_app.
  destruct (Z.neg_nonneg_cases (occurrences a (S d))) as [Na|Na].
  { apply powerRZ_add. specialize (Ha (S d) ltac:(lia) Na). cbn [Nat.sub] in Ha. now rewrite Nat.sub_0_r in Ha. }
  destruct (Z.neg_nonneg_cases (occurrences b (S d))) as [Nb|Nb].
  { apply powerRZ_add. specialize (Hb (S d) ltac:(lia) Nb). cbn [Nat.sub] in Hb. now rewrite Nat.sub_0_r in Hb. }
  rewrite <- (Z2Nat.id _ Na), <- (Z2Nat.id _ Nb), <- Nat2Z.inj_add, <- !pow_powerRZ. apply pow_add.
Qed.

Lemma quasi_shuffle_letters (P : list Z -> Prop) : (forall a b, P a -> P b -> P (a ++ b)) ->
  forall u v w, Forall P u -> Forall P v -> In w (quasi_shuffle u v) -> Forall P w.
Proof.
  intros Happ. induction u as [|a u IHu].
  - intros v w _ Hv. replace (quasi_shuffle [] v) with [v] by (destruct v; reflexivity). intros [<-|[]]. assumption.
  - induction v as [|b v IHv]; intros w Hu Hv.
    + cbn. intros [<-|[]]. assumption.
    + rewrite qs_cons, !in_app_iff, !in_map_iff. inversion Hu; inversion Hv; subst.
      intros [(w' & <- & Hw)|[(w' & <- & Hw)|(w' & <- & Hw)]]; constructor; eauto.
Qed.

(** The code-level side conditions of a parsed word in terms of its letters. *)

Lemma nth_table D el d : (d < D)%nat -> nth d (table D el) 0%Z = occurrences el (S d).
Proof.
  intros Hd. unfold table. rewrite (nth_indep _ _ (occurrences el (S 0))) by (rewrite map_length, seq_length; lia).
  rewrite (map_nth (fun i => occurrences el (S i))). now rewrite seq_nth by lia.
Qed.
Lemma fits_ok X n els : fits X n els ->
  letters_in (length X) (map (table (top_dim els)) els) /\ nonzero_where_neg X n (map (table (top_dim els)) els).
Proof.
  intros [Hd Hn]. split.
  - apply Forall_map, Forall_forall. intros el _ j Hj _. unfold table in Hj. rewrite map_length, seq_length in Hj. lia.
  - apply Forall_map, Forall_forall. intros el Hel j i Hj Hneg Hi. assert (Hj' := Hj). unfold table in Hj'. rewrite map_length, seq_length in Hj'.
    rewrite nth_table in Hneg by assumption. specialize (Hn i Hi). rewrite Forall_forall in Hn.
    specialize (Hn el Hel (S j) ltac:(lia) Hneg). cbn [Nat.sub] in Hn. now rewrite Nat.sub_0_r in Hn.
Qed.
Lemma occurrences_above els el d : In el els -> (top_dim els < d)%nat -> occurrences el d = 0%Z.
Proof.
  intros Hel Hd. unfold occurrences.
  assert (A : forall z, In z el -> (Z.abs_nat z <= top_dim els)%nat).
  { intros z Hz. unfold top_dim. assert (F := proj1 (list_max_le (map Z.abs_nat (concat els)) (top_dim els)) (le_n _)).
    rewrite Forall_forall in F. apply F. apply in_map. apply in_concat. eauto. }
  rewrite (proj1 (count_occ_not_In Z.eq_dec el (Z.of_nat d))) by (intros Hi; apply A in Hi; lia).
  rewrite (proj1 (count_occ_not_In Z.eq_dec el (- Z.of_nat d)%Z)) by (intros Hi; apply A in Hi; lia).
  reflexivity.
Qed.
Lemma ext_val_table_grow X els el D i : In el els -> (top_dim els <= D)%nat ->
  ext_val X (table D el) i = ext_val X (table (top_dim els) el) i.
Proof.
  intros Hel HD.
  assert (E : table D el = table (top_dim els) el ++ repeat 0%Z (D - top_dim els)).
  { unfold table. replace D with (top_dim els + (D - top_dim els))%nat at 1 by lia. rewrite seq_app, map_app. f_equal.
    cbn [plus]. rewrite (map_ext_in _ (fun _ => 0%Z)).
    - assert (C : forall k s, map (fun _ : nat => 0%Z) (seq s k) = repeat 0%Z k).
      { induction k as [|k IH]; intros s; [reflexivity|]. cbn. f_equal. apply IH. }
      apply C.
    - intros d Hd. apply in_seq in Hd. apply (occurrences_above els); [assumption|lia]. }
  rewrite E. apply ext_val_pad.
Qed.
Lemma top_dim_qs u v w : In w (quasi_shuffle u v) -> (top_dim w <= Nat.max (top_dim u) (top_dim v))%nat.
Proof.
  intros Hw. set (M := Nat.max (top_dim u) (top_dim v)).
  assert (Q : forall els, Forall (Forall (fun z => (Z.abs_nat z <= M)%nat)) els <-> (top_dim els <= M)%nat).
  { intros els. unfold top_dim. rewrite list_max_le, Forall_map. rewrite !Forall_forall. split.
    - intros H z Hz. apply in_concat in Hz. destruct Hz as (el & Hel & Hz). specialize (H el Hel). rewrite Forall_forall in H. auto.
    - intros H el Hel. apply Forall_forall. intros z Hz. apply H. apply in_concat. eauto. }
  apply Q. apply (quasi_shuffle_letters _ ltac:(intros a b Ha Hb; apply Forall_app; auto) u v w); auto; apply Q; unfold M; lia.
Qed.

Lemma fsum_ext {P} ts (fs gs : list (P -> R)) :
  Forall2 (fun f g => forall p, In p ts -> f p = g p) fs gs -> fsum ts fs = fsum ts gs.
Proof.
  revert fs gs. induction ts as [|t ts IH]; intros fs gs HF.
  - inversion HF; reflexivity.
  - inversion HF as [|f g fs' gs' Hfg HF']; subst; [reflexivity|]. rewrite !fsum_cons. rewrite (Hfg t) by now left.
    rewrite (IH fs' gs'), (IH (f :: fs') (g :: gs')); [reflexivity| |].
    + constructor; [intros; apply Hfg; now right|]. clear -HF'. induction HF'; constructor; auto. intros; apply H; now right.
    + clear -HF'. induction HF'; constructor; auto. intros; apply H; now right.
Qed.

Lemma quasi_shuffle_iss X n u v t : fits X n u -> fits X n v -> (t < n)%nat ->
  iss X (map (table (top_dim u)) u) t * iss X (map (table (top_dim v)) v) t
  = Rsum (map (fun w => iss X (map (table (top_dim w)) w) t) (quasi_shuffle u v)).
Proof.
  intros [Hdu Hu] [Hdv Hv] Ht. set (D := Nat.max (top_dim u) (top_dim v)).
  assert (G : forall w, (top_dim w <= D)%nat -> iss X (map (table (top_dim w)) w) t = fsum (seq 0 (S t)) (map (fun el i => ext_val X (table D el) i) w)).
  { intros w Hw. rewrite iss_fsum. apply fsum_ext. rewrite map_map.
    assert (K : forall l, incl l w -> Forall2 (fun f g => forall p, In p (seq 0 (S t)) -> f p = g p)
        (map (fun x i => ext_val X (table (top_dim w) x) i) l) (map (fun el i => ext_val X (table D el) i) l)).
    { induction l as [|el l IHl]; intros Hi; constructor.
      - intros p _. symmetry. apply ext_val_table_grow; [apply Hi; now left|assumption].
      - apply IHl. intros x Hx. apply Hi. now right. }
    apply K. apply incl_refl. }
  rewrite (G u), (G v) by (unfold D; lia).
  rewrite (quasi_shuffle_fsum (fun el i => ext_val X (table D el) i) (nz_el X)).
  - f_equal. apply map_ext_in. intros w Hw. symmetry. apply G. apply top_dim_qs. assumption.
  - intros a b p Ha Hb. now apply ext_val_table_app.
  - intros p Hp. apply in_seq in Hp. split; [apply Hu|apply Hv]; lia.
Qed.
Lemma nz_el_app X i a b : nz_el X i a -> nz_el X i b -> nz_el X i (a ++ b).
Proof.
  intros Ha Hb d Hd Hn. rewrite occurrences_app in Hn.
  destruct (Z.neg_nonneg_cases (occurrences a d)); [apply Ha; assumption|]. apply Hb; [assumption|lia].
Qed.
Lemma fits_qs X n u v w : fits X n u -> fits X n v -> In w (quasi_shuffle u v) -> fits X n w.
Proof.
  intros [Hdu Hu] [Hdv Hv] Hw. split; [apply top_dim_qs in Hw; lia|]. intros i Hi.
  apply (quasi_shuffle_letters (nz_el X i) (nz_el_app X i) u v); auto.
Qed.
Lemma no_zero_qs u v w : no_zero u -> no_zero v -> In w (quasi_shuffle u v) -> no_zero w.
Proof. apply quasi_shuffle_letters. intros a b Ha Hb. apply Forall_app. auto. Qed.

Lemma Forall2_In_l {A B} (P : A -> B -> Prop) l l' a : Forall2 P l l' -> In a l -> exists b, P a b.
Proof. induction 1 as [|x y l l' H _ IH]; [easy|]. intros [->|Hi]; eauto. Qed.

(** C13 at the API. *)
Lemma quasi_shuffle_api (c : iss_cfg R) (wu wv : sword R) (ws : list (sword R)) u v X n :
  is_words c = map simple_iword (wu :: wv :: ws) -> is_mode c = SINGLE -> is_sr c = Reals -> is_wt c = None ->
  wf_dataset X n -> no_zero u -> no_zero v ->
  simple_word (sw_name wu) = Ok wu -> spells (sw_name wu) u ->
  simple_word (sw_name wv) = Ok wv -> spells (sw_name wv) v ->
  Forall2 (fun w els => simple_word (sw_name w) = Ok w /\ spells (sw_name w) els) ws (quasi_shuffle u v) ->
  Forall (fun x => fits x n u /\ fits x n v) X ->
  exists ru rv rws, iss_transform c X = Ok (ru :: rv :: rws) /\
    forall i t, (i < length X)%nat -> (t < n)%nat ->
      nth t (nth i ru []) 0 * nth t (nth i rv []) 0 = Rsum (map (fun r => nth t (nth i r []) 0) rws).
Proof.
  intros Ew Hm Hs Hwt HX Hzu Hzv Eu Su Ev Sv HF Hfit.
  assert (Exts : forall (w : sword R) els, no_zero els -> simple_word (sw_name w) = Ok w -> spells (sw_name w) els ->
      sw_exts w = map (table (top_dim els)) els /\ sw_exts w <> []).
  { intros w els Hz E S. rewrite (simple_word_nz' _ els) in E by assumption. injection E as E. rewrite <- E. cbn [sw_exts].
    split; [reflexivity|]. destruct S as (tw & [Hne _] & _ & ->). destruct tw; [congruence|discriminate]. }
  destruct (Exts _ _ Hzu Eu Su) as [Xu Nu]. destruct (Exts _ _ Hzv Ev Sv) as [Xv Nv].
  assert (XS : Forall2 (fun w els => sw_exts w = map (table (top_dim els)) els /\ sw_exts w <> [] /\ In els (quasi_shuffle u v)) ws (quasi_shuffle u v)).
  { assert (I : incl (quasi_shuffle u v) (quasi_shuffle u v)) by apply incl_refl.
    assert (K : forall l l', Forall2 (fun w els => simple_word (sw_name w) = Ok w /\ spells (sw_name w) els) l l' -> incl l' (quasi_shuffle u v) ->
      Forall2 (fun (w : sword R) els => sw_exts w = map (table (top_dim els)) els /\ sw_exts w <> [] /\ In els (quasi_shuffle u v)) l l').
    { induction 1 as [|w els l l' [E S] _ IH]; intros Hi; constructor.
      - assert (In els (quasi_shuffle u v)) by (apply Hi; now left).
        destruct (Exts w els) as [A B]; auto. eapply no_zero_qs; [| |eassumption]; assumption.
      - apply IH. intros z Hz. apply Hi. now right. }
    now apply K. }
  rewrite (reals_api c (wu :: wv :: ws) X n); auto; [|discriminate|].
  - cbn [map]. eexists _, _, _. split; [reflexivity|]. intros i t Hi Ht.
    assert (N : forall w : sword R, nth t (nth i (map (fun x => map (iss x (sw_exts w)) (seq 0 n)) X) []) 0 = iss (nth i X []) (sw_exts w) t).
    { intros w. rewrite (nth_indep _ _ ((fun x => map (iss x (sw_exts w)) (seq 0 n)) [])) by (now rewrite map_length).
      rewrite (map_nth (fun x => map (iss x (sw_exts w)) (seq 0 n))).
      rewrite (nth_indep _ _ (iss (nth i X []) (sw_exts w) 0)) by (now rewrite map_length, seq_length).
      rewrite (map_nth (iss (nth i X []) (sw_exts w))). now rewrite seq_nth. }
    rewrite !N, map_map. rewrite (map_ext _ _ N).
    rewrite Forall_forall in Hfit. destruct (Hfit (nth i X []) (nth_In _ _ Hi)) as [Fu Fv].
    rewrite Xu, Xv, (quasi_shuffle_iss _ n) by assumption.
    clear -XS. induction XS as [|w els l l' (E & _) _ IH]; [reflexivity|]. cbn [map]. rewrite !Rsum_cons, E, IH. reflexivity.
  - rewrite Forall_forall in Hfit.
    constructor; [|constructor; [|]].
    + split; [assumption|]. apply Forall_forall. intros x Hx. rewrite Xu. apply fits_ok. apply Hfit. assumption.
    + split; [assumption|]. apply Forall_forall. intros x Hx. rewrite Xv. apply fits_ok. apply Hfit. assumption.
    + clear -XS Hfit. apply Forall_forall. intros w Hw.
      assert (exists els, sw_exts w = map (table (top_dim els)) els /\ sw_exts w <> [] /\ In els (quasi_shuffle u v)) as (els & A & B & C).
      { exact (Forall2_In_l _ _ _ _ XS Hw). }
      split; [assumption|]. apply Forall_forall. intros x Hx. rewrite A. apply fits_ok. destruct (Hfit x Hx). apply (fits_qs x n u v); assumption.
Qed.

(** *** C59: homogeneity *)

Lemma at_scale d k X d' i : at_ (scale_dim d k X) d' i = if (d' =? d)%nat then k * at_ X d' i else at_ X d' i.
Proof.
  unfold at_, scale_dim. destruct (Nat.eqb_spec d' d) as [->|Hne].
  - destruct (Nat.ltb_spec d (length X)) as [Hd|Hd].
    + rewrite upd_nth_eq by assumption. destruct (Nat.ltb_spec i (length (nth d X []))) as [Hi|Hi].
      * rewrite (nth_indep _ _ (k * 0)) by (now rewrite map_length). apply map_nth.
      * rewrite !nth_overflow by (rewrite ?map_length; lia). lra.
    + rewrite (nth_overflow X) by assumption. rewrite (nth_overflow (upd _ _ _)) by (rewrite upd_length; assumption). destruct i; cbn; lra.
  - rewrite upd_nth_neq by auto. reflexivity.
Qed.
Lemma ext_val_scale d k X e i : k <> 0 -> ext_val (scale_dim d k X) e i = powerRZ k (nth d e 0%Z) * ext_val X e i.
Proof.
  intros Hk. unfold ext_val.
  destruct (Nat.ltb_spec d (length e)) as [Hd|Hd].
  - assert (Es : seq 0 (length e) = seq 0 d ++ d :: seq (S d) (length e - S d)).
    { replace (length e) with (d + S (length e - S d))%nat at 1 by lia. rewrite seq_app. reflexivity. }
    rewrite Es, !map_app, !Rprod_app. cbn [map]. rewrite !Rprod_cons.
    rewrite (map_ext_in (fun d0 => powerRZ (at_ (scale_dim d k X) d0 i) (nth d0 e 0%Z)) (fun d0 => powerRZ (at_ X d0 i) (nth d0 e 0%Z)) (seq 0 d)).
    2:{ intros a Ha. apply in_seq in Ha. rewrite at_scale. destruct (Nat.eqb_spec a d); [lia|reflexivity]. }
    rewrite (map_ext_in (fun d0 => powerRZ (at_ (scale_dim d k X) d0 i) (nth d0 e 0%Z)) (fun d0 => powerRZ (at_ X d0 i) (nth d0 e 0%Z)) (seq (S d) _)).
    2:{ intros a Ha. apply in_seq in Ha. rewrite at_scale. destruct (Nat.eqb_spec a d); [lia|reflexivity]. }
    rewrite at_scale, Nat.eqb_refl, powerRZ_mult. ring.
  - rewrite (nth_overflow e) by assumption. change (powerRZ k 0) with 1. rewrite Rmult_1_l. f_equal. apply map_ext_in.
    intros a Ha. apply in_seq in Ha. rewrite at_scale. destruct (Nat.eqb_spec a d); [lia|reflexivity].
Qed.
Lemma fsum_scale {P} (ts : list P) (ks : list R) fs : length ks = length fs ->
  fsum ts (map2 (fun k f p => k * f p) ks fs) = Rprod ks * fsum ts fs.
Proof.
  revert ks fs. induction ts as [|t ts IH]; intros [|k ks] [|f fs] E; try discriminate; cbn [map2].
  - cbn. lra.
  - cbn. lra.
  - cbn. lra.
  - rewrite !fsum_cons. injection E as E. rewrite IH by assumption. specialize (IH (k :: ks) (f :: fs)).
    cbn [map2 length] in IH. rewrite IH by (now f_equal). rewrite Rprod_cons. lra.
Qed.
Lemma Rprod_powerRZ k l : k <> 0 -> Rprod (map (powerRZ k) l) = powerRZ k (fold_right Z.add 0%Z l).
Proof. intros Hk. induction l as [|z l IH]; [reflexivity|]. cbn [map fold_right]. rewrite Rprod_cons, powerRZ_add, IH by assumption. reflexivity. Qed.
Lemma iss_scale d k X w t : k <> 0 -> iss (scale_dim d k X) w t = powerRZ k (total_exponent d w) * iss X w t.
Proof.
  intros Hk. rewrite !iss_fsum. unfold total_exponent. rewrite <- Rprod_powerRZ, map_map by assumption.
  rewrite <- fsum_scale by (now rewrite !map_length). apply fsum_ext.
  induction w as [|e w IH]; cbn [map map2]; constructor; [|exact IH]. intros p _. now apply ext_val_scale.
Qed.
Lemma at_invert X d i : at_ (invert X) d i = / at_ X d i.
Proof.
  unfold at_, invert. change (@nil R) with (map Rinv []) at 1. rewrite map_nth.
  destruct (Nat.ltb_spec i (length (nth d X []))) as [Hi|Hi].
  - rewrite (nth_indep _ _ (/ 0)) by (now rewrite map_length). apply map_nth.
  - rewrite !nth_overflow by (rewrite ?map_length; lia). symmetry. apply Rinv_0.
Qed.
Lemma powerRZ_inv_opp x z : powerRZ (/ x) z = powerRZ x (- z).
Proof.
  destruct z as [|p|p]; cbn [powerRZ Z.opp]; [reflexivity| |].
  - now rewrite pow_inv.
  - rewrite pow_inv. apply Rinv_inv.
Qed.
Lemma ext_val_negated X e i : ext_val X (map Z.opp e) i = ext_val (invert X) e i.
Proof.
  unfold ext_val. rewrite map_length. f_equal. apply map_ext. intros d. rewrite at_invert, powerRZ_inv_opp.
  f_equal. change 0%Z with (- 0)%Z at 1. apply map_nth.
Qed.
Lemma iss_negated X w t : iss X (negated w) t = iss (invert X) w t.
Proof.
  rewrite !iss_fsum. apply fsum_ext. unfold negated. rewrite map_map.
  induction w as [|e w IH]; cbn [map]; constructor; [|exact IH]. intros p _. apply ext_val_negated.
Qed.

(** Arctic. *)
Lemma at_scale_all k X d i : at_ (scale_all k X) d i = k * at_ X d i.
Proof.
  unfold at_, scale_all. change (@nil R) with (map (Rmult k) []) at 1. rewrite map_nth.
  destruct (Nat.ltb_spec i (length (nth d X []))) as [Hi|Hi].
  - rewrite (nth_indep _ _ (k * 0)) by (now rewrite map_length). apply map_nth.
  - rewrite !nth_overflow by (rewrite ?map_length; lia). lra.
Qed.
Lemma ext_val_plus_scale k X e i : ext_val_plus (scale_all k X) e i = k * ext_val_plus X e i.
Proof. unfold ext_val_plus. rewrite <- Rsum_map_scal. f_equal. apply map_ext. intros d. rewrite at_scale_all. ring. Qed.
Lemma word_val_plus_scale k X w tau : word_val_plus (scale_all k X) w tau = k * word_val_plus X w tau.
Proof. unfold word_val_plus. rewrite <- Rsum_map_scal. f_equal. apply map_ext. intros j. apply ext_val_plus_scale. Qed.
Lemma ext_val_plus_negated X e i : ext_val_plus X (map Z.opp e) i = ext_val_plus (scale_all (-1) X) e i.
Proof.
  unfold ext_val_plus. rewrite map_length. f_equal. apply map_ext. intros d. rewrite at_scale_all.
  change 0%Z with (- 0)%Z at 1. rewrite map_nth, opp_IZR. ring.
Qed.
Lemma word_val_plus_negated X w tau : word_val_plus X (negated w) tau = word_val_plus (scale_all (-1) X) w tau.
Proof.
  unfold word_val_plus, negated. rewrite map_length. f_equal. apply map_ext. intros j.
  rewrite <- ext_val_plus_negated. f_equal. change (@nil Z) with (map Z.opp []) at 1. apply map_nth.
Qed.
