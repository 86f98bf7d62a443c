(** General words: DIM words against simple words (C08, C09, C10), replace_letters (C19). *)
From Coq Require Import Ascii String List Arith ZArith Bool Lia Reals Lra Permutation.
From Verif Require Import Num Arr L_Arr S_ISS M_Str M_Semiring M_Words M_ISS S_Plan S_Words
  L_Str L_Plan L_Words L_Tuples L_Reals L_Max L_Slow L_Gen L_Rows L_ISS L_API L_Single L_Ext.
Import ListNotations.
Local Open Scope nat_scope.
Local Open Scope list_scope.

(** The letters of an extended letter with non-negative counts, in reading order. *)
Definition letter_dims (el : list Z) : list nat :=
  flat_map (fun d => repeat d (Z.to_nat (nth d el 0%Z))) (seq 0 (length el)).
(** A simple word written with DIM letters. *)
Definition dim_word (exts : list (list Z)) : list eletter :=
  map (fun el => map (fun d => (str "DIM", Z.of_nat d)) (letter_dims el)) exts.
Definition nonneg_word (exts : list (list Z)) : Prop := Forall (Forall (fun z => 0 <= z)%Z) exts.

Lemma bind_dim_el el : bind_el (T := R) builtin (map (fun d => (str "DIM", Z.of_nat d)) (letter_dims el))
  = map (fun d X => nth d X []) (letter_dims el).
Proof.
  unfold bind_el. rewrite map_map. apply map_ext. intros d. cbn [fst snd]. change (builtin (str "DIM")) with (Some (@letter_DIM R)).
  cbv beta iota. unfold letter_DIM, py_row. destruct (Z.leb_spec 0 (Z.of_nat d)); [|lia].
  now rewrite Nat2Z.id.
Qed.

Lemma Rprod_repeat (v : R) k : Rprod (repeat v k) = (v ^ k)%R.
Proof. induction k as [|k IH]; cbn; [reflexivity|]. unfold Rprod in IH. now rewrite IH. Qed.
Lemma Rsum_repeat (v : R) k : Rsum (repeat v k) = (INR k * v)%R.
Proof. induction k as [|k IH]; [cbn; ring|]. cbn [repeat]. change (Rsum (v :: repeat v k)) with (v + Rsum (repeat v k))%R. rewrite IH, S_INR. ring. Qed.
Lemma map_repeat' {A B} (f : A -> B) x k : map f (repeat x k) = repeat (f x) k.
Proof. induction k; cbn; congruence. Qed.
Lemma Rprod_flat {A} (f : A -> list R) l : Rprod (flat_map f l) = Rprod (map (fun x => Rprod (f x)) l).
Proof. induction l as [|x l IH]; [reflexivity|]. cbn [flat_map map]. rewrite Rprod_app, IH. reflexivity. Qed.
Lemma Rsum_flat {A} (f : A -> list R) l : Rsum (flat_map f l) = Rsum (map (fun x => Rsum (f x)) l).
Proof. induction l as [|x l IH]; [reflexivity|]. cbn [flat_map map]. rewrite Rsum_app, IH. reflexivity. Qed.
Lemma map_flat_map {A B C} (f : B -> C) (g : A -> list B) l : map f (flat_map g l) = flat_map (fun x => map f (g x)) l.
Proof. induction l as [|x l IH]; [reflexivity|]. cbn. now rewrite map_app, IH. Qed.

Lemma dim_gext_val X el i : Forall (fun z => 0 <= z)%Z el ->
  gext_val X (map (fun d X => nth d X []) (letter_dims el)) i = ext_val X el i.
Proof.
  intros Hel. unfold gext_val, ext_val, letter_dims. rewrite map_map, map_flat_map, Rprod_flat. f_equal.
  apply map_ext_in. intros d Hd. apply in_seq in Hd. rewrite map_repeat', Rprod_repeat.
  change (nth i (nth d X []) 0%R) with (at_ X d i).
  assert (Hz : (0 <= nth d el 0)%Z) by (rewrite Forall_forall in Hel; apply Hel, nth_In; lia).
  rewrite <- (Z2Nat.id (nth d el 0%Z)) at 2 by assumption. now rewrite <- pow_powerRZ.
Qed.
Lemma dim_gext_val_plus X el i : Forall (fun z => 0 <= z)%Z el ->
  gext_val_plus X (map (fun d X => nth d X []) (letter_dims el)) i = ext_val_plus X el i.
Proof.
  intros Hel. unfold gext_val_plus, ext_val_plus, letter_dims. rewrite map_map, map_flat_map, Rsum_flat. f_equal.
  apply map_ext_in. intros d Hd. apply in_seq in Hd. rewrite map_repeat', Rsum_repeat.
  change (nth i (nth d X []) 0%R) with (at_ X d i).
  assert (Hz : (0 <= nth d el 0)%Z) by (rewrite Forall_forall in Hel; apply Hel, nth_In; lia).
  rewrite INR_IZR_INZ, Z2Nat.id by assumption. reflexivity.
Qed.

Definition bdim (exts : list (list Z)) : list (list (bletter R)) := bind_word builtin (dim_word exts).
Lemma bdim_eq exts : bdim exts = map (fun el => map (fun d X => nth d X []) (letter_dims el)) exts.
Proof. unfold bdim, bind_word, dim_word. rewrite map_map. apply map_ext. intros el. apply bind_dim_el. Qed.
Lemma bdim_length exts : length (bdim exts) = length exts.
Proof. rewrite bdim_eq. apply map_length. Qed.
Lemma bdim_firstn d exts : firstn d (bdim exts) = bdim (firstn d exts).
Proof. rewrite !bdim_eq. apply firstn_map. Qed.
Lemma bdim_nth exts j : j < length exts -> nth j (bdim exts) [] = map (fun d X => nth d X []) (letter_dims (nth j exts [])).
Proof.
  intros Hj. rewrite bdim_eq. rewrite (nth_indep _ [] (map (fun d X => nth d X []) (letter_dims []))) by (now rewrite map_length).
  now rewrite (map_nth (fun el => map (fun d X => nth d X []) (letter_dims el))).
Qed.

Lemma nonneg_nth exts j : nonneg_word exts -> Forall (fun z => 0 <= z)%Z (nth j exts []).
Proof.
  intros Hn. destruct (le_lt_dec (length exts) j).
  - rewrite nth_overflow by assumption. constructor.
  - unfold nonneg_word in Hn. rewrite Forall_forall in Hn. apply Hn, nth_In; assumption.
Qed.
Lemma bdim_gword X exts tau : nonneg_word exts -> gword_val X (bdim exts) tau = word_val X exts tau.
Proof.
  intros Hn. unfold gword_val, word_val. rewrite bdim_length. f_equal. apply map_ext_in. intros j Hj. apply in_seq in Hj.
  rewrite bdim_nth by lia. apply dim_gext_val. now apply nonneg_nth.
Qed.
Lemma bdim_gword_plus X exts tau : nonneg_word exts -> gword_val_plus X (bdim exts) tau = word_val_plus X exts tau.
Proof.
  intros Hn. unfold gword_val_plus, word_val_plus. rewrite bdim_length. f_equal. apply map_ext_in. intros j Hj. apply in_seq in Hj.
  rewrite bdim_nth by lia. apply dim_gext_val_plus. now apply nonneg_nth.
Qed.
Lemma bdim_letters_ok X n exts : wf_series X n -> letters_in (length X) exts -> letters_ok X n (bdim exts).
Proof.
  intros [_ HX] Hl. rewrite bdim_eq. unfold letters_ok. apply Forall_map. unfold letters_in in Hl. eapply Forall_impl; [|exact Hl].
  intros el Hel. apply Forall_map. apply Forall_forall. intros d Hd. unfold letter_dims in Hd. apply in_flat_map in Hd.
  destruct Hd as (d' & Hd' & Hr). apply in_seq in Hd'. assert (Hrr := Hr). apply repeat_spec in Hr. subst d'.
  rewrite Forall_forall in HX. apply HX. apply nth_In. apply (Hel d); [lia|].
  intros E. rewrite E in Hrr. destruct Hrr.
Qed.
Lemma tables_letters d exts : tables_in d exts -> letters_in d exts.
Proof. unfold tables_in, letters_in. intros Ht. eapply Forall_impl; [|exact Ht]. cbn. intros e He j Hj _. lia. Qed.
Lemma nonneg_nzneg X n exts : nonneg_word exts -> nonzero_where_neg X n exts.
Proof.
  intros Hn. unfold nonzero_where_neg. eapply Forall_impl; [|exact Hn]. intros e He j i Hj Hneg. exfalso.
  rewrite Forall_forall in He. specialize (He (nth j e 0%Z) (nth_In _ _ Hj)). lia.
Qed.
Lemma nonneg_firstn d exts : nonneg_word exts -> nonneg_word (firstn d exts).
Proof. unfold nonneg_word. intros Hz. rewrite <- (firstn_skipn d exts) in Hz. apply Forall_app in Hz. tauto. Qed.
Lemma tables_firstn d k exts : tables_in d exts -> tables_in d (firstn k exts).
Proof. unfold tables_in. intros Hz. rewrite <- (firstn_skipn k exts) in Hz. apply Forall_app in Hz. tauto. Qed.

Lemma is_max_unique P v m m' : is_max P v m -> is_max P v m' -> m = m'.
Proof. intros [(t & Ht & Et) H1] [(t' & Ht' & Et') H2]. specialize (H1 _ Ht'). specialize (H2 _ Ht). lra. Qed.

Definition agree_sr (s : semiring) := s = Reals \/ s = Arctic false.

Lemma list_eq_nth (a b : list R) : length a = length b -> (forall t, t < length a -> nth t a 0%R = nth t b 0%R) -> a = b.
Proof.
  revert b. induction a as [|x a IH]; intros [|y b] Hl Hn; try discriminate; [reflexivity|]. f_equal.
  - exact (Hn 0 (Nat.lt_0_succ _)).
  - apply IH; [cbn in Hl; lia|]. intros t Ht. exact (Hn (S t) (proj1 (Nat.succ_lt_mono _ _) Ht)).
Qed.

Lemma dim_rows_agree s x n exts ext q alpha g : agree_sr s -> wf_series x n -> nonneg_word exts -> kernel_ok s x n exts ->
  ext <= length exts -> q < ext ->
  nth q (sample_sums s (WGeneral (bdim exts)) ext None x g) []
  = nth q (sample_sums s (WSimple exts alpha) ext None x g) [].
Proof.
  intros Hs HX Hn Hk He Hq.
  rewrite (sample_row s x n) by (auto; destruct Hs; subst; auto; try (intros; congruence); reflexivity).
  cbn [al gg tt' sample_sums].
  assert (Hp : firstn (length exts - ext + q + 1) exts <> []).
  { destruct exts; [cbn in He; lia|]. rewrite Nat.add_1_r. discriminate. }
  destruct Hs as [-> | ->]; cbn [general_single row_of].
  - rewrite (slow_reals_single_row x n) by (auto; rewrite ?bdim_length; auto; apply bdim_letters_ok; auto; apply Hk).
    rewrite row_total_spec by (auto; apply repeat_length).
    apply tab_ext. intros t Ht. rewrite bdim_length, bdim_firstn.
    change (@zeros R RNum n) with (repeat 0%R n). rewrite iss_weighted_zero_g.
    unfold giss, iss. rewrite bdim_length. f_equal. apply map_ext. intros tau. apply bdim_gword. now apply nonneg_firstn.
  - apply list_eq_nth.
    + rewrite (slow_arctic_single_eq x n) by (auto; rewrite ?bdim_length; auto; apply bdim_letters_ok; auto; apply tables_letters, Hk).
      unfold garow, arow_total. now rewrite !tab_length.
    + intros t Ht.
      assert (Ht' : t < n).
      { rewrite (slow_arctic_single_eq x n) in Ht by (auto; rewrite ?bdim_length; auto; apply bdim_letters_ok; auto; apply tables_letters, Hk).
        unfold garow in Ht. now rewrite tab_length in Ht. }
      assert (M1 := slow_arctic_single_row x n (bdim exts) ext q t HX
          (bdim_letters_ok x n exts HX (tables_letters _ _ Hk)) ltac:(rewrite bdim_length; exact He) Hq Ht').
      cbn zeta in M1. rewrite bdim_length, bdim_firstn, bdim_length in M1.
      assert (M2 := arctic_row_max x n (zeros (length exts)) (zeros n) true (firstn (length exts - ext + q + 1) exts) t HX Hp
          (tables_firstn _ _ _ Hk) (repeat_length _ _) Ht').
      cbn [row_of] in M2. eapply is_max_unique; [exact M1|].
      revert M2. apply is_max_ext; [|reflexivity]. intros tau Htau.
      rewrite weight_exp_zeros, total_exp_zeros, bdim_gword_plus by (now apply nonneg_firstn).
      change Rplus with (@nadd R _). cbn [nadd RNum]. lra.
Qed.

(** API level. *)
Definition to_dim (w : sword R) : iword R := general_iword builtin (dim_word (sw_exts w)).

Lemma word_block_agree s X n w plan i wt' : agree_sr s -> wf_dataset X n ->
  nonneg_word (sw_exts w) -> Forall (fun x => kernel_ok s x n (sw_exts w)) X ->
  word_ext plan i <= length (sw_exts w) ->
  word_block s X None plan i (iw_val (simple_iword w)) = word_block s X wt' plan i (iw_val (to_dim w)).
Proof.
  intros Hs HX Hn Hk He. unfold word_block, word_rows.
  assert (Ea : is_argmax s = false) by (destruct Hs; subst; reflexivity). rewrite Ea.
  unfold swap01. apply map_ext_in. intros q Hq. apply in_seq in Hq.
  assert (E0 : iterated_sums s X (iw_val (to_dim w)) (word_ext plan i) wt' = iterated_sums s X (iw_val (to_dim w)) (word_ext plan i) None) by reflexivity.
  rewrite E0. rewrite !iterated_sums_samples by (apply map_length). rewrite !map_map2.
  apply map2_ext_in. intros x g Hx _. cbn [totals]. symmetry. cbn [to_dim general_iword iw_val simple_iword].
  apply (dim_rows_agree s x n); auto; try lia.
  - unfold wf_dataset in HX. rewrite Forall_forall in HX. auto.
  - rewrite Forall_forall in Hk. auto.
Qed.

Lemma all_rows_agree s X n plan wt' : agree_sr s -> wf_dataset X n -> forall words i,
  (forall j w, nth_error words j = Some w ->
     nonneg_word (sw_exts w) /\ Forall (fun x => kernel_ok s x n (sw_exts w)) X /\ word_ext plan (i + j) <= length (sw_exts w)) ->
  all_rows s X None plan i (map iw_val (map simple_iword words)) = all_rows s X wt' plan i (map iw_val (map to_dim words)).
Proof.
  intros Hs HX. induction words as [|w words IH]; intros i Hw; [reflexivity|]. cbn [map all_rows].
  destruct (Hw 0 w eq_refl) as (H1 & H2 & H3). rewrite Nat.add_0_r in H3. f_equal.
  - now apply (word_block_agree s X n).
  - apply IH. intros j w' Hj. specialize (Hw (S j) w' Hj). rewrite Nat.add_succ_comm. exact Hw.
Qed.

Lemma plan_le_exts (c : iss_cfg R) words j w : is_words c = map simple_iword words -> is_mode c = EXTENDED ->
  Forall parsed words -> nth_error words j = Some w -> word_ext (is_plan_opt c) j <= length (sw_exts w).
Proof.
  intros Ew Hm Hp Hj. destruct (words_bodies c words Ew Hp) as (tws & Hlen & Hwf & Hstr & Hnth).
  destruct (Hnth j w Hj) as (tw & Htw & _ & _ & E). unfold is_plan_opt, is_plan. rewrite Hm. cbn [word_ext]. unfold unique_el_depth.
  rewrite Hstr. assert (Hjl : j < length words) by (apply nth_error_Some; congruence).
  unfold create_plan. rewrite !map_length, Hlen.
  rewrite (nth_indep _ 0 (plan_word (map wstring (map bodies tws)) 0)) by (rewrite map_length, seq_length; lia).
  rewrite map_nth, seq_nth by lia. cbn [plus].
  assert (Hple := plan_word_le (map bodies tws) Hwf j).
  assert (E2 : nth j (map bodies tws) [] = bodies tw) by (apply nth_error_nth_; now apply map_nth_error).
  assert (Hple' : plan_word (map wstring (map bodies tws)) j <= length (bodies tw)) by (rewrite <- E2; exact Hple).
  rewrite E. cbn [sw_exts]. rewrite !map_length. unfold bodies in Hple' at 2. now rewrite map_length in Hple'.
Qed.

Lemma simple_general_agree (c c' : iss_cfg R) words X n :
  is_words c = map simple_iword words -> is_words c' = map to_dim words ->
  is_mode c' = is_mode c -> is_sr c' = is_sr c -> is_wt c = None -> is_plan_opt c' = is_plan_opt c ->
  agree_sr (is_sr c) -> (is_mode c = EXTENDED -> Forall parsed words) -> wf_dataset X n ->
  Forall (fun w => sw_exts w <> [] /\ nonneg_word (sw_exts w) /\ Forall (fun x => kernel_ok (is_sr c) x n (sw_exts w)) X) words ->
  iss_transform c X = iss_transform c' X.
Proof.
  intros Ew Ew' Hm Hs Hwt Hpl Ha Hp HX HF.
  destruct words as [|w0 ws0] eqn:Ewords.
  { rewrite !iss_transform_empty by (rewrite ?Ew, ?Ew'; reflexivity). reflexivity. }
  rewrite <- Ewords in *. assert (Hne : words <> []) by (rewrite Ewords; discriminate).
  rewrite iss_transform_eq by (rewrite Ew; destruct words; [congruence|discriminate]).
  rewrite iss_transform_eq by (rewrite Ew'; destruct words; [congruence|discriminate]).
  unfold cfg_guard. rewrite Hs, Hpl. destruct (argmax_guard (is_sr c) (is_plan_opt c)); [reflexivity|].
  rewrite Ew, Ew', Hwt.
  assert (Ea : is_argmax (is_sr c) = false) by (destruct Ha as [-> | ->]; reflexivity).
  rewrite batch_rows_pure by (rewrite map_map; apply Forall_map, Forall_forall; intros; exact I).
  rewrite batch_rows_pure by (rewrite map_map; apply Forall_map, Forall_forall; intros; exact Ea).
  f_equal. apply (all_rows_agree (is_sr c) X n); auto.
  intros j w Hj. assert (Hin := nth_error_In _ _ Hj). rewrite Forall_forall in HF. destruct (HF w Hin) as (H1 & H2 & H3).
  split; [assumption|]. split; [assumption|]. cbn [plus].
  destruct (is_mode c) eqn:Emode.
  - unfold is_plan_opt. rewrite Emode. cbn. destruct (sw_exts w); [congruence|cbn; lia].
  - eapply plan_le_exts; eauto.
Qed.

(** C10: weighting plays no role for general words. *)
Lemma general_ignores_weighting {T} `{Num T} (c : iss_cfg T) X :
  Forall (fun w => exists e, iw_val w = WGeneral e) (is_words c) ->
  iss_transform c X = iss_transform {| is_words := is_words c; is_mode := is_mode c; is_sr := is_sr c; is_wt := None; is_wt_name := [] |} X.
Proof.
  intros HF.
  assert (HB : forall plan ws i, Forall (fun w => exists e, iw_val w = WGeneral e) ws ->
      batch_rows (is_sr c) X (is_wt c) plan i (map iw_val ws) = batch_rows (is_sr c) X None plan i (map iw_val ws)).
  { induction ws as [|w ws IH]; intros i Hws; [reflexivity|]. inversion Hws as [|? ? (e & He) Hws']; subst.
    cbn [map batch_rows]. rewrite IH by assumption. rewrite He. reflexivity. }
  destruct (is_words c) as [|w ws] eqn:E.
  - rewrite !iss_transform_empty by (auto; reflexivity). reflexivity.
  - rewrite iss_transform_eq by congruence. rewrite iss_transform_eq by (cbn; discriminate).
    unfold cfg_guard, is_plan_opt, is_plan. cbn [is_words is_mode is_sr is_wt]. rewrite E, HB by assumption. reflexivity.
Qed.

(** C09: the Bayesian semiring on general words. *)
Lemma bayesian_general_api (c : iss_cfg R) (gws : list (list (list (bletter R)))) X n :
  map iw_val (is_words c) = map (@WGeneral R) gws -> is_mode c = SINGLE -> is_sr c = Bayesian ->
  gws <> [] -> wf_dataset X n ->
  Forall (fun w => w <> [] /\ Forall (fun x => letters_ok x n w /\ gext_nonneg x n w) X) gws ->
  exists rows, iss_transform c X = Ok rows /\ length rows = length gws /\
    forall r i t w x, nth_error gws r = Some w -> nth_error X i = Some x -> t < n ->
      let v := nth t (nth i (nth r rows []) []) 0%R in
      (t + 1 < length w -> v = 0%R) /\
      (length w <= t + 1 -> is_max (inc_upto (length w) t) (gword_val x w) v).
Proof.
  intros Ew Hm Hs Hne HX HF.
  assert (Hne' : is_words c <> []) by (intros E; rewrite E in Ew; destruct gws; [congruence|discriminate]).
  rewrite iss_transform_eq by assumption. unfold cfg_guard, argmax_guard, is_plan_opt. rewrite Hm, Hs. cbn [is_argmax].
  rewrite Ew, batch_rows_pure by (apply Forall_map, Forall_forall; intros; reflexivity).
  rewrite all_rows_single by reflexivity. eexists. split; [reflexivity|]. split; [now rewrite !map_length|].
  intros r i t w x Hw Hx Ht. cbv zeta. rewrite map_map. cbn [iterated_sums].
  erewrite (nth_error_nth_ (map _ gws) r); [|apply map_nth_error; exact Hw].
  rewrite map_map. erewrite (nth_error_nth_ (map _ X) i); [|apply map_nth_error; exact Hx].
  cbn [general_single].
  rewrite Forall_forall in HF. destruct (HF w (nth_error_In _ _ Hw)) as [Hn HFx]. rewrite Forall_forall in HFx.
  destruct (HFx x (nth_error_In _ _ Hx)) as [H1 H2].
  assert (Hlen : 1 <= length w) by (destruct w; [congruence|cbn; lia]).
  assert (HX1 : wf_series x n) by (unfold wf_dataset in HX; rewrite Forall_forall in HX; eapply HX, nth_error_In; eauto).
  assert (HS := slow_bayesian_single_row x n w 1 0 t HX1 H1 H2 Hlen Nat.lt_0_1 Ht). cbn zeta in HS.
  rewrite firstn_all2 in HS by lia. exact HS.
Qed.

(** * replace_letters (C19) *)
Lemma firstn_exact {A} (a b : list A) k : length a = k -> firstn k (a ++ b) = a.
Proof. intros <-. rewrite firstn_app, Nat.sub_diag, firstn_all. cbn. apply app_nil_r. Qed.
Lemma skipn_exact {A} (a b : list A) k : length a = k -> skipn k (a ++ b) = b.
Proof. intros <-. rewrite skipn_app, Nat.sub_diag, skipn_all. reflexivity. Qed.
Section Replace.
Context {T : Type} `{Num T}.
Variable reg : registry T.

(** The next [k] names. *)
Definition take_names (k : nat) (gen : list pystr) : list pystr := firstn k (gen ++ repeat (str "DIM") k).
Lemma take_names_cons k nm gen : take_names (S k) (nm :: gen) = nm :: take_names k gen.
Proof.
  unfold take_names. cbn [app firstn]. f_equal. cbn [repeat]. 
  rewrite !firstn_app. f_equal. destruct (le_lt_dec k (length gen)).
  - replace (k - length gen) with 0 by lia. reflexivity.
  - change (str "DIM" :: repeat (str "DIM") k) with (repeat (str "DIM") (S k)).
    rewrite !firstn_repeat_. f_equal. lia.
Qed.
Lemma take_names_nil k : take_names k [] = repeat (str "DIM") k.
Proof. unfold take_names. cbn. rewrite firstn_repeat_. f_equal. lia. Qed.
Lemma take_names_app a b gen : take_names (a + b) gen = take_names a gen ++ take_names b (skipn a gen).
Proof.
  revert gen. induction a as [|a IH]; intros gen; [reflexivity|]. destruct gen as [|nm gen].
  - cbn [skipn]. rewrite !take_names_nil. now rewrite <- repeat_app.
  - cbn [plus skipn]. rewrite !take_names_cons, IH. reflexivity.
Qed.
Lemma take_names_length k gen : length (take_names k gen) = k.
Proof. unfold take_names. rewrite firstn_length, app_length, repeat_length. lia. Qed.
Definition known (nm : pystr) : bool := match reg nm with Some _ => true | None => false end.

Definition repl_out (names : list pystr) (dims : list nat) : eletter := combine names (map Z.of_nat dims).

Lemma combine_app' {A B} (a a' : list A) (b b' : list B) : length a = length b -> combine (a ++ a') (b ++ b') = combine a b ++ combine a' b'.
Proof. revert b. induction a as [|x a IH]; intros [|y b] Hl; try discriminate; [reflexivity|]. cbn. f_equal. apply IH. cbn in Hl. lia. Qed.
Lemma skipn_add {A} a b (l : list A) : skipn b (skipn a l) = skipn (a + b) l.
Proof. revert l. induction a as [|a IH]; intros l; [reflexivity|]. destruct l; [now rewrite !skipn_nil|]. apply IH. Qed.

Lemma repl_dim_spec dim cnt : forall gen el,
  repl_dim reg gen el dim cnt =
  if forallb known (take_names cnt gen)
  then Ok (skipn cnt gen, el ++ repl_out (take_names cnt gen) (repeat dim cnt)) else Err RuntimeError.
Proof.
  induction cnt as [|cnt IH]; intros gen el.
  - cbn. rewrite app_nil_r. reflexivity.
  - cbn [repl_dim]. set (nm := match gen with [] => str "DIM" | nm :: _ => nm end).
    assert (Et : take_names (S cnt) gen = nm :: take_names cnt (tl gen)).
    { destruct gen as [|x gen]; [|apply take_names_cons]. rewrite take_names_nil. cbn [tl]. rewrite take_names_nil. reflexivity. }
    rewrite Et. cbn [forallb]. unfold el_append. unfold known at 1. destruct (reg nm); [|reflexivity]. cbn [bind andb].
    rewrite IH. destruct (forallb known (take_names cnt (tl gen))); [|reflexivity].
    assert (Es : skipn cnt (tl gen) = skipn (S cnt) gen) by (destruct gen; [now rewrite !skipn_nil|reflexivity]).
    rewrite Es, <- app_assoc. reflexivity.
Qed.

Fixpoint dims_from (dim : nat) (counts : list Z) : list nat :=
  match counts with [] => [] | c :: r => repeat dim (Z.to_nat c) ++ dims_from (S dim) r end.
Lemma letter_dims_from counts : letter_dims counts = dims_from 0 counts.
Proof.
  assert (HH : forall cs k, flat_map (fun d => repeat d (Z.to_nat (nth (d - k) cs 0%Z))) (seq k (length cs)) = dims_from k cs).
  { induction cs as [|c cs IH]; intros k; [reflexivity|]. cbn [length seq flat_map dims_from]. rewrite Nat.sub_diag. cbn [nth]. f_equal.
    rewrite <- IH. rewrite !flat_map_concat_map. f_equal. apply map_ext_in. intros d Hd. apply in_seq in Hd.
    destruct (d - k) as [|m] eqn:Em; [lia|]. replace (d - S k) with m by lia. reflexivity. }
  unfold letter_dims. rewrite <- HH. rewrite !flat_map_concat_map. f_equal. apply map_ext. intros d. now rewrite Nat.sub_0_r.
Qed.
Lemma repl_el_spec counts : forall dim gen el,
  let D := dims_from dim counts in
  repl_el reg gen el dim counts =
  if forallb known (take_names (length D) gen)
  then Ok (skipn (length D) gen, el ++ repl_out (take_names (length D) gen) D) else Err RuntimeError.
Proof.
  induction counts as [|c cs IH]; intros dim gen el; cbn [repl_el dims_from]; cbv zeta.
  - cbn. rewrite app_nil_r. reflexivity.
  - rewrite repl_dim_spec. rewrite app_length, repeat_length, take_names_app, forallb_app.
    destruct (forallb known (take_names (Z.to_nat c) gen)); [|reflexivity]. cbn [bind andb].
    rewrite IH. destruct (forallb known (take_names (length (dims_from (S dim) cs)) (skipn (Z.to_nat c) gen))); [|reflexivity].
    rewrite skipn_add, <- app_assoc. do 3 f_equal. unfold repl_out. rewrite map_app, combine_app'; [reflexivity|].
    rewrite take_names_length, map_length, repeat_length. reflexivity.
Qed.

(** [split_like shape l]: cut [l] into pieces of the given lengths. *)
Fixpoint pieces {A} (shape : list nat) (l : list A) : list (list A) :=
  match shape with [] => [] | k :: r => firstn k l :: pieces r (skipn k l) end.

Lemma replace_letters_spec w : forall gen,
  let dims := map letter_dims w in
  let names := take_names (length (concat dims)) gen in
  replace_letters reg w gen =
  if forallb known names
  then Ok (map2 (fun nms ds => combine nms (map Z.of_nat ds)) (pieces (map (@length nat) dims) names) dims)
  else Err RuntimeError.
Proof.
  induction w as [|counts w IH]; intros gen; cbn [replace_letters map concat]; cbv zeta; [reflexivity|].
  rewrite repl_el_spec. rewrite letter_dims_from. set (D := dims_from 0 counts).
  rewrite app_length, take_names_app, forallb_app. 
  destruct (forallb known (take_names (length D) gen)); [|reflexivity]. cbn [bind andb]. rewrite IH.
  destruct (forallb known (take_names (length (concat (map letter_dims w))) (skipn (length D) gen))); [|reflexivity].
  cbn [bind map2 pieces app]. f_equal. f_equal.
  - rewrite firstn_exact by apply take_names_length. reflexivity.
  - rewrite skipn_exact by apply take_names_length. reflexivity.
Qed.
End Replace.

(** Without names every letter stays DIM. *)
Lemma map2_dim (dims : list (list nat)) :
  map2 (fun nms ds => combine nms (map Z.of_nat ds)) (pieces (map (@length nat) dims) (repeat (str "DIM") (length (concat dims)))) dims
  = map (map (fun d => (str "DIM", Z.of_nat d))) dims.
Proof.
  induction dims as [|d dims IH]; [reflexivity|]. cbn [map concat pieces map2]. rewrite app_length, repeat_app.
  rewrite firstn_exact, skipn_exact by apply repeat_length. f_equal; [|exact IH].
  clear. induction d as [|x d IH]; [reflexivity|]. cbn. f_equal. exact IH.
Qed.
Lemma replace_dim_word w gen : (exists k, gen = repeat (str "DIM") k) ->
  replace_letters (T := R) builtin w gen = Ok (dim_word w).
Proof.
  intros (k & ->). rewrite replace_letters_spec. cbv zeta.
  assert (E : take_names (length (concat (map letter_dims w))) (repeat (str "DIM") k) = repeat (str "DIM") (length (concat (map letter_dims w)))).
  { unfold take_names. rewrite <- repeat_app, firstn_repeat_. f_equal. lia. }
  rewrite E.
  assert (Hk : forallb (known (T := R) builtin) (repeat (str "DIM") (length (concat (map letter_dims w)))) = true).
  { clear. induction (length (concat (map letter_dims w))); [reflexivity|]. cbn [repeat forallb]. rewrite IHn. reflexivity. }
  rewrite Hk, map2_dim. unfold dim_word. now rewrite map_map.
Qed.
