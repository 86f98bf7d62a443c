(** EXTENDED mode: every row is the SINGLE result of its label (C06);
    padding and reordering letters changes no iterated sum (C16, C17). *)
From Coq Require Import Ascii String List Arith ZArith Bool Lia Reals Lra Permutation.
From Verif Require Import Num Arr L_Arr S_ISS M_Str M_Semiring M_Words M_ISS S_Plan S_Words
  L_Str L_Plan L_Words L_Tuples L_Reals L_Max L_Slow L_Gen L_Rows L_ISS L_API L_Single.
Import ListNotations.
Local Open Scope nat_scope.
Local Open Scope list_scope.

(** ** Tables *)
Lemma table_length m el : length (table m el) = m.
Proof. unfold table. now rewrite map_length, seq_length. Qed.
Lemma table_nth m el j : j < m -> nth j (table m el) 0%Z = occurrences el (S j).
Proof.
  intros Hj. unfold table. rewrite (nth_indep _ 0%Z (occurrences el 1)) by (rewrite map_length, seq_length; lia).
  rewrite map_nth with (f := fun i => occurrences el (S i)) (d := 0). now rewrite seq_nth by lia.
Qed.
Lemma occurrences_above el m d : Forall (fun z => Z.abs_nat z <= m) el -> m < d -> occurrences el d = 0%Z.
Proof.
  intros Hel Hd. unfold occurrences. rewrite Forall_forall in Hel.
  rewrite !(proj1 (count_occ_not_In Z.eq_dec el _)); [reflexivity| |]; intros Hin; apply Hel in Hin; lia.
Qed.
Lemma table_pad m m' el : Forall (fun z => Z.abs_nat z <= m') el -> m' <= m ->
  table m el = table m' el ++ repeat 0%Z (m - m').
Proof.
  intros Hel Hm. unfold table. replace m with (m' + (m - m')) at 1 by lia. rewrite seq_app, map_app. f_equal.
  cbn [plus]. assert (HH : forall k j, m' <= j -> map (fun i => occurrences el (S i)) (seq j k) = repeat 0%Z k).
  { induction k as [|k IH]; intros j Hj; [reflexivity|]. cbn [seq map repeat]. rewrite (occurrences_above el m') by (auto; lia).
    f_equal. apply IH. lia. }
  apply HH. lia.
Qed.
Lemma top_dim_le els els' : incl (concat els') (concat els) -> top_dim els' <= top_dim els.
Proof.
  intros Hi. unfold top_dim. apply list_max_le. rewrite Forall_map. apply Forall_forall. intros z Hz.
  assert (HB := proj1 (list_max_le (map Z.abs_nat (concat els)) _) (le_n _)). rewrite Forall_map, Forall_forall in HB.
  apply HB. auto.
Qed.
Lemma concat_firstn_incl {A} d (l : list (list A)) : incl (concat (firstn d l)) (concat l).
Proof.
  intros x Hx. rewrite <- (firstn_skipn d l), concat_app. apply in_or_app. auto.
Qed.

Lemma sr_val_pad s X e k i : sr_val s X (e ++ repeat 0%Z k) i = sr_val s X e i.
Proof. destruct s; [apply ext_val_pad|apply ext_val_plus_pad|apply ext_val_pad]. Qed.
Lemma sr_val_table s X m m' el i : Forall (fun z => Z.abs_nat z <= m') el -> m' <= m ->
  sr_val s X (table m' el) i = sr_val s X (table m el) i.
Proof. intros Hel Hm. rewrite (table_pad m m') by assumption. now rewrite sr_val_pad. Qed.

(** kernel_ok only looks at non-zero entries (and lengths). *)
Lemma kernel_ok_sub s X n w w' :
  (forall e', In e' w' -> exists e, In e w /\ length e' <= length e /\
      forall j, j < length e' -> nth j e' 0%Z = nth j e 0%Z) ->
  kernel_ok s X n w -> kernel_ok s X n w'.
Proof.
  intros Hsub Hk. destruct s; cbn [kernel_ok] in *.
  1,3: destruct Hk as [H1 H2]; split.
  all: unfold letters_in, nonzero_where_neg, tables_in in *; rewrite Forall_forall in *;
    intros e' He'; destruct (Hsub e' He') as (e & He & Hl & Hn).
  - intros j Hj Hne. rewrite Hn in Hne by assumption. eapply (H1 e He); eauto. lia.
  - intros j i Hj Hneg Hi. rewrite Hn in Hneg by assumption. eapply (H2 e He); eauto. lia.
  - intros j Hj Hne. rewrite Hn in Hne by assumption. eapply (H1 e He); eauto. lia.
  - intros j i Hj Hneg Hi. rewrite Hn in Hneg by assumption. eapply (H2 e He); eauto. lia.
  - specialize (Hk e He). lia.
Qed.

(** ** Rows of one sample *)
Definition al (tot : option bool) (exts : list (list Z)) (alpha : list R) : list R :=
  match tot with Some _ => alpha | None => zeros (length exts) end.
Definition gg (tot : option bool) (n : nat) (g : list R) : list R := match tot with Some _ => g | None => zeros n end.
Definition tt' (tot : option bool) : bool := match tot with Some b => b | None => true end.

Lemma sample_row s x n exts alpha ext tot g q : is_argmax s = false -> wf_series x n -> kernel_ok s x n exts ->
  (tot <> None -> length g = n) -> ext <= length exts -> q < ext ->
  nth q (sample_sums s (WSimple exts alpha) ext tot x g) []
  = row_of s x n (al tot exts alpha) (gg tot n g) (tt' tot) (firstn (length exts - ext + q + 1) exts).
Proof.
  intros Hs HX Hk Hg He Hq. cbn [sample_sums]. rewrite (tlen_wf x n HX).
  destruct tot as [b|]; cbn [al gg tt'].
  - apply fast_single_row; auto. apply Hg. discriminate.
  - apply fast_single_row; auto. apply repeat_length.
Qed.

Lemma firstn_nth_ {A} (l : list A) d k x : k < d -> nth k (firstn d l) x = nth k l x.
Proof.
  revert d k. induction l as [|y l IH]; intros [|d] [|k] Hk; cbn; try lia; auto. apply IH. lia.
Qed.
Lemma nth_zeros m j : nth j (@zeros R _ m) 0%R = 0%R.
Proof. unfold zeros. cbn. apply nth_repeat. Qed.

Lemma map2_ext_in {A B C} (f f' : A -> B -> C) l1 l2 :
  (forall x y, In x l1 -> In y l2 -> f x y = f' x y) -> map2 f l1 l2 = map2 f' l1 l2.
Proof.
  revert l2. induction l1 as [|x l1 IH]; intros [|y l2] Hf; cbn; try reflexivity.
  rewrite Hf by (left; auto). f_equal. apply IH. intros; apply Hf; right; auto.
Qed.

(** A parsed word: string without letter 0. *)
Definition parsed (w : sword R) : Prop :=
  simple_word (sw_name w) = Ok w /\ exists els, spells (sw_name w) els /\ no_zero els.

Lemma no_zero_firstn d els : no_zero els -> no_zero (firstn d els).
Proof. unfold no_zero. intros Hz. rewrite <- (firstn_skipn d els) in Hz. apply Forall_app in Hz. tauto. Qed.

Lemma simple_word_nz s els : spells s els -> no_zero els ->
  simple_word (T := R) s = Ok {| sw_name := s; sw_maxdim := top_dim els; sw_exts := map (table (top_dim els)) els; sw_alpha := None |}.
Proof.
  intros Hs Hz. rewrite (simple_word_spec s els Hs). destruct (spells_ne _ _ Hs) as [H1 H2].
  assert (Hp := top_dim_pos els Hz H1 H2). destruct (Nat.eqb_spec (top_dim els) 0); [lia|].
  rewrite tables_no_zero by assumption. reflexivity.
Qed.

Lemma parsed_tokens w : parsed w -> exists tw, wf_tword tw /\ no_zero (map (map tok_val) tw) /\
  let els := map (map tok_val) tw in
  w = {| sw_name := tword_str tw; sw_maxdim := top_dim els; sw_exts := map (table (top_dim els)) els; sw_alpha := None |}.
Proof.
  intros (Hw & els & (tw & Htw & Hn & ->) & Hz). exists tw. split; [assumption|]. split; [assumption|].
  cbn zeta. rewrite (simple_word_nz (sw_name w) (map (map tok_val) tw)) in Hw by (auto; exists tw; auto).
  rewrite <- Hn. congruence.
Qed.

Lemma Forall_exists_list {A B} (P : A -> B -> Prop) l : Forall (fun x => exists y, P x y) l -> exists l', Forall2 P l l'.
Proof. induction 1 as [|x l (y & Hy) _ (l' & IH)]; [exists []; constructor|]. exists (y :: l'). constructor; auto. Qed.

Section Extended.
Variables (c : iss_cfg R) (words : list (sword R)) (X : dataset R) (n : nat).
Hypothesis Hwords : is_words c = map simple_iword words.
Hypothesis Hmode : is_mode c = EXTENDED.
Hypothesis Hsr : is_argmax (is_sr c) = false.
Hypothesis Hne : words <> [].
Hypothesis Hparsed : Forall parsed words.
Hypothesis HX : wf_dataset X n.
Hypothesis Hk : Forall (fun w => Forall (fun x => kernel_ok (is_sr c) x n (sw_exts w)) X) words.
Hypothesis Hl : length (lookups (is_wt c) X) = length X.
Hypothesis Hg : is_wt c <> None -> Forall (fun g => length g = n) (lookups (is_wt c) X).

(** SINGLE rows of a parsed string. *)
Definition single_rows (w : sword R) : list (list R) :=
  map2 (fun x g => nth 0 (sample_sums (is_sr c) (iw_val (simple_iword w)) 1 (totals (is_wt c)) x g) []) X (lookups (is_wt c) X).
Definition F (p : list pystr) : list (list R) :=
  match simple_word (T := R) (wstring p) with Ok w => single_rows w | Err _ => [] end.

Lemma prefix_word tw d : wf_tword tw -> no_zero (map (map tok_val) tw) -> 1 <= d <= length tw ->
  simple_word (T := R) (wstring (firstn d (bodies tw))) =
  let els := firstn d (map (map tok_val) tw) in
  Ok {| sw_name := wstring (firstn d (bodies tw)); sw_maxdim := top_dim els; sw_exts := map (table (top_dim els)) els; sw_alpha := None |}.
Proof using.
  clear. intros [Hne Hw] Hz Hd. cbn zeta. apply simple_word_nz.
  - exists (firstn d tw). repeat split.
    + destruct tw; [cbn in Hd; lia|]. destruct d; [lia|discriminate].
    + rewrite <- (firstn_skipn d tw) in Hw. apply Forall_app in Hw. tauto.
    + rewrite tword_wstring. unfold bodies. now rewrite firstn_map.
    + now rewrite firstn_map.
  - now apply no_zero_firstn.
Qed.

Lemma totals_some g : totals (is_wt c) <> None -> In g (lookups (is_wt c) X) -> length g = n.
Proof using Hg.
  intros Ht Hin. assert (Hw : is_wt c <> None) by (intros E; apply Ht; rewrite E; reflexivity).
  specialize (Hg Hw). rewrite Forall_forall in Hg. auto.
Qed.

Lemma block_is_labels tw w d ext q : In w words -> wf_tword tw -> no_zero (map (map tok_val) tw) ->
  (let els := map (map tok_val) tw in
   w = {| sw_name := tword_str tw; sw_maxdim := top_dim els; sw_exts := map (table (top_dim els)) els; sw_alpha := None |}) ->
  ext <= length tw -> q < ext -> d = length tw - ext + q + 1 ->
  map2 (fun x g => nth q (sample_sums (is_sr c) (iw_val (simple_iword w)) ext (totals (is_wt c)) x g) []) X (lookups (is_wt c) X)
  = F (firstn d (bodies tw)).
Proof using Hsr HX Hk Hg.
  clear Hwords Hmode Hne Hparsed Hl.
  intros Hin Htw Hz Hw He Hq Ed. cbn zeta in Hw. unfold F. rewrite prefix_word by (auto; lia). cbn zeta.
  unfold single_rows. apply map2_ext_in. intros x g Hx Hgx.
  set (els := map (map tok_val) tw) in *. set (els' := firstn d els).
  assert (Hlen : length (sw_exts w) = length tw) by (rewrite Hw; cbn; unfold els; now rewrite !map_length).
  assert (Hk1 : kernel_ok (is_sr c) x n (sw_exts w)).
  { rewrite Forall_forall in Hk. specialize (Hk w Hin). rewrite Forall_forall in Hk. auto. }
  assert (HX1 : wf_series x n) by (unfold wf_dataset in HX; rewrite Forall_forall in HX; auto).
  assert (Htop : top_dim els' <= top_dim els) by (apply top_dim_le, concat_firstn_incl).
  assert (Hlen' : length els' = d) by (unfold els', els; rewrite firstn_length, map_length; lia).
  cbn [simple_iword iw_val sw_exts].
  rewrite (sample_row (is_sr c) x n (sw_exts w)) by (auto; try (intros; now apply totals_some); lia).
  rewrite (sample_row (is_sr c) x n (map (table (top_dim els')) els')).
  - rewrite map_length, Hlen', Hlen. replace (length tw - ext + q + 1) with d by lia.
    rewrite (firstn_all2 (map (table (top_dim els')) els')) by (rewrite map_length, Hlen'; lia).
    apply row_of_congr.
    + destruct (sw_exts w); [cbn in Hlen; destruct tw; cbn in *; lia|]. destruct d; [lia|discriminate].
    + split; [rewrite firstn_length, map_length; lia|].
      intros j i Hj. rewrite firstn_length in Hj. assert (Hjd : j < d) by lia. rewrite firstn_nth_ by lia.
      rewrite Hw. cbn [sw_exts].
      rewrite (nth_indep _ [] (table (top_dim els) [])) by (rewrite map_length; unfold els; rewrite map_length; lia).
      rewrite map_nth. rewrite (nth_indep (map (table (top_dim els')) els') [] (table (top_dim els') [])) by (rewrite map_length; lia).
      rewrite map_nth. unfold els' at 2. rewrite firstn_nth_ by lia. symmetry. apply sr_val_table; [|exact Htop].
      assert (HB := top_dim_bound els'). rewrite Forall_forall in HB. apply HB.
      replace (nth j els []) with (nth j els' []) by (unfold els'; now apply firstn_nth_). apply nth_In. lia.
    + intros j Hj. rewrite firstn_length in Hj. destruct (totals (is_wt c)); cbn [al].
      * assert (Ea : get_alpha w = repeat 1%R (length (sw_exts w))) by (unfold get_alpha; rewrite Hw; reflexivity).
        rewrite Ea. unfold get_alpha. cbn [sw_alpha sw_exts]. unfold ones. cbn [nunit RNum].
        rewrite (nth_indep _ 0%R 1%R) by (rewrite repeat_length; lia). rewrite nth_repeat.
        rewrite (nth_indep _ 0%R 1%R) by (rewrite repeat_length, map_length; lia). now rewrite nth_repeat.
      * now rewrite !nth_zeros.
  - exact Hsr.
  - exact HX1.
  - eapply kernel_ok_sub; [|exact Hk1]. intros e' He'. apply in_map_iff in He'. destruct He' as (el & <- & Hel).
    exists (table (top_dim els) el). rewrite Hw. cbn [sw_exts]. split; [|split].
    + apply in_map. unfold els' in Hel. rewrite <- (firstn_skipn d els). apply in_or_app; auto.
    + rewrite !table_length. exact Htop.
    + rewrite table_length. intros j Hj. rewrite !table_nth by lia. reflexivity.
  - intros; now apply totals_some.
  - rewrite map_length, Hlen'. lia.
  - lia.
Qed.

Lemma words_bodies : exists tws, length tws = length words /\ Forall wf_bodies (map bodies tws) /\
  map iw_str (is_words c) = map wstring (map bodies tws) /\
  forall j w, nth_error words j = Some w -> exists tw, nth_error tws j = Some tw /\ wf_tword tw /\ no_zero (map (map tok_val) tw) /\
    let els := map (map tok_val) tw in
   w = {| sw_name := tword_str tw; sw_maxdim := top_dim els; sw_exts := map (table (top_dim els)) els; sw_alpha := None |}.
Proof using Hwords Hparsed.
  clear -Hwords Hparsed. rewrite Hwords. clear Hwords. rewrite map_map. cbn [iw_str simple_iword].
  assert (HP := Hparsed). clear Hparsed. revert HP. generalize words as ws0. clear words. intros ws0.
  induction 1 as [|w ws Hw Hws (tws & IH1 & IH2 & IH3 & IH4)].
  - exists []. repeat split; [constructor|]. intros [|j] w Hj; discriminate.
  - destruct (parsed_tokens w Hw) as (tw & Htw & Hz & Ew). exists (tw :: tws). cbn [length map].
    split; [congruence|]. split; [constructor; [apply bodies_wf; apply Htw|assumption]|].
    split; [rewrite <- IH3; f_equal; rewrite Ew; cbn [sw_name]; apply tword_wstring|].
    intros [|j] w' Hj; cbn in Hj |- *; [|apply IH4; assumption].
    injection Hj as <-. exists tw. auto.
Qed.

Lemma extended_rows : exists tws, Forall wf_bodies (map bodies tws) /\
  map iw_str (is_words c) = map wstring (map bodies tws) /\
  iss_transform c X = Ok (map F (all_labels (map bodies tws))).
Proof using Hwords Hmode Hsr Hne Hparsed HX Hk Hl Hg.
  destruct words_bodies as (tws & Hlen & Hwf & Hstr & Hnth).
  exists tws. split; [assumption|]. split; [assumption|].
  rewrite iss_transform_eq by (rewrite Hwords; destruct words; [congruence|discriminate]).
  unfold cfg_guard, argmax_guard, is_plan_opt. rewrite Hmode. rewrite batch_rows_pure.
  2:{ rewrite Hwords, map_map. apply Forall_map, Forall_forall. intros w _. exact I. }
  f_equal. rewrite (all_rows_flat _ _ _ _ (WSimple [] [])). unfold all_labels. rewrite !map_length.
  rewrite Hwords, map_length, Hlen.
  assert (HH : forall l, (forall j, In j l -> j < length words) ->
     flat_map (fun j => word_block (is_sr c) X (is_wt c) (Some (is_plan c)) (0 + j) (nth j (map iw_val (map simple_iword words)) (WSimple [] []))) l
     = map F (flat_map (word_labels (map bodies tws)) l)).
  { induction l as [|j l IH]; intros Hj; [reflexivity|]. cbn [flat_map]. rewrite map_app. rewrite <- IH by (intros; apply Hj; right; auto).
    f_equal. clear IH. specialize (Hj j (or_introl eq_refl)).
    destruct (nth_error words j) as [w|] eqn:Ew; [|apply nth_error_None in Ew; lia].
    destruct (Hnth j w Ew) as (tw & Etw & Htw & Hz & Hw).
    assert (E1 : nth j (map iw_val (map simple_iword words)) (WSimple [] []) = iw_val (simple_iword w)).
    { apply nth_error_nth_. rewrite map_map. exact (map_nth_error (fun x => iw_val (simple_iword x)) _ _ Ew). }
    assert (E2 : nth j (map bodies tws) [] = bodies tw).
    { apply nth_error_nth_. now apply map_nth_error. }
    rewrite E1. cbn [plus]. unfold word_block, word_rows. rewrite Hsr. cbn [word_ext]. unfold unique_el_depth, is_plan. rewrite Hmode, Hstr.
    assert (E3 : nth j (create_plan (map wstring (map bodies tws))) 0 = plan_word (map wstring (map bodies tws)) j).
    { unfold create_plan. rewrite !map_length, Hlen.
      rewrite (nth_indep _ 0 (plan_word (map wstring (map bodies tws)) 0)) by (rewrite map_length, seq_length; lia).
      rewrite map_nth. now rewrite seq_nth by lia. }
    rewrite E3. unfold word_labels. rewrite E2. unfold swap01. etransitivity; [|symmetry; apply map_map].
    assert (Hple : plan_word (map wstring (map bodies tws)) j <= length (bodies tw)).
    { rewrite <- E2. exact (plan_word_le (map bodies tws) Hwf j). }
    assert (Hbl : length (bodies tw) = length tw) by apply map_length. rewrite Hbl in Hple.
    apply map_ext_in. intros q Hq. apply in_seq in Hq.
    rewrite iterated_sums_samples by assumption. rewrite map_map2.
    apply (block_is_labels tw w); auto; try lia; try (eapply nth_error_In; eauto; fail). }
  apply HH. intros j Hj. apply in_seq in Hj. lia.
Qed.

Lemma single_of w : iss_transform {| is_words := [simple_iword w]; is_mode := SINGLE; is_sr := is_sr c; is_wt := is_wt c; is_wt_name := is_wt_name c |} X
  = Ok [single_rows w].
Proof using Hsr Hl.
  clear -Hsr Hl. rewrite single_transform' by (cbn; auto; discriminate). reflexivity.
Qed.

Lemma extended_is_single : exists rows, iss_transform c X = Ok rows /\ n_iterated_sums c = Ok (length rows) /\
  forall r, (r < length rows -> exists s w, 
     iss_label c r = Ok (s ++ sr_suffix (is_sr c) ++ match is_wt c with Some _ => str " : " ++ is_wt_name c | None => [] end) /\
     simple_word (T := R) s = Ok w /\
     iss_transform {| is_words := [simple_iword w]; is_mode := SINGLE; is_sr := is_sr c; is_wt := is_wt c; is_wt_name := is_wt_name c |} X
     = Ok [nth r rows []]).
Proof using Hwords Hmode Hsr Hne Hparsed HX Hk Hl Hg.
  destruct words_bodies as (tws0 & Hlen0 & Hwf0 & Hstr0 & Hnth0).
  destruct extended_rows as (tws & Hwf & Hstr & E).
  eexists; split; [exact E|]. split.
  - unfold n_iterated_sums, is_plan. rewrite Hmode, Hsr, Hstr, map_length. f_equal. now apply plan_total_labels.
  - intros r Hr. rewrite map_length in Hr.
    destruct (nth_error (all_labels (map bodies tws)) r) as [p|] eqn:Ep; [|apply nth_error_None in Ep; lia].
    assert (Hlab : exists w, simple_word (T := R) (wstring p) = Ok w).
    { apply nth_error_In in Ep. rewrite all_labels_dedup in Ep by assumption. apply dedup_In in Ep. destruct Ep as [Ep _].
      assert (Ebod : map bodies tws = map bodies tws0).
      { assert (Ei : map wstring (map bodies tws) = map wstring (map bodies tws0)) by congruence.
        revert Ei Hwf Hwf0. generalize (map bodies tws) as a, (map bodies tws0) as b. clear.
        induction a as [|u a IH]; intros [|v b] Ei Ha Hb; cbn in Ei; try discriminate; [reflexivity|].
        inversion Ha; inversion Hb; subst. injection Ei as Eu Er. f_equal; [apply wstring_inj; auto|apply IH; auto]. }
      rewrite Ebod in Ep. apply in_flat_map in Ep. destruct Ep as (b & Hb & Hp).
      apply in_map_iff in Hb. destruct Hb as (tw & <- & Htw). apply In_nth_error in Htw. destruct Htw as (j & Hj).
      assert (Hjl : j < length words) by (rewrite <- Hlen0; apply nth_error_Some; congruence).
      destruct (nth_error words j) as [w|] eqn:Ew; [|apply nth_error_None in Ew; lia].
      destruct (Hnth0 j w Ew) as (tw' & E' & Hwt & Hz & _). assert (tw' = tw) by congruence. subst tw'.
      unfold prefixes in Hp. apply in_map_iff in Hp. destruct Hp as (d & <- & Hd). apply in_seq in Hd.
      unfold bodies in Hd at 1. rewrite map_length in Hd.
      rewrite prefix_word by (auto; lia). eauto. }
    destruct Hlab as (w & Ew). exists (wstring p), w. split; [|split; [exact Ew|]].
    + unfold iss_label, is_plan. rewrite Hmode, Hstr.
      assert (Hs := word_string_spec (map bodies tws) Hwf r).
      assert (Hd := all_labels_dedup (map bodies tws) Hwf). unfold pystr in *. rewrite <- Hd, Ep in Hs. rewrite Hs. reflexivity.
    + rewrite single_of. do 2 f_equal. symmetry. apply nth_error_nth_. rewrite (map_nth_error F _ _ Ep). unfold F. now rewrite Ew.
Qed.
End Extended.
