(** EXTENDED mode for any numbers: every row is, bit for bit, the SINGLE result of
    its label (L_Ext shows it for the real numbers and the Arctic semiring). *)
From Coq Require Import Ascii String List Arith ZArith Bool Lia Reals.
From Verif Require Import Num Arr L_Arr S_ISS M_Str M_Semiring M_Words M_ISS S_Plan S_Words
  L_Str L_Plan L_Words L_Gen L_ISS L_API L_Single L_Bits.
From Verif Require L_Ext.
Import ListNotations.
Local Open Scope nat_scope.
Local Open Scope list_scope.
Notation top_dim_le := L_Ext.top_dim_le.
Notation concat_firstn_incl := L_Ext.concat_firstn_incl.
Notation table_pad := L_Ext.table_pad.
Notation firstn_nth_ := L_Ext.firstn_nth_.
Notation map2_ext_in := L_Ext.map2_ext_in.
Section Bits.
Context {T : Type} `{N : Num T}.

(** A parsed word: string without letter 0. *)
Definition parsed (w : sword T) : Prop :=
  simple_word (sw_name w) = Ok w /\ exists els, spells (sw_name w) els /\ no_zero els.

Lemma no_zero_firstn d els : no_zero els -> no_zero (firstn d els).
Proof. unfold no_zero. intros Hz. rewrite <- (firstn_skipn d els) in Hz. apply Forall_app in Hz. tauto. Qed.

Lemma simple_word_nz s els : spells s els -> no_zero els ->
  simple_word (T := T) s = Ok {| sw_name := s; sw_maxdim := top_dim els; sw_exts := map (table (top_dim els)) els; sw_alpha := None |}.
Proof.
  intros Hs Hz. rewrite (simple_word_spec s els Hs). destruct (spells_ne _ _ Hs) as [H1 H2].
  assert (Hp := top_dim_pos els Hz H1 H2). destruct (Nat.eqb_spec (top_dim els) 0); [lia|].
  rewrite tables_no_zero by assumption. reflexivity.
Qed.

Lemma parsed_tokens w : parsed w -> exists tw, wf_tword tw /\ no_zero (map (map tok_val) tw) /\
  let els := map (map tok_val) tw in
  w = {| sw_name := tword_str tw; sw_maxdim := top_dim els; sw_exts := map (table (top_dim els)) els; sw_alpha := None |}.
Proof.
  intros (Hw & els & (tw & Htw & Hn & ->) & Hz). exists tw. split; [assumption|]. split; [assumption|].
  cbn zeta. rewrite (simple_word_nz (sw_name w) (map (map tok_val) tw)) in Hw by (auto; exists tw; auto).
  rewrite <- Hn. congruence.
Qed.

Lemma Forall_exists_listB {A B} (P : A -> B -> Prop) l : Forall (fun x => exists y, P x y) l -> exists l', Forall2 P l l'.
Proof. induction 1 as [|x l (y & Hy) _ (l' & IH)]; [exists []; constructor|]. exists (y :: l'). constructor; auto. Qed.

Section Extended.
Variables (c : iss_cfg T) (words : list (sword T)) (X : dataset T).
Hypothesis Hwords : is_words c = map simple_iword words.
Hypothesis Hmode : is_mode c = EXTENDED.
Hypothesis Hts : tensor (is_sr c).
Let Hsr : is_argmax (is_sr c) = false.
Proof. destruct (is_sr c); [reflexivity|destruct Hts|reflexivity]. Qed.
Hypothesis Hne : words <> [].
Hypothesis Hparsed : Forall parsed words.
Hypothesis Hl : length (lookups (is_wt c) X) = length X.

(** SINGLE rows of a parsed string. *)
Definition single_rows (w : sword T) : list (list T) :=
  map2 (fun x g => nth 0 (sample_sums (is_sr c) (iw_val (simple_iword w)) 1 (totals (is_wt c)) x g) []) X (lookups (is_wt c) X).
Definition F (p : list pystr) : list (list T) :=
  match simple_word (T := T) (wstring p) with Ok w => single_rows w | Err _ => [] end.

Lemma prefix_word tw d : wf_tword tw -> no_zero (map (map tok_val) tw) -> 1 <= d <= length tw ->
  simple_word (T := T) (wstring (firstn d (bodies tw))) =
  let els := firstn d (map (map tok_val) tw) in
  Ok {| sw_name := wstring (firstn d (bodies tw)); sw_maxdim := top_dim els; sw_exts := map (table (top_dim els)) els; sw_alpha := None |}.
Proof.
  clear. intros [Hn Hw] Hz Hd. cbn zeta. apply simple_word_nz.
  - exists (firstn d tw). repeat split.
    + destruct tw; [cbn in Hd; lia|]. destruct d; [lia|discriminate].
    + rewrite <- (firstn_skipn d tw) in Hw. apply Forall_app in Hw. tauto.
    + rewrite tword_wstring. unfold bodies. now rewrite firstn_map.
    + now rewrite firstn_map.
  - now apply no_zero_firstn.
Qed.

Lemma block_is_labels tw w d ext q : In w words -> wf_tword tw -> no_zero (map (map tok_val) tw) ->
  (let els := map (map tok_val) tw in
   w = {| sw_name := tword_str tw; sw_maxdim := top_dim els; sw_exts := map (table (top_dim els)) els; sw_alpha := None |}) ->
  ext <= length tw -> q < ext -> d = length tw - ext + q + 1 ->
  map2 (fun x g => nth q (sample_sums (is_sr c) (iw_val (simple_iword w)) ext (totals (is_wt c)) x g) []) X (lookups (is_wt c) X)
  = F (firstn d (bodies tw)).
Proof.
  intros Hin Htw Hz Hw He Hq Ed. cbn zeta in Hw. unfold F. rewrite prefix_word by (auto; lia). cbn zeta.
  unfold single_rows. apply map2_ext_in. intros x g Hx Hgx.
  set (els := map (map tok_val) tw) in *. set (els' := firstn d els).
  assert (Hlen : length (sw_exts w) = length tw) by (rewrite Hw; cbn; unfold els; now rewrite !map_length).
  assert (Htop : top_dim els' <= top_dim els) by (apply top_dim_le, concat_firstn_incl).
  assert (Hlen' : length els' = d) by (unfold els', els; rewrite firstn_length, map_length; lia).
  cbn [simple_iword iw_val sw_exts sample_sums].
  apply (fast_row_prefix x) with (d := d); auto; try lia.
  - rewrite map_length. exact Hlen'.
  - intros j el el' E E'. rewrite Hw in E. cbn [sw_exts] in E.
    assert (Hj : j < d) by (rewrite <- Hlen', <- (map_length (table (top_dim els'))); apply nth_error_Some; congruence).
    rewrite nth_error_map in E, E'. destruct (nth_error els j) as [e|] eqn:Ee; [|discriminate]. cbn [option_map] in E. injection E as <-.
    destruct (nth_error els' j) as [e'|] eqn:Ee'; [|discriminate]. cbn [option_map] in E'. injection E' as <-.
    assert (e' = e) as ->. { unfold els' in Ee'. apply (nth_error_nth _ _ []) in Ee. apply (nth_error_nth _ _ []) in Ee'. rewrite firstn_nth_ in Ee' by lia. congruence. }
    exists (top_dim els - top_dim els'). apply table_pad; [|exact Htop].
    assert (HB := top_dim_bound els'). rewrite Forall_forall in HB. apply HB. eapply nth_error_In, Ee'.
  - intros j Hj. destruct (totals (is_wt c)).
    + unfold get_alpha. rewrite Hw. cbn [sw_alpha sw_exts]. unfold ones.
      rewrite !(nth_indep _ nzero nunit) by (rewrite repeat_length, map_length; unfold els in *; try rewrite map_length; lia). now rewrite !nth_repeat.
    + unfold zeros. now rewrite !nth_repeat.
Qed.

Lemma words_bodies : exists tws, length tws = length words /\ Forall wf_bodies (map bodies tws) /\
  map iw_str (is_words c) = map wstring (map bodies tws) /\
  forall j w, nth_error words j = Some w -> exists tw, nth_error tws j = Some tw /\ wf_tword tw /\ no_zero (map (map tok_val) tw) /\
    let els := map (map tok_val) tw in
   w = {| sw_name := tword_str tw; sw_maxdim := top_dim els; sw_exts := map (table (top_dim els)) els; sw_alpha := None |}.
Proof.
  clear -Hwords Hparsed. rewrite Hwords. clear Hwords. rewrite map_map. cbn [iw_str simple_iword].
  assert (HP := Hparsed). clear Hparsed. revert HP. generalize words as ws0. clear words. intros ws0.
  induction 1 as [|w ws Hw Hws (tws & IH1 & IH2 & IH3 & IH4)].
  - exists []. repeat split; [constructor|]. intros [|j] w Hj; discriminate.
  - destruct (parsed_tokens w Hw) as (tw & Htw & Hz & Ew). exists (tw :: tws). cbn [length map].
    split; [congruence|]. split; [constructor; [apply bodies_wf; apply Htw|assumption]|].
    split; [rewrite <- IH3; f_equal; rewrite Ew; cbn [sw_name]; apply tword_wstring|].
    intros [|j] w' Hj; cbn in Hj |- *; [|apply IH4; assumption].
    injection Hj as <-. exists tw. auto.
Qed.

Lemma extended_rows : exists tws, Forall wf_bodies (map bodies tws) /\
  map iw_str (is_words c) = map wstring (map bodies tws) /\
  iss_transform c X = Ok (map F (all_labels (map bodies tws))).
Proof.
  destruct words_bodies as (tws & Hlen & Hwf & Hstr & Hnth).
  exists tws. split; [assumption|]. split; [assumption|].
  rewrite iss_transform_eq by (rewrite Hwords; destruct words; [congruence|discriminate]).
  unfold cfg_guard, argmax_guard, is_plan_opt. rewrite Hmode. rewrite batch_rows_pure.
  2:{ rewrite Hwords, map_map. apply Forall_map, Forall_forall. intros w _. exact I. }
  f_equal. rewrite (all_rows_flat _ _ _ _ (WSimple [] [])). unfold all_labels. rewrite !map_length.
  rewrite Hwords, map_length, Hlen.
  assert (HH : forall l, (forall j, In j l -> j < length words) ->
     flat_map (fun j => word_block (is_sr c) X (is_wt c) (Some (is_plan c)) (0 + j) (nth j (map iw_val (map simple_iword words)) (WSimple [] []))) l
     = map F (flat_map (word_labels (map bodies tws)) l)).
  { induction l as [|j l IH]; intros Hj; [reflexivity|]. cbn [flat_map]. rewrite map_app. rewrite <- IH by (intros; apply Hj; right; auto).
    f_equal. clear IH. specialize (Hj j (or_introl eq_refl)).
    destruct (nth_error words j) as [w|] eqn:Ew; [|apply nth_error_None in Ew; lia].
    destruct (Hnth j w Ew) as (tw & Etw & Htw & Hz & Hw).
    assert (E1 : nth j (map iw_val (map simple_iword words)) (WSimple [] []) = iw_val (simple_iword w)).
    { apply nth_error_nth_. rewrite map_map. exact (map_nth_error (fun x => iw_val (simple_iword x)) _ _ Ew). }
    assert (E2 : nth j (map bodies tws) [] = bodies tw).
    { apply nth_error_nth_. now apply map_nth_error. }
    rewrite E1. cbn [plus]. unfold word_block, word_rows. rewrite Hsr. cbn [word_ext]. unfold unique_el_depth, is_plan. rewrite Hmode, Hstr.
    assert (E3 : nth j (create_plan (map wstring (map bodies tws))) 0 = plan_word (map wstring (map bodies tws)) j).
    { unfold create_plan. rewrite !map_length, Hlen.
      rewrite (nth_indep _ 0 (plan_word (map wstring (map bodies tws)) 0)) by (rewrite map_length, seq_length; lia).
      rewrite map_nth. now rewrite seq_nth by lia. }
    rewrite E3. unfold word_labels. rewrite E2. unfold swap01. etransitivity; [|symmetry; apply map_map].
    assert (Hple : plan_word (map wstring (map bodies tws)) j <= length (bodies tw)).
    { rewrite <- E2. exact (plan_word_le (map bodies tws) Hwf j). }
    assert (Hbl : length (bodies tw) = length tw) by apply map_length. rewrite Hbl in Hple.
    apply map_ext_in. intros q Hq. apply in_seq in Hq.
    rewrite iterated_sums_samples by assumption. rewrite map_map2.
    apply (block_is_labels tw w); auto; try lia; try (eapply nth_error_In; eauto; fail). }
  apply HH. intros j Hj. apply in_seq in Hj. lia.
Qed.

Lemma single_of w : iss_transform {| is_words := [simple_iword w]; is_mode := SINGLE; is_sr := is_sr c; is_wt := is_wt c; is_wt_name := is_wt_name c |} X
  = Ok [single_rows w].
Proof.
  rewrite single_transform' by (cbn; auto; discriminate). reflexivity.
Qed.

Lemma extended_is_single : exists rows, iss_transform c X = Ok rows /\ n_iterated_sums c = Ok (length rows) /\
  forall r, (r < length rows -> exists s w, 
     iss_label c r = Ok (s ++ sr_suffix (is_sr c) ++ match is_wt c with Some _ => str " : " ++ is_wt_name c | None => [] end) /\
     simple_word (T := T) s = Ok w /\
     iss_transform {| is_words := [simple_iword w]; is_mode := SINGLE; is_sr := is_sr c; is_wt := is_wt c; is_wt_name := is_wt_name c |} X
     = Ok [nth r rows []]).
Proof.
  destruct words_bodies as (tws0 & Hlen0 & Hwf0 & Hstr0 & Hnth0).
  destruct extended_rows as (tws & Hwf & Hstr & E).
  eexists; split; [exact E|]. split.
  - unfold n_iterated_sums, is_plan. rewrite Hmode, Hsr, Hstr, map_length. f_equal. now apply plan_total_labels.
  - intros r Hr. rewrite map_length in Hr.
    destruct (nth_error (all_labels (map bodies tws)) r) as [p|] eqn:Ep; [|apply nth_error_None in Ep; lia].
    assert (Hlab : exists w, simple_word (T := T) (wstring p) = Ok w).
    { apply nth_error_In in Ep. rewrite all_labels_dedup in Ep by assumption. apply dedup_In in Ep. destruct Ep as [Ep _].
      assert (Ebod : map bodies tws = map bodies tws0).
      { assert (Ei : map wstring (map bodies tws) = map wstring (map bodies tws0)) by congruence.
        revert Ei Hwf Hwf0. generalize (map bodies tws) as a, (map bodies tws0) as b. clear.
        induction a as [|u a IH]; intros [|v b] Ei Ha Hb; cbn in Ei; try discriminate; [reflexivity|].
        inversion Ha; inversion Hb; subst. injection Ei as Eu Er. f_equal; [apply wstring_inj; auto|apply IH; auto]. }
      rewrite Ebod in Ep. apply in_flat_map in Ep. destruct Ep as (b & Hb & Hp).
      apply in_map_iff in Hb. destruct Hb as (tw & <- & Htw). apply In_nth_error in Htw. destruct Htw as (j & Hj).
      assert (Hjl : j < length words) by (rewrite <- Hlen0; apply nth_error_Some; congruence).
      destruct (nth_error words j) as [w|] eqn:Ew; [|apply nth_error_None in Ew; lia].
      destruct (Hnth0 j w Ew) as (tw' & E' & Hwt & Hz & _). assert (tw' = tw) by congruence. subst tw'.
      unfold prefixes in Hp. apply in_map_iff in Hp. destruct Hp as (d & <- & Hd). apply in_seq in Hd.
      unfold bodies in Hd at 1. rewrite map_length in Hd.
      rewrite prefix_word by (auto; lia). eauto. }
    destruct Hlab as (w & Ew). exists (wstring p), w. split; [|split; [exact Ew|]].
    + unfold iss_label, is_plan. rewrite Hmode, Hstr.
      assert (Hs := word_string_spec (map bodies tws) Hwf r).
      assert (Hd := all_labels_dedup (map bodies tws) Hwf). unfold pystr in *. rewrite <- Hd, Ep in Hs. rewrite Hs. reflexivity.
    + rewrite single_of. do 2 f_equal. symmetry. apply nth_error_nth_. rewrite (map_nth_error F _ _ Ep). unfold F. now rewrite Ew.
Qed.
End Extended.
End Bits.
