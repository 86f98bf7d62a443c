(** multiply, equality of words and what the sums do not depend on (C16, C17). *)
From Coq Require Import Ascii String List Arith ZArith Bool Lia Reals Lra Permutation.
From Verif Require Import Num Arr L_Arr S_ISS M_Str M_Semiring M_Words M_ISS S_Plan S_Words
  L_Str L_Plan L_Words L_Tuples L_Reals L_Max L_Slow L_Gen L_Rows L_ISS L_API L_Single L_Ext.
Import ListNotations.
Local Open Scope nat_scope.
Local Open Scope list_scope.

Lemma list_max_app' a b : list_max (a ++ b) = Nat.max (list_max a) (list_max b).
Proof. exact (list_max_app a b). Qed.
Lemma top_dim_app a b : top_dim (a ++ b) = Nat.max (top_dim a) (top_dim b).
Proof. unfold top_dim. rewrite concat_app, map_app. apply list_max_app'. Qed.
Lemma no_zero_app a b : no_zero a -> no_zero b -> no_zero (a ++ b).
Proof. unfold no_zero. intros. apply Forall_app; auto. Qed.

Section Mul.
Context {T : Type} `{Num T}.
Lemma simple_word_nz' s els : spells s els -> no_zero els ->
  simple_word (T := T) s = Ok {| sw_name := s; sw_maxdim := top_dim els; sw_exts := map (table (top_dim els)) els; sw_alpha := None |}.
Proof.
  intros Hs Hz. rewrite (simple_word_spec s els Hs). destruct (spells_ne _ _ Hs) as [H1 H2].
  assert (Hp := top_dim_pos els Hz H1 H2). destruct (Nat.eqb_spec (top_dim els) 0); [lia|].
  rewrite tables_no_zero by assumption. reflexivity.
Qed.
Lemma multiply_concat s1 s2 e1 e2 (w1 : sword T) : spells s1 e1 -> spells s2 e2 -> no_zero e1 -> no_zero e2 ->
  simple_word s1 = Ok w1 -> multiply w1 s2 = simple_word (s1 ++ s2).
Proof.
  intros H1 H2 Z1 Z2 Hw. rewrite (simple_word_nz' s1 e1 H1 Z1) in Hw. injection Hw as <-.
  rewrite (simple_word_nz' (s1 ++ s2) (e1 ++ e2)) by (auto using spells_app, no_zero_app).
  rewrite (multiply_spec _ s2 e2 H2). cbn [sw_maxdim sw_exts sw_name sw_alpha].
  rewrite Nat.max_comm, <- top_dim_app.
  destruct (spells_ne _ _ (spells_app _ _ _ _ H1 H2)) as [Hn1 Hn2].
  assert (Hp := top_dim_pos _ (no_zero_app _ _ Z1 Z2) Hn1 Hn2).
  destruct (Nat.eqb_spec (top_dim (e1 ++ e2)) 0); [lia|]. do 2 f_equal.
  rewrite map_app, (tables_no_zero _ e2 Z2), map_map. f_equal.
  apply map_ext_in. intros el Hel. symmetry. apply table_pad.
  - assert (HB := top_dim_bound e1). rewrite Forall_forall in HB. auto.
  - rewrite top_dim_app. lia.
Qed.

(** Equality of words. *)
Lemma sw_eq_iff (a b : sword T) : sw_eq a b = true <-> sw_exts a = sw_exts b.
Proof. unfold sw_eq. destruct (list_eq_dec _ _ _); split; congruence. Qed.
Lemma table_eq_iff m e e' : table m e = table m e' <-> forall d, 1 <= d <= m -> occurrences e d = occurrences e' d.
Proof.
  split.
  - intros E d Hd. assert (Ed := f_equal (fun l => nth (d - 1) l 0%Z) E). cbn in Ed. rewrite !table_nth in Ed by lia.
    replace (S (d - 1)) with d in Ed by lia. exact Ed.
  - intros Hd. unfold table. apply map_ext_in. intros i Hi. apply in_seq in Hi. apply Hd. lia.
Qed.
Lemma occurrences_perm e e' d : Permutation e e' -> occurrences e d = occurrences e' d.
Proof.
  intros HP. unfold occurrences.
  rewrite !(proj1 (Permutation_count_occ Z.eq_dec e e') HP). reflexivity.
Qed.
Lemma top_dim_perm els els' : Forall2 (@Permutation Z) els els' -> top_dim els = top_dim els'.
Proof.
  assert (HP : Forall2 (@Permutation Z) els els' -> Permutation (concat els) (concat els')).
  { induction 1 as [|a b l l' Hab _ IH]; [constructor|]. cbn. now apply Permutation_app. }
  intros HF. apply Nat.le_antisymm; apply top_dim_le; intros z Hz.
  - eapply Permutation_in; [apply HP; exact HF|assumption].
  - eapply Permutation_in; [apply Permutation_sym, HP; exact HF|assumption].
Qed.
Lemma words_equal_perm s s' els els' (w w' : sword T) : spells s els -> spells s' els' ->
  no_zero els -> Forall2 (@Permutation Z) els els' ->
  simple_word s = Ok w -> simple_word s' = Ok w' -> sw_eq w w' = true.
Proof.
  intros Hs Hs' Hz HP Hw Hw'.
  assert (Hz' : no_zero els').
  { clear -Hz HP. unfold no_zero in *. induction HP as [|a b l l' Hab _ IH]; [constructor|]. inversion Hz; subst.
    constructor; [|auto]. eapply Permutation_Forall; eauto. }
  rewrite (simple_word_nz' s els) in Hw by assumption. rewrite (simple_word_nz' s' els') in Hw' by assumption.
  injection Hw as <-. injection Hw' as <-. apply sw_eq_iff. cbn [sw_exts]. rewrite <- (top_dim_perm _ _ HP).
  generalize (top_dim els) as m. clear -HP. intros m. induction HP as [|a b l l' Hab _ IH]; [reflexivity|]. cbn. f_equal; [|assumption].
  unfold table. apply map_ext. intros i. now apply occurrences_perm.
Qed.
Lemma words_equal_iff s s' els els' (w w' : sword T) : spells s els -> spells s' els' ->
  no_zero els -> no_zero els' -> simple_word s = Ok w -> simple_word s' = Ok w' ->
  (sw_eq w w' = true <->
   top_dim els = top_dim els' /\ Forall2 (fun e e' => forall d, 1 <= d -> occurrences e d = occurrences e' d) els els').
Proof.
  intros Hs Hs' Hz Hz' Hw Hw'.
  rewrite (simple_word_nz' s els) in Hw by assumption. rewrite (simple_word_nz' s' els') in Hw' by assumption.
  injection Hw as <-. injection Hw' as <-. rewrite sw_eq_iff. cbn [sw_exts].
  destruct (spells_ne _ _ Hs) as [Hn _]. 
  assert (HB := top_dim_bound els). assert (HB' := top_dim_bound els').
  split.
  - intros E. assert (Etop : top_dim els = top_dim els').
    { destruct els as [|e els]; [congruence|]. destruct els' as [|e' els']; [discriminate|]. cbn [map] in E. injection E as E0 _.
      rewrite <- (table_length (top_dim (e :: els)) e), E0. apply table_length. }
    split; [exact Etop|]. rewrite <- Etop in *. clear Hs Hs' Hn Etop Hz Hz'. revert els' E HB HB'. generalize (top_dim els) as m.
    induction els as [|e els IH]; intros m [|e' els'] E HB HB'; try discriminate; [constructor|]. cbn [map] in E. injection E as E0 E1.
    inversion HB; inversion HB'; subst. constructor; [|eapply IH; eauto].
    intros d Hd. destruct (le_lt_dec d m).
    + apply (proj1 (table_eq_iff m e e') E0). lia.
    + rewrite !(occurrences_above _ m) by assumption. reflexivity.
  - intros [Etop HF]. rewrite <- Etop. generalize (top_dim els) as m. clear -HF. intros m.
    induction HF as [|a b l l' Hab _ IH]; [reflexivity|]. cbn. f_equal; [|exact IH].
    apply table_eq_iff. intros d Hd. apply Hab. lia.
Qed.
End Mul.

(** SINGLE results only depend on the values of the letters and on alpha. *)
Lemma single_congr (c : iss_cfg R) words words' X n :
  is_words c = map simple_iword words -> is_mode c = SINGLE -> is_argmax (is_sr c) = false ->
  words <> [] -> wf_dataset X n ->
  length (lookups (is_wt c) X) = length X ->
  (is_wt c <> None -> Forall (fun g => length g = n) (lookups (is_wt c) X)) ->
  Forall2 (fun w w' => ok_for (is_sr c) X n w /\ ok_for (is_sr c) X n w' /\ (is_wt c <> None -> get_alpha w = get_alpha w') /\
      forall x, In x X -> same_val x (sr_val (is_sr c)) (sw_exts w) (sw_exts w')) words words' ->
  iss_transform c X = iss_transform {| is_words := map simple_iword words'; is_mode := SINGLE; is_sr := is_sr c;
                                       is_wt := is_wt c; is_wt_name := is_wt_name c |} X.
Proof.
  intros Ew Hm Hs Hne HX Hl Hg HF.
  assert (Hne' : words' <> []) by (inversion HF; subst; [congruence|discriminate]).
  rewrite single_transform' by (auto; eapply words_ne; eauto).
  assert (Hne2 : map (@simple_iword R _) words' <> []) by (destruct words'; [congruence|discriminate]).
  rewrite single_transform' by (cbn; auto).
  cbn [is_words is_sr is_wt]. rewrite Ew. f_equal. clear Ew Hne Hne' Hne2.
  induction HF as [|w w' ws ws' (Hw & Hw' & Ha & Hv) _ IH]; [reflexivity|]. cbn [map]. f_equal; [|exact IH].
  apply map2_ext_in. intros x g Hx Hgx.
  assert (HX1 : wf_series x n) by (unfold wf_dataset in HX; rewrite Forall_forall in HX; auto).
  destruct Hw as [Hn1 Hk1]. destruct Hw' as [Hn2 Hk2]. rewrite Forall_forall in Hk1, Hk2.
  assert (Hgn : totals (is_wt c) <> None -> length g = n).
  { intros Ht. assert (Hw : is_wt c <> None) by (intros E; apply Ht; rewrite E; reflexivity).
    specialize (Hg Hw). rewrite Forall_forall in Hg. auto. }
  assert (L1 : 1 <= length (sw_exts w)) by (destruct (sw_exts w); [congruence|cbn; lia]).
  assert (L2 : 1 <= length (sw_exts w')) by (destruct (sw_exts w'); [congruence|cbn; lia]).
  cbn [simple_iword iw_val].
  rewrite (sample_row (is_sr c) x n (sw_exts w)) by (auto; lia).
  rewrite (sample_row (is_sr c) x n (sw_exts w')) by (auto; lia).
  rewrite !firstn_all2 by lia. apply row_of_congr; auto.
  intros j Hj. unfold al. destruct (is_wt c); cbn [totals].
  - rewrite Ha by discriminate. reflexivity.
  - now rewrite !nth_zeros.
Qed.

Definition pad_word (k : nat) (w : sword R) : sword R :=
  {| sw_name := sw_name w; sw_maxdim := sw_maxdim w + k;
     sw_exts := map (fun el => el ++ repeat 0%Z k) (sw_exts w); sw_alpha := sw_alpha w |}.
Lemma pad_transform (c : iss_cfg R) words k X n :
  is_words c = map simple_iword words -> is_mode c = SINGLE -> is_argmax (is_sr c) = false ->
  words <> [] -> wf_dataset X n ->
  length (lookups (is_wt c) X) = length X ->
  (is_wt c <> None -> Forall (fun g => length g = n) (lookups (is_wt c) X)) ->
  Forall (fun w => ok_for (is_sr c) X n (pad_word k w)) words ->
  iss_transform c X = iss_transform {| is_words := map simple_iword (map (pad_word k) words); is_mode := SINGLE; is_sr := is_sr c;
                                       is_wt := is_wt c; is_wt_name := is_wt_name c |} X.
Proof.
  intros Ew Hm Hs Hne HX Hl Hg HF. eapply single_congr; eauto.
  clear Ew Hne. induction HF as [|w ws Hw _ IH]; [constructor|]. cbn [map]. constructor; [|exact IH].
  split; [|split; [exact Hw|split]].
  - destruct Hw as [Hn Hk]. split; [cbn in Hn; destruct (sw_exts w); [cbn in Hn; congruence|discriminate]|].
    eapply Forall_impl; [|exact Hk]. intros x Hx. eapply kernel_ok_sub; [|exact Hx].
    intros e He. exists (e ++ repeat 0%Z k). split; [cbn [pad_word sw_exts]; apply in_map with (f := fun el => el ++ repeat 0%Z k); assumption|].
    split; [rewrite app_length; lia|]. intros j Hj. now rewrite app_nth1.
  - intros _. unfold get_alpha, pad_word. cbn. destruct (sw_alpha w); [reflexivity|]. now rewrite map_length.
  - intros x _. split; [cbn; now rewrite map_length|]. intros j i Hj. cbn [pad_word sw_exts].
    rewrite (nth_indep (map _ _) [] ([] ++ repeat 0%Z k)) by (now rewrite map_length).
    rewrite (map_nth (fun el => el ++ repeat 0%Z k)). symmetry. apply sr_val_pad.
Qed.

(** == words have equal sums. *)
Lemma equal_words_transform (c : iss_cfg R) words words' X :
  is_words c = map simple_iword words -> is_mode c = SINGLE -> 
  Forall2 (fun w w' : sword R => sw_eq w w' = true /\ (is_wt c <> None -> get_alpha w = get_alpha w')) words words' ->
  iss_transform c X = iss_transform {| is_words := map simple_iword words'; is_mode := SINGLE; is_sr := is_sr c;
                                       is_wt := is_wt c; is_wt_name := is_wt_name c |} X.
Proof.
  intros Ew Hm HF.
  assert (HI : forall i ws ws', Forall2 (fun w w' : sword R => sw_eq w w' = true /\ (is_wt c <> None -> get_alpha w = get_alpha w')) ws ws' ->
     batch_rows (is_sr c) X (is_wt c) None i (map iw_val (map simple_iword ws)) =
     batch_rows (is_sr c) X (is_wt c) None i (map iw_val (map simple_iword ws'))).
  { intros i ws ws' H. revert i. induction H as [|w w' l l' [He Ha] _ IH]; intros i; [reflexivity|]. cbn [map batch_rows].
    apply sw_eq_iff in He.
    assert (E : iterated_sums (is_sr c) X (iw_val (simple_iword w)) (word_ext None i) (is_wt c)
              = iterated_sums (is_sr c) X (iw_val (simple_iword w')) (word_ext None i) (is_wt c)).
    { cbn [simple_iword iw_val iterated_sums]. rewrite He. destruct (is_wt c); [rewrite Ha by discriminate|]; reflexivity. }
    rewrite E, IH. unfold word_rows, sr_rows. cbn [simple_iword iw_val wlen]. rewrite He. reflexivity. }
  destruct words as [|w ws].
  - inversion HF; subst. rewrite !iss_transform_empty by (rewrite ?Ew; reflexivity). reflexivity.
  - inversion HF as [|a w' b ws' Hw Hws]; subst.
    rewrite iss_transform_eq by (rewrite Ew; discriminate). rewrite iss_transform_eq by (cbn; discriminate).
    unfold cfg_guard, is_plan_opt. cbn [is_mode is_sr is_wt is_words]. rewrite Hm, Ew.
    rewrite (HI 0 (w :: ws) (w' :: ws') HF). reflexivity.
Qed.
