(** C21: copies of words and alpha. *)
From Coq Require Import Ascii String List Arith ZArith Bool Lia Reals.
From Verif Require Import Num Arr S_Words M_Str M_Semiring M_Words M_ISS L_Str L_Words L_Word2 L_Ext L_ISS.
Import ListNotations.
Local Open Scope nat_scope.
Local Open Scope list_scope.

(** Everything a user can do with a SimpleWord. *)
Inductive built {T} `{Num T} : sword T -> Prop :=
| built_new s w : simple_word s = Ok w -> built w
| built_multiply w s w' : built w -> multiply w s = Ok w' -> built w'
| built_alpha w a w' : built w -> set_alpha w a = Ok w' -> built w'
| built_copy w w' : built w -> sw_copy w = Ok w' -> built w'.

Section C.
Context {T : Type} `{Num T}.
Definition winv (w : sword T) : Prop := exists els, spells (sw_name w) els /\ sw_maxdim w = top_dim els /\ 0 < top_dim els.
Lemma fullmatch_spells (w : sword T) s w' : multiply w s = Ok w' -> exists els, spells s els.
Proof.
  unfold multiply. destruct (fullmatch s) eqn:E; [|discriminate]. intros _. apply fullmatch_iff in E.
  destruct E as (tw & Htw & ->). exists (map (map tok_val) tw), tw. auto.
Qed.
Lemma built_winv (w : sword T) : built w -> winv w.
Proof.
  induction 1 as [s w E|w s w' _ (els & Hs & Hm & Hp) E|w a w' _ IH E|w w' _ (els & Hs & Hm & Hp) E].
  - assert (E' := E). destruct (fullmatch_spells _ _ _ E') as (els & Hs). rewrite (simple_word_spec s els Hs) in E.
    destruct (Nat.eqb_spec (top_dim els) 0); [discriminate|]. injection E as <-. exists els. cbn. auto with arith. repeat split; auto; lia.
  - assert (E' := E). destruct (fullmatch_spells _ _ _ E') as (e2 & Hs2). rewrite (multiply_spec w s e2 Hs2) in E.
    destruct (Nat.eqb_spec (Nat.max (top_dim e2) (sw_maxdim w)) 0) as [?|Hne]; [discriminate|]. injection E as <-. cbn.
    exists (els ++ e2). cbn [sw_name sw_maxdim]. split; [now apply spells_app|]. rewrite top_dim_app. lia.
  - unfold set_alpha in E. destruct (_ =? _); [|discriminate]. injection E as <-. exact IH.
  - unfold sw_copy in E. rewrite (simple_word_spec _ els Hs) in E. destruct (Nat.eqb_spec (top_dim els) 0); [lia|].
    injection E as <-. exists els. cbn. auto.
Qed.
Lemma copy_spec (w : sword T) : built w ->
  sw_copy w = Ok {| sw_name := sw_name w; sw_maxdim := sw_maxdim w; sw_exts := sw_exts w; sw_alpha := None |}.
Proof.
  intros Hb. destruct (built_winv w Hb) as (els & Hs & Hm & Hp). unfold sw_copy. rewrite (simple_word_spec _ els Hs).
  destruct (Nat.eqb_spec (top_dim els) 0); [lia|]. cbn. now rewrite Hm.
Qed.
Lemma multiply_exts (w : sword T) s w' : multiply w s = Ok w' ->
  length (sw_exts w) < length (sw_exts w') /\ sw_alpha w' = sw_alpha w.
Proof.
  intros E. assert (E' := E). destruct (fullmatch_spells _ _ _ E') as (els & Hs). rewrite (multiply_spec w s els Hs) in E.
  destruct (Nat.eqb_spec (Nat.max (top_dim els) (sw_maxdim w)) 0); [discriminate|]. injection E as <-. cbn [sw_exts sw_alpha].
  rewrite app_length, !map_length. destruct (spells_ne _ _ Hs) as [Hne _]. destruct els; [congruence|cbn; split; [lia|reflexivity]].
Qed.

(** Words that agree in name, counts and (if weighted) alpha are interchangeable. *)
Lemma words_congr (c c' : iss_cfg T) words words' X :
  is_words c = map simple_iword words -> is_words c' = map simple_iword words' ->
  is_mode c' = is_mode c -> is_sr c' = is_sr c -> is_wt c' = is_wt c ->
  Forall2 (fun w w' : sword T => sw_name w' = sw_name w /\ sw_exts w' = sw_exts w /\ (is_wt c <> None -> get_alpha w' = get_alpha w)) words words' ->
  iss_transform c' X = iss_transform c X.
Proof.
  intros Ew Ew' Hm Hs Hwt HF.
  assert (Hstr : map iw_str (is_words c') = map iw_str (is_words c)).
  { rewrite Ew, Ew', !map_map. clear -HF. induction HF as [|w w' l l' (E & _) _ IH]; [reflexivity|]. cbn [map]. rewrite IH. f_equal. exact E. }
  assert (Hp : is_plan_opt c' = is_plan_opt c) by (unfold is_plan_opt, is_plan; now rewrite Hm, Hstr).
  assert (HI : forall plan i, batch_rows (is_sr c) X (is_wt c) plan i (map iw_val (map simple_iword words')) =
     batch_rows (is_sr c) X (is_wt c) plan i (map iw_val (map simple_iword words))).
  { intros plan. clear Ew Ew' Hstr. induction HF as [|w w' l l' (_ & He & Ha) _ IH]; intros i; [reflexivity|]. cbn [map batch_rows].
    assert (E : iterated_sums (is_sr c) X (iw_val (simple_iword w')) (word_ext plan i) (is_wt c)
              = iterated_sums (is_sr c) X (iw_val (simple_iword w)) (word_ext plan i) (is_wt c)).
    { cbn [simple_iword iw_val iterated_sums]. rewrite He. destruct (is_wt c); [rewrite Ha by discriminate|]; reflexivity. }
    rewrite E, IH. unfold word_rows, sr_rows. cbn [simple_iword iw_val wlen]. rewrite He. reflexivity. }
  destruct words as [|w ws].
  - inversion HF; subst. rewrite !iss_transform_empty by (rewrite ?Ew, ?Ew'; reflexivity). reflexivity.
  - inversion HF as [|a w' b ws' Hw Hws]; subst.
    rewrite iss_transform_eq by (rewrite Ew'; discriminate). rewrite iss_transform_eq by (rewrite Ew; discriminate).
    unfold cfg_guard. rewrite Hp, Hs, Hwt, Ew, Ew', HI. reflexivity.
Qed.
End C.

(** A word with alpha reset. *)
Definition reset_alpha {T} (w : sword T) : sword T :=
  {| sw_name := sw_name w; sw_maxdim := sw_maxdim w; sw_exts := sw_exts w; sw_alpha := None |}.
Lemma copies_transform {T} `{Num T} (c c' : iss_cfg T) words words' X :
  is_words c = map simple_iword words -> is_words c' = map simple_iword words' ->
  is_mode c' = is_mode c -> is_sr c' = is_sr c -> is_wt c = None -> is_wt c' = None ->
  Forall2 (fun w w' : sword T => built w /\ sw_copy w = Ok w') words words' ->
  iss_transform c' X = iss_transform c X.
Proof.
  intros Ew Ew' Hm Hs Hwt Hwt' HF. eapply words_congr; try eassumption; try congruence.
  clear Ew Ew'. induction HF as [|w w' l l' [Hb E] _ IH]; constructor; [|exact IH].
  rewrite copy_spec in E by assumption. injection E as <-. cbn. repeat split. intros; congruence.
Qed.
