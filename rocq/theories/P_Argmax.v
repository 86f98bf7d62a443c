(** C98: [Arctic(argmax=True)] with general words, and the labels of its rows. *)
From Coq Require Import Ascii String List Arith ZArith Bool Lia Reals Lra.
From Verif Require Import Num Arr S_ISS S_Plan M_Str M_Semiring M_Words M_ISS L_Arr L_Str L_Plan L_ISS L_RComp P_ISS.
Import ListNotations.
Local Open Scope nat_scope.

(** The text between the brackets of an extended letter. *)
Definition body_of (el : eletter) : pystr := flat_map (fun nd => fst nd ++ "("%char :: str_Z (snd nd + 1) ++ [")"%char]) el.
Definition texts (w : list eletter) : list pystr := map body_of w.
Definition plain_letters (w : list eletter) : Prop := Forall (Forall (fun nd => no_brackets (fst nd))) w.
(** The prefixes of word [i] that are no prefix of an earlier word. *)
Definition new_prefixes (ws : list (list pystr)) (i : nat) : list (list pystr) :=
  dedup word_eq_dec (flat_map prefixes (firstn i ws)) (prefixes (nth i ws [])).

Lemma str_word_texts w : str_word w = wstring (texts w).
Proof. unfold str_word, wstring, texts. rewrite !flat_map_concat_map, map_map. reflexivity. Qed.
Lemma digit_no_bracket c : is_digit c = true -> c <> "["%char /\ c <> "]"%char.
Proof. intros D. split; intros ->; discriminate. Qed.
Lemma str_Z_no_brackets z : no_brackets (str_Z z).
Proof.
  assert (N : forall n, no_brackets (str_nat n)).
  { intros n. unfold no_brackets. eapply Forall_impl; [|apply str_nat_digits]. intros c. apply digit_no_bracket. }
  unfold str_Z. destruct (z <? 0)%Z; [|apply N]. constructor; [split; discriminate|apply N].
Qed.
Lemma texts_wf w : plain_letters w -> wf_bodies (texts w).
Proof.
  unfold plain_letters, wf_bodies, texts. induction 1 as [|el w E F IH]; cbn; constructor; [|exact IH]. unfold body_of, no_brackets. induction E as [|nd el P E IHe]; cbn; [constructor|].
  rewrite <- app_assoc. apply Forall_app. split; [exact P|]. cbn. constructor; [split; discriminate|]. rewrite <- app_assoc. apply Forall_app. split; [apply str_Z_no_brackets|].
  cbn. constructor; [split; discriminate|exact IHe].
Qed.
Lemma argmax_rows_more n : 1 <= n -> n < argmax_rows n.
Proof.
  intros L. unfold argmax_rows. assert (1 <= n * (n + 1) / 2); [|lia]. apply Nat.div_le_lower_bound; [lia|]. nia.
Qed.

Lemma forallb_map {A B} (f : A -> B) p l : forallb p (map f l) = forallb (fun a => p (f a)) l.
Proof. induction l; cbn; congruence. Qed.
Lemma forallb_ext {A} (p q : A -> bool) l : (forall a, p a = q a) -> forallb p l = forallb q l.
Proof. intros E. induction l; cbn; congruence. Qed.

Section General.
Context {T : Type} `{Num T}.
Definition alone (reg : registry T) (w : list eletter) : iss_cfg T :=
  {| is_words := [general_iword reg w]; is_mode := SINGLE; is_sr := Arctic false; is_wt := None; is_wt_name := [] |}.
Definition sum_of (reg : registry T) (X : dataset T) (w : list eletter) : list (list T) :=
  map (fun x => nth 0 (general_single (Arctic true) x (bind_word reg w) 1) []) X.
Lemma alone_row reg w X : iss_transform (alone reg w) X = Ok [sum_of reg X w].
Proof.
  rewrite iss_transform_eq by discriminate. unfold cfg_guard, argmax_guard, is_plan_opt, alone. cbn [is_mode is_sr is_words is_wt is_argmax map].
  rewrite single_rows by reflexivity. cbn [map general_iword iw_val iterated_sums]. unfold sum_of. rewrite map_map. reflexivity.
Qed.
Lemma block_of reg X w ext : length (bind_word reg w) = length w -> ext <= length w ->
  assign_rows (argmax_rows (length w)) (swap01 ext (iterated_sums (Arctic true) X (WGeneral (bind_word reg w)) ext None)) =
  if (length w =? 0) || (ext =? 1) then Ok (repeat (sum_of reg X w) (argmax_rows (length w))) else Err ValueError.
Proof.
  intros L E. unfold assign_rows. assert (LS : length (swap01 ext (iterated_sums (Arctic true) X (WGeneral (bind_word reg w)) ext None)) = ext).
  { unfold swap01. now rewrite map_length, seq_length. }
  rewrite LS. destruct (Nat.eqb_spec (length w) 0) as [Z|Z]; cbn [orb].
  - rewrite Z in *. assert (ext = 0) as -> by lia. reflexivity.
  - pose proof (argmax_rows_more (length w)). destruct (Nat.eqb_spec ext (argmax_rows (length w))); [lia|].
    destruct (Nat.eqb_spec ext 1) as [->|N1].
    + unfold swap01. cbn [seq map iterated_sums]. unfold sum_of. rewrite map_map. reflexivity.
    + destruct (swap01 ext (iterated_sums (Arctic true) X (WGeneral (bind_word reg w)) ext None)) as [|a [|b r]]; cbn in LS; [reflexivity|lia|reflexivity].
Qed.
(** Either every word adds exactly one prefix: then its rows are all the same,
    the iterated sum of the whole word without any position of a maximum; or the call raises. *)
Theorem C98_general (c : iss_cfg T) (reg : registry T) (gws : list (list eletter)) (X : dataset T) :
  is_words c = map (general_iword reg) gws -> is_mode c = EXTENDED -> is_sr c = Arctic true -> gws <> [] -> Forall plain_letters gws ->
  let one_new := forall i, i < length gws -> nth i gws [] <> [] -> length (new_prefixes (map texts gws) i) = 1 in
  (one_new -> exists rows, Forall2 (fun w row => iss_transform (alone reg w) X = Ok [row]) gws rows /\
     iss_transform c X = Ok (concat (map2 (fun w row => repeat row (argmax_rows (length w))) gws rows))) /\
  (~ one_new -> iss_transform c X = Err ValueError).
Proof.
  intros Ew Em Es Ne F one_new.
  assert (Hwf : Forall wf_bodies (map texts gws)). { apply Forall_map. eapply Forall_impl; [|exact F]. apply texts_wf. }
  assert (Estr : map iw_str (is_words c) = map wstring (map texts gws)).
  { rewrite Ew, !map_map. apply map_ext. intros w. apply str_word_texts. }
  set (plan := is_plan c). assert (Epl : plan = create_plan (map wstring (map texts gws))) by (unfold plan, is_plan; now rewrite Em, Estr).
  assert (Edep : forall i, i < length gws -> unique_el_depth plan i = length (new_prefixes (map texts gws) i) /\ unique_el_depth plan i <= length (nth i gws [])).
  { intros i Hi. unfold unique_el_depth. rewrite Epl. unfold create_plan. rewrite !map_length.
    rewrite (nth_indep _ 0 (plan_word (map wstring (map texts gws)) 0)) by (rewrite map_length, seq_length; lia).
    rewrite map_nth, seq_nth by lia. cbn [plus]. split.
    - rewrite <- word_labels_length. unfold new_prefixes. rewrite <- word_labels_dedup; [reflexivity|exact Hwf|rewrite map_length; lia].
    - etransitivity; [apply (plan_word_le (map texts gws) Hwf)|]. change (@nil pystr) with (texts []). rewrite map_nth. unfold texts. rewrite map_length. lia. }
  assert (Et : iss_transform c X = batch_rows (Arctic true) X (is_wt c) (Some plan) 0 (map (fun w => WGeneral (bind_word reg w)) gws)).
  { rewrite iss_transform_eq by (rewrite Ew; destruct gws; [congruence|discriminate]). unfold cfg_guard, argmax_guard, is_plan_opt. rewrite Em, Es, Ew, map_map. reflexivity. }
  assert (Eb : forall ws i, (forall k, k < length ws -> unique_el_depth plan (i + k) <= length (nth k ws [])) ->
    batch_rows (Arctic true) X (is_wt c) (Some plan) i (map (fun w => WGeneral (bind_word reg w)) ws) =
    if forallb (fun k => (length (nth k ws []) =? 0) || (unique_el_depth plan (i + k) =? 1)) (seq 0 (length ws))
    then Ok (concat (map (fun w => repeat (sum_of reg X w) (argmax_rows (length w))) ws)) else Err ValueError).
  { induction ws as [|w ws IH]; intros i Hd; [reflexivity|]. cbn [map batch_rows word_ext]. unfold word_rows. cbn [is_argmax wlen sr_rows].
    assert (LB : length (bind_word reg w) = length w) by apply map_length. rewrite LB.
    change (iterated_sums (Arctic true) X (WGeneral (bind_word reg w)) (unique_el_depth plan i) (is_wt c))
      with (iterated_sums (Arctic true) X (WGeneral (bind_word reg w)) (unique_el_depth plan i) None).
    rewrite block_of; [|exact LB|]. 2:{ specialize (Hd 0). cbn in Hd. rewrite Nat.add_0_r in Hd. apply Hd. lia. }
    cbn [length seq forallb nth]. rewrite Nat.add_0_r. destruct ((length w =? 0) || (unique_el_depth plan i =? 1)); cbn [bind andb]; [|reflexivity].
    rewrite IH.
    - rewrite <- (seq_shift (length ws) 0). rewrite forallb_map.
      match goal with |- context [if ?a then Ok (concat (map _ ws)) else _] => set (A := a) end.
      match goal with |- _ = if ?b then _ else _ => replace b with A end; [destruct A; reflexivity|].
      unfold A. apply forallb_ext. intros k. cbn [nth]. now rewrite Nat.add_succ_r.
    - intros k Hk. specialize (Hd (S k)). rewrite Nat.add_succ_r in Hd. cbn in Hd. apply Hd. lia. }
  rewrite Et, Eb by (intros k Hk; apply Edep; exact Hk). clear Et Eb.
  assert (EQ : forallb (fun k => (length (nth k gws []) =? 0) || (unique_el_depth plan (0 + k) =? 1)) (seq 0 (length gws)) = true <-> one_new).
  { rewrite forallb_forall. unfold one_new. split.
    - intros A i Hi Nz. specialize (A i). rewrite in_seq in A. specialize (A ltac:(lia)). apply orb_true_iff in A as [A|A].
      + apply Nat.eqb_eq, length_zero_iff_nil in A. contradiction.
      + apply Nat.eqb_eq in A. destruct (Edep i Hi) as (<- & _). exact A.
    - intros A i Hi. rewrite in_seq in Hi. apply orb_true_iff. destruct (nth i gws []) as [|e w] eqn:Ei; [left; reflexivity|right].
      apply Nat.eqb_eq. cbn [plus]. destruct (Edep i) as (-> & _); [lia|]. apply A; [lia|congruence]. }
  split.
  - intros A. apply EQ in A. rewrite A. exists (map (sum_of reg X) gws). split.
    + clear. induction gws; cbn; constructor; [apply alone_row|assumption].
    + do 2 f_equal. clear. induction gws; cbn; [reflexivity|]. now f_equal.
  - intros A. destruct (forallb _ _) eqn:B; [|reflexivity]. exfalso. apply A, EQ. reflexivity.
Qed.
End General.

(** The labels are those of the prefixes, of which there are fewer than rows:
    the last rows have no label. *)
Lemma dedup_le {A} (dec : forall x y : A, {x = y} + {x <> y}) l : forall seen, length (dedup dec seen l) <= length l.
Proof. induction l as [|x l IH]; intros seen; cbn; [lia|]. destruct (in_dec dec x seen); [specialize (IH seen)|specialize (IH (x :: seen)); cbn]; lia. Qed.
Theorem C98_labels {T} `{Num T} (c : iss_cfg T) ws :
  is_mode c = EXTENDED -> is_sr c = Arctic true -> map iw_str (is_words c) = map wstring ws -> Forall wf_bodies ws ->
  map (fun w => wlen (iw_val w)) (is_words c) = map (@length _) ws -> (exists w, In w ws /\ w <> []) ->
  let L := dedup word_eq_dec [] (flat_map prefixes ws) in
  exists n, n_iterated_sums c = Ok n /\ length L < n /\
    (forall r, iss_label c r = match nth_error L r with Some p => Ok (wstring p ++ label_tail c) | None => Err IndexError end) /\
    iss_label c (n - 1) = Err IndexError.
Proof.
  intros Em Es Estr Hwf El Hex L. exists (list_sum (map argmax_rows (map (@length _) ws))).
  assert (Hlab : forall r, iss_label c r = match nth_error L r with Some p => Ok (wstring p ++ label_tail c) | None => Err IndexError end).
  { intros r. unfold iss_label, is_plan, label_tail. rewrite Em, Estr. pose proof (word_string_spec ws Hwf r) as Hr.
    unfold pystr in *. rewrite Hr. fold L. destruct (nth_error L r); reflexivity. }
  assert (Hlt : length L < list_sum (map argmax_rows (map (@length _) ws))).
  { apply Nat.le_lt_trans with (length (flat_map prefixes ws)); [apply dedup_le|].
    assert (LP : forall w : list pystr, length (prefixes w) = length w) by (intros w; unfold prefixes; now rewrite map_length, seq_length).
    assert (LE : forall ws : list (list pystr), length (flat_map prefixes ws) <= list_sum (map argmax_rows (map (@length _) ws))).
    { induction ws0 as [|w ws0 IH]; cbn; [lia|]. rewrite app_length, LP. unfold list_sum in IH. unfold argmax_rows at 1. lia. }
    destruct Hex as (w & I & Nw). apply in_split in I as (l1 & l2 & ->). rewrite flat_map_app, !map_app, list_sum_app, app_length.
    cbn [flat_map map list_sum fold_right]. rewrite app_length, LP. pose proof (LE l1). pose proof (LE l2).
    change (fold_right Nat.add 0 (map argmax_rows (map (@length _) l2))) with (list_sum (map argmax_rows (map (@length _) l2))).
    unfold pystr in *. assert (length w < argmax_rows (length w)); [|lia]. apply argmax_rows_more. destruct w; [congruence|cbn; lia]. }
  split; [|split; [exact Hlt|split; [exact Hlab|]]].
  - unfold n_iterated_sums. rewrite Em, Es. cbn [is_argmax]. f_equal. rewrite <- El, map_map. reflexivity.
  - rewrite Hlab. destruct (nth_error L _) eqn:E; [|reflexivity]. assert (nth_error L (list_sum (map argmax_rows (map (@length _) ws)) - 1) <> None) as B by congruence.
    apply nth_error_Some in B. lia.
Qed.

(** ** The cases occur *)
Definition amg (ws : list pystr) : res (iss_cfg R) :=
  let! els := mapM (word_of_string builtin) ws in
  Ok {| is_words := map (general_iword builtin) els; is_mode := EXTENDED; is_sr := Arctic true; is_wt := None; is_wt_name := [] |}.
(** [Word("[DIM(1)]")] on the series 1, 3, 2: two rows, both the running
    maximum, where the second one should be the positions 0, 1, 1; no label
    for the second one. *)
Example C98_positions_missing : exists c, amg [str "[DIM(1)]"] = Ok c /\
  iss_transform c ([[[1; 3; 2]]]%R) = Ok ([[[1; 3; 3]]; [[1; 3; 3]]]%R) /\ n_iterated_sums c = Ok 2 /\
  iss_label c 0 = Ok (str "[DIM(1)] : Arctic") /\ iss_label c 1 = Err IndexError.
Proof. eexists. split; [reflexivity|]. split; [rcompute|]. repeat split. Qed.
Example C98_raises : exists c, amg [str "[DIM(1)][ABS(1)]"] = Ok c /\ iss_transform c ([[[1; 3; 2]]]%R) = Err ValueError /\ n_iterated_sums c = Ok 5.
Proof. eexists. split; [reflexivity|]. split; reflexivity. Qed.
Example C98_hypotheses : plain_letters [[(str "DIM", 0%Z)]; [(str "ABS", 0%Z)]] /\
  length (new_prefixes (map texts [[[(str "DIM", 0%Z)]]]) 0) = 1 /\
  length (new_prefixes (map texts [[[(str "DIM", 0%Z)]; [(str "ABS", 0%Z)]]]) 0) = 2 /\
  Forall wf_bodies [texts [[(str "DIM", 0%Z)]]].
Proof.
  assert (P : plain_letters [[(str "DIM", 0%Z)]; [(str "ABS", 0%Z)]]) by (repeat constructor; discriminate).
  split; [exact P|]. split; [reflexivity|]. split; [reflexivity|]. constructor; [|constructor]. apply texts_wf. inversion P; subst. constructor; [assumption|constructor].
Qed.

Print Assumptions C98_general.
Print Assumptions C98_labels.
