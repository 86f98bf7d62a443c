(** C20: alternate_sign. *)
From Coq Require Import Ascii String List Arith ZArith Bool Lia.
From Verif Require Import Num Arr S_Words M_Str M_Semiring M_Words L_Str L_Words L_Word2 L_Ext L_General.
Import ListNotations.
Local Open Scope nat_scope.
Local Open Scope list_scope.

Definition dtok (neg : bool) (d : nat) : tok := TShort neg (digit_char (S d)).
Lemma dtok_wf neg d : d < 9 -> wf_tok (dtok neg d).
Proof. intros. apply (digit_char_digit (S d)). lia. Qed.
Lemma dtok_val neg d : d < 9 -> tok_val (dtok neg d) = if neg then (- Z.of_nat (S d))%Z else Z.of_nat (S d).
Proof.
  intros Hd. cbn [tok_val dtok]. assert (E : dec [digit_char (S d)] = S d).
  { unfold dec. cbn [fold_left]. destruct (digit_char_digit (S d)) as [_ E]; [lia|]. rewrite E. lia. }
  now rewrite E.
Qed.
Lemma dims_from_bound el : forall k d, In d (dims_from k el) -> k <= d < k + length el.
Proof.
  induction el as [|c el IH]; intros k d; [easy|]. cbn [dims_from length]. rewrite in_app_iff. intros [Hd|Hd].
  - apply repeat_spec in Hd. subst. lia.
  - apply IH in Hd. lia.
Qed.
Lemma el_str_app a b : el_str (a ++ b) = el_str a ++ el_str b.
Proof. apply flat_map_app. Qed.
Lemma alt_el_str el : forall k, k + length el <= 9 -> alt_el k el = el_str (map (dtok true) (dims_from k el)).
Proof.
  induction el as [|c el IH]; intros k Hk; [reflexivity|]. cbn [length] in Hk. cbn [alt_el dims_from]. rewrite map_app, el_str_app. f_equal; [|apply IH; lia].
  induction (Z.to_nat c) as [|n IHn]; [reflexivity|]. cbn [rep_str repeat map]. rewrite IHn.
  rewrite str_nat_digit by lia. unfold el_str at 2. cbn [flat_map tok_str dtok sign_str]. replace (k + 1) with (S k) by lia. reflexivity.
Qed.
Lemma minus_not : forall d, d < 10 -> negb (Ascii.eqb (digit_char d) minus_char) = true.
Proof. intros d Hd. do 10 (destruct d as [|d]; [reflexivity|]). lia. Qed.
Lemma remove_minus ds : Forall (fun d => d < 9) ds -> remove_char minus_char (el_str (map (dtok true) ds)) = el_str (map (dtok false) ds).
Proof.
  induction 1 as [|d ds Hd _ IH]; [reflexivity|]. cbn [map]. unfold el_str, remove_char in *. cbn [flat_map tok_str dtok sign_str app filter].
  cbn [Ascii.eqb negb minus_char Bool.eqb]. assert (E := minus_not (S d) ltac:(lia)). cbn [filter]. rewrite E. f_equal. exact IH.
Qed.

Definition flip (even : bool) (els : list (list nat)) : list (list tok) :=
  (fix go even els := match els with [] => [] | el :: r => map (dtok even) el :: go (negb even) r end) even els.
Lemma alt_word_str w : Forall (fun e => length e <= 9) w -> forall even,
  alt_word even w = (tword_str (flip even (map (dims_from 0) w)), tword_str (flip (negb even) (map (dims_from 0) w))).
Proof.
  induction 1 as [|e w He _ IH]; intros even; [reflexivity|]. cbn [alt_word map flip].
  rewrite (IH (negb even)). rewrite (alt_el_str e 0) by assumption.
  rewrite remove_minus by (apply Forall_forall; intros d Hd; apply dims_from_bound in Hd; lia).
  assert (Et : forall el r, tword_str (el :: r) = bracket (el_str el) ++ tword_str r) by (intros; reflexivity).
  rewrite !Et. destruct even; reflexivity.
Qed.

Definition flipz (even : bool) (els : list (list nat)) : list (list Z) :=
  (fix go even els := match els with [] => [] | el :: r =>
     map (fun d => if even : bool then (- Z.of_nat (S d))%Z else Z.of_nat (S d)) el :: go (negb even) r end) even els.
Lemma flip_val els : Forall (Forall (fun d => d < 9)) els -> forall even, map (map tok_val) (flip even els) = flipz even els.
Proof.
  induction 1 as [|el els Hel _ IH]; intros even; [reflexivity|]. cbn [flip flipz map]. rewrite IH. f_equal. rewrite map_map.
  apply map_ext_in. intros d Hd. rewrite Forall_forall in Hel. apply dtok_val. auto.
Qed.
Lemma flip_wf els : Forall (fun el => el <> [] /\ Forall (fun d => d < 9) el) els -> forall even,
  Forall (fun el => el <> [] /\ Forall wf_tok el) (flip even els).
Proof.
  induction 1 as [|el els [Hne Hel] _ IH]; intros even; cbn [flip]; constructor; auto. split.
  - destruct el; [congruence|discriminate].
  - apply Forall_map. eapply Forall_impl; [|exact Hel]. intros; now apply dtok_wf.
Qed.
Lemma flipz_nz els : forall even, no_zero (flipz even els).
Proof.
  induction els as [|el els IH]; intros even; constructor; [|apply IH]. apply Forall_map, Forall_forall. intros d _. destruct even; lia.
Qed.
Lemma flipz_length els : forall even, length (flipz even els) = length els.
Proof. induction els as [|el els IH]; intros even; [reflexivity|]. cbn [flipz length]. f_equal. apply IH. Qed.
Lemma count_dims el d : Forall (fun z => (0 <= z)%Z) el -> forall k, k <= d -> Z.of_nat (count_occ Nat.eq_dec (dims_from k el) d) = nth (d - k) el 0%Z.
Proof.
  induction 1 as [|c el Hc _ IH]; intros k Hk; [destruct (d - k); reflexivity|]. cbn [dims_from]. rewrite count_occ_app.
  destruct (Nat.eq_dec k d) as [->|Hne].
  - rewrite Nat.sub_diag. cbn [nth].
    assert (E : count_occ Nat.eq_dec (repeat d (Z.to_nat c)) d = Z.to_nat c) by now apply count_occ_repeat_eq.
    assert (E' : count_occ Nat.eq_dec (dims_from (S d) el) d = 0).
    { apply count_occ_not_In. intros Hi. apply dims_from_bound in Hi. lia. }
    rewrite E, E'. lia.
  - assert (E : count_occ Nat.eq_dec (repeat k (Z.to_nat c)) d = 0) by (apply count_occ_repeat_neq; congruence).
    rewrite E. replace (d - k) with (S (d - S k)) by lia. cbn [nth]. rewrite <- IH by lia. reflexivity.
Qed.
Lemma occ_signed even el d : occurrences (map (fun d => if even : bool then (- Z.of_nat (S d))%Z else Z.of_nat (S d)) el) (S d)
  = if even then (- Z.of_nat (count_occ Nat.eq_dec el d))%Z else Z.of_nat (count_occ Nat.eq_dec el d).
Proof.
  unfold occurrences.
  induction el as [|x el IH]; [destruct even; reflexivity|]. cbn [map count_occ].
  destruct even; destruct (Nat.eq_dec x d) as [->|Hne];
   repeat (match goal with |- context[Z.eq_dec ?a ?b] => destruct (Z.eq_dec a b); try lia end).
Qed.
Lemma flipz_occ w : Forall (Forall (fun z => (0 <= z)%Z)) w -> forall even j d,
  occurrences (nth j (flipz even (map (dims_from 0) w)) []) (S d) = neg_if (Bool.eqb (Nat.even j) even) (nth d (nth j w []) 0%Z).
Proof.
  induction 1 as [|e w He _ IH]; intros even j d.
  - cbn [map flipz]. generalize (Bool.eqb (Nat.even j) even). intros b. destruct j, d, b; reflexivity.
  - cbn [map flipz]. destruct j as [|j].
    + cbn [nth]. rewrite occ_signed. rewrite count_dims by (auto; lia). rewrite Nat.sub_0_r. destruct even; reflexivity.
    + cbn [nth]. rewrite IH. f_equal. rewrite Nat.even_succ, <- Nat.negb_even. destruct (Nat.even j), even; reflexivity.
Qed.

Lemma alternated_word {T} `{Num T} even w : w <> [] ->
  Forall (fun e => length e <= 9 /\ Forall (fun z => (0 <= z)%Z) e /\ ~ Forall (fun z => z = 0%Z) e) w ->
  exists x : sword T, simple_word (tword_str (flip even (map (dims_from 0) w))) = Ok x /\ alternated even w (sw_exts x).
Proof.
  intros Hne HF.
  assert (HN : Forall (Forall (fun z => (0 <= z)%Z)) w) by (eapply Forall_impl; [|exact HF]; now intros e (_ & ? & _)).
  assert (HD : Forall (fun el => el <> [] /\ Forall (fun d => d < 9) el) (map (dims_from 0) w)).
  { apply Forall_map. eapply Forall_impl; [|exact HF]. intros e (H1 & H2 & H3). split.
    - intros E. apply H3. apply Forall_forall. intros z Hz. apply In_nth with (d := 0%Z) in Hz. destruct Hz as (d & _ & <-).
      assert (C := count_dims e d H2 0 ltac:(lia)). rewrite E, Nat.sub_0_r in C. cbn in C. lia.
    - apply Forall_forall. intros d Hd. apply dims_from_bound in Hd. lia. }
  set (els := flipz even (map (dims_from 0) w)).
  assert (Hsp : spells (tword_str (flip even (map (dims_from 0) w))) els).
  { exists (flip even (map (dims_from 0) w)). split; [|split; [reflexivity|]].
    - split; [destruct w; [congruence|discriminate]|]. now apply flip_wf.
    - symmetry. apply flip_val. eapply Forall_impl; [|exact HD]. now intros ? [_ ?]. }
  eexists. split; [eapply simple_word_nz'; [exact Hsp|apply flipz_nz]|]. cbn [sw_exts]. split.
  - rewrite map_length. unfold els. now rewrite flipz_length, map_length.
  - intros j d. rewrite <- (flipz_occ w HN even j d). fold els.
    destruct (Nat.ltb_spec j (length els)) as [Hj|Hj].
    + rewrite (nth_indep _ [] (table (top_dim els) [])) by now rewrite map_length. rewrite map_nth.
      destruct (Nat.ltb_spec d (top_dim els)) as [Hd|Hd]; [now apply table_nth|].
      rewrite nth_overflow by now rewrite table_length. symmetry. apply occurrences_above with (m := top_dim els); [|lia].
      assert (B := top_dim_bound els). rewrite Forall_forall in B. apply B. now apply nth_In.
    + rewrite (nth_overflow (map _ _)) by (rewrite map_length; lia). rewrite (nth_overflow els) by lia. destruct d; reflexivity.
Qed.

Lemma alternate_spec {T} `{Num T} (ws : list (sword T)) :
  Forall (fun w => sw_exts w <> [] /\
    Forall (fun e => length e <= 9 /\ Forall (fun z => (0 <= z)%Z) e /\ ~ Forall (fun z => z = 0%Z) e) (sw_exts w)) ws ->
  exists out, alternate_sign ws = Ok out /\ length out = 2 * length ws /\
    forall i w, nth_error ws i = Some w -> exists a b, nth_error out (2 * i) = Some a /\ nth_error out (2 * i + 1) = Some b /\
      alternated true (sw_exts w) (sw_exts a) /\ alternated false (sw_exts w) (sw_exts b).
Proof.
  induction 1 as [|w ws [Hne HF] _ (out & E & L & IH)].
  - exists []. split; [reflexivity|]. split; [reflexivity|]. intros [|i] w; discriminate.
  - destruct (alternated_word (T := T) true _ Hne HF) as (a & Ea & Ha). destruct (alternated_word (T := T) false _ Hne HF) as (b & Eb & Hb).
    exists (a :: b :: out). cbn [alternate_sign].
    rewrite (alt_word_str (sw_exts w)) by (eapply Forall_impl; [|exact HF]; now intros e (? & _)).
    cbn [negb]. rewrite Ea, Eb, E. split; [reflexivity|]. split; [cbn [length]; lia|].
    intros [|i] w' Hi.
    + injection Hi as <-. exists a, b. repeat split; try assumption; try apply Ha; try apply Hb.
    + cbn [nth_error] in Hi. destruct (IH i w' Hi) as (a' & b' & H1 & H2 & H3). exists a', b'.
      replace (2 * S i) with (S (S (2 * i))) by lia. cbn [nth_error]. replace (S (S (2 * i)) + 1) with (S (S (2 * i + 1))) by lia. cbn [nth_error]. auto.
Qed.
