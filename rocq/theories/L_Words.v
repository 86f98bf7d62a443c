(** The parser of SimpleWord against its specification. *)
From Coq Require Import Ascii String List Arith ZArith Bool Lia.
From Verif Require Import Num Arr L_Arr M_Str M_Semiring M_Words S_Plan S_Words L_Str.
Import ListNotations.
Local Open Scope char_scope.
Local Open Scope nat_scope.
Local Open Scope list_scope.

Local Arguments is_digit : simpl never.
(** ** The regular expression *)
Lemma tword_cons el w : tword_str (el :: w) = "[" :: el_str el ++ "]" :: tword_str w.
Proof. unfold tword_str at 1. cbn [flat_map]. cbn. rewrite <- app_assoc. reflexivity. Qed.

Ltac deq c := match goal with |- context [Ascii.eqb ?x c] => destruct (Ascii.eqb_spec x c) end.

Lemma rx_inv s : forall st, rx_run st s = true ->
  match st with
  | RxClosed => exists w, Forall (fun el => el <> [] /\ Forall wf_tok el) w /\ s = tword_str w
  | RxStart => exists w, wf_tword w /\ s = tword_str w
  | RxLetter => exists el w, Forall wf_tok el /\ Forall (fun el => el <> [] /\ Forall wf_tok el) w /\
                  s = el_str el ++ "]" :: tword_str w
  | RxOpen => exists el w, el <> [] /\ Forall wf_tok el /\ Forall (fun el => el <> [] /\ Forall wf_tok el) w /\
                  s = el_str el ++ "]" :: tword_str w
  | RxMinus => exists c el w, is_digit c = true /\ Forall wf_tok el /\ Forall (fun el => el <> [] /\ Forall wf_tok el) w /\
                  s = c :: el_str el ++ "]" :: tword_str w
  | RxPar => exists neg cs el w, cs <> [] /\ Forall (fun c => is_digit c = true) cs /\ Forall wf_tok el /\
                  Forall (fun el => el <> [] /\ Forall wf_tok el) w /\
                  s = sign_str neg ++ cs ++ ")" :: el_str el ++ "]" :: tword_str w
  | RxParM => exists cs el w, cs <> [] /\ Forall (fun c => is_digit c = true) cs /\ Forall wf_tok el /\
                  Forall (fun el => el <> [] /\ Forall wf_tok el) w /\
                  s = cs ++ ")" :: el_str el ++ "]" :: tword_str w
  | RxParD => exists cs el w, Forall (fun c => is_digit c = true) cs /\ Forall wf_tok el /\
                  Forall (fun el => el <> [] /\ Forall wf_tok el) w /\
                  s = cs ++ ")" :: el_str el ++ "]" :: tword_str w
  end.
Proof.
  induction s as [|c s IH]; intros st Hr.
  - destruct st; try discriminate. exists []. split; [constructor|reflexivity].
  - cbn [rx_run] in Hr. destruct (rx_step st c) as [st'|] eqn:Hst; [|discriminate].
    specialize (IH st' Hr).
    assert (Hletter : forall neg d el w, is_digit d = true ->
        el_str (TShort neg d :: el) ++ "]" :: tword_str w = sign_str neg ++ d :: el_str el ++ "]" :: tword_str w).
    { intros neg d el w _. unfold el_str. cbn [flat_map tok_str]. destruct neg; reflexivity. }
    assert (Hlong : forall neg cs el w,
        el_str (TLong neg cs :: el) ++ "]" :: tword_str w = "(" :: sign_str neg ++ cs ++ ")" :: el_str el ++ "]" :: tword_str w).
    { intros neg cs el w. unfold el_str. cbn [flat_map tok_str]. cbn [app]. f_equal. rewrite <- !app_assoc. cbn [app].
      reflexivity. }
    destruct st; cbn [rx_step] in Hst.
    + destruct (Ascii.eqb_spec c "["); [|discriminate]. injection Hst as <-. subst c.
      destruct IH as (el & w & Hel & Hwf & Hw & ->). exists (el :: w). split; [split; [discriminate|]|].
      * constructor; auto.
      * rewrite tword_cons. reflexivity.
    + destruct (is_digit c) eqn:Hd.
      * injection Hst as <-. destruct IH as (el & w & Hel & Hw & ->).
        exists (TShort false c :: el), w. split; [discriminate|]. split; [constructor; auto|]. split; [assumption|].
        rewrite Hletter by assumption. reflexivity.
      * destruct (Ascii.eqb_spec c "-").
        { injection Hst as <-. destruct IH as (d & el & w & Hd' & Hel & Hw & ->). subst c.
          exists (TShort true d :: el), w. split; [discriminate|]. split; [constructor; auto|]. split; [assumption|].
          rewrite Hletter by assumption. reflexivity. }
        destruct (Ascii.eqb_spec c "("); [|discriminate]. injection Hst as <-. subst c.
        destruct IH as (neg & cs & el & w & Hne & Hcs & Hel & Hw & ->).
        exists (TLong neg cs :: el), w. split; [discriminate|]. split; [constructor; cbn; auto|]. split; [assumption|].
        rewrite Hlong. reflexivity.
    + destruct (is_digit c) eqn:Hd.
      * injection Hst as <-. destruct IH as (el & w & Hel & Hw & ->).
        exists (TShort false c :: el), w. split; [constructor; auto|]. split; [assumption|].
        rewrite Hletter by assumption. reflexivity.
      * destruct (Ascii.eqb_spec c "-").
        { injection Hst as <-. destruct IH as (d & el & w & Hd' & Hel & Hw & ->). subst c.
          exists (TShort true d :: el), w. split; [constructor; auto|]. split; [assumption|].
          rewrite Hletter by assumption. reflexivity. }
        destruct (Ascii.eqb_spec c "(").
        { injection Hst as <-. subst c.
          destruct IH as (neg & cs & el & w & Hne & Hcs & Hel & Hw & ->).
          exists (TLong neg cs :: el), w. split; [constructor; cbn; auto|]. split; [assumption|].
          rewrite Hlong. reflexivity. }
        destruct (Ascii.eqb_spec c "]"); [|discriminate]. injection Hst as <-. subst c.
        destruct IH as (w & Hw & ->). exists [], w. split; [constructor|]. split; [assumption|]. reflexivity.
    + destruct (is_digit c) eqn:Hd; [|discriminate]. injection Hst as <-.
      destruct IH as (el & w & Hel & Hw & ->). exists c, el, w. auto.
    + destruct (is_digit c) eqn:Hd.
      * injection Hst as <-. destruct IH as (cs & el & w & Hcs & Hel & Hw & ->).
        exists false, (c :: cs), el, w. split; [discriminate|]. split; [constructor; auto|]. auto.
      * destruct (Ascii.eqb_spec c "-"); [|discriminate]. injection Hst as <-. subst c.
        destruct IH as (cs & el & w & Hne & Hcs & Hel & Hw & ->). exists true, cs, el, w. auto.
    + destruct (is_digit c) eqn:Hd; [|discriminate]. injection Hst as <-.
      destruct IH as (cs & el & w & Hcs & Hel & Hw & ->). exists (c :: cs), el, w.
      split; [discriminate|]. split; [constructor; auto|]. auto.
    + destruct (is_digit c) eqn:Hd.
      * injection Hst as <-. destruct IH as (cs & el & w & Hcs & Hel & Hw & ->). exists (c :: cs), el, w.
        split; [constructor; auto|]. auto.
      * destruct (Ascii.eqb_spec c ")"); [|discriminate]. injection Hst as <-. subst c.
        destruct IH as (el & w & Hel & Hw & ->). exists [], el, w. auto.
    + destruct (Ascii.eqb_spec c "["); [|discriminate]. injection Hst as <-. subst c.
      destruct IH as (el & w & Hel & Hwf & Hw & ->). exists (el :: w). split.
      * constructor; auto.
      * rewrite tword_cons. reflexivity.
Qed.

Lemma rx_digits cs s : Forall (fun c => is_digit c = true) cs -> rx_run RxParD (cs ++ s) = rx_run RxParD s.
Proof. induction 1 as [|c cs Hc _ IH]; cbn; [reflexivity|]. rewrite Hc. exact IH. Qed.

Lemma minus_not_digit : is_digit "-" = false. Proof. reflexivity. Qed.

Lemma rx_tok st t s : st = RxOpen \/ st = RxLetter -> wf_tok t -> rx_run st (tok_str t ++ s) = rx_run RxLetter s.
Proof.
  intros Hst Ht. destruct t as [neg c|neg cs]; cbn [wf_tok] in Ht.
  - destruct neg; cbn [tok_str sign_str app]; destruct Hst as [-> | ->]; cbn; rewrite ?minus_not_digit; cbn; rewrite Ht; reflexivity.
  - destruct Ht as [Hne Hcs].
    assert (Hp : rx_run RxPar (sign_str neg ++ cs ++ ")" :: s) = rx_run RxLetter s).
    { assert (Hend : rx_run RxParD (")" :: s) = rx_run RxLetter s) by reflexivity.
      destruct cs as [|c cs]; [congruence|]. inversion Hcs; subst.
      destruct neg; cbn [sign_str app]; cbn; rewrite ?minus_not_digit; cbn; rewrite H1; rewrite rx_digits by assumption; exact Hend. }
    cbn [tok_str app]. rewrite <- !app_assoc. cbn [app].
    destruct Hst as [-> | ->]; exact Hp.
Qed.

Lemma rx_toks el s : Forall wf_tok el -> rx_run RxLetter (el_str el ++ s) = rx_run RxLetter s.
Proof.
  induction 1 as [|t el Ht _ IH]; [reflexivity|]. unfold el_str. cbn [flat_map]. rewrite <- app_assoc.
  rewrite rx_tok by auto. exact IH.
Qed.
Lemma rx_open el s : el <> [] -> Forall wf_tok el -> rx_run RxOpen (el_str el ++ "]" :: s) = rx_run RxClosed s.
Proof.
  intros Hne Hel. destruct el as [|t el]; [congruence|]. inversion Hel; subst.
  unfold el_str. cbn [flat_map]. rewrite <- app_assoc. rewrite rx_tok by auto. 
  change (flat_map tok_str el) with (el_str el). rewrite rx_toks by assumption. reflexivity.
Qed.
Lemma rx_word w : Forall (fun el => el <> [] /\ Forall wf_tok el) w -> rx_run RxClosed (tword_str w) = true.
Proof.
  induction 1 as [|el w [Hne Hel] _ IH]; [reflexivity|]. rewrite tword_cons. cbn. rewrite rx_open by assumption. exact IH.
Qed.
Lemma fullmatch_tword w : wf_tword w -> fullmatch (tword_str w) = true.
Proof.
  intros [Hne Hw]. destruct w as [|el w]; [congruence|]. inversion Hw as [|a b [Hel1 Hel2] Hw']; subst.
  rewrite tword_cons. unfold fullmatch. cbn. rewrite rx_open by assumption. apply rx_word; assumption.
Qed.
Lemma fullmatch_iff s : fullmatch s = true <-> exists w, wf_tword w /\ s = tword_str w.
Proof.
  split; [apply (rx_inv s RxStart)|]. intros (w & Hw & ->). apply fullmatch_tword; assumption.
Qed.

(** ** Splitting and lexing *)
Lemma sign_nb neg : no_brackets (sign_str neg).
Proof. destruct neg; constructor; [split; discriminate|constructor]. Qed.
Lemma digit_nb c : is_digit c = true -> c <> "[" /\ c <> "]".
Proof. intros Hc. split; intros ->; discriminate. Qed.
Lemma nb_app a b : no_brackets a -> no_brackets b -> no_brackets (a ++ b).
Proof. unfold no_brackets. intros. apply Forall_app; auto. Qed.
Lemma tok_nb t : wf_tok t -> no_brackets (tok_str t).
Proof.
  destruct t as [neg c|neg cs]; cbn [wf_tok tok_str].
  - intros Hc. apply nb_app; [apply sign_nb|]. repeat constructor; apply digit_nb; assumption.
  - intros [_ Hcs]. constructor; [split; discriminate|]. apply nb_app; [apply sign_nb|]. apply nb_app.
    + eapply Forall_impl; [|exact Hcs]. intros; apply digit_nb; assumption.
    + repeat constructor; discriminate.
Qed.
Lemma el_nb el : Forall wf_tok el -> no_brackets (el_str el).
Proof. induction 1 as [|t el Ht _ IH]; [constructor|]. apply nb_app; [apply tok_nb; assumption|exact IH]. Qed.

Definition bodies (w : list (list tok)) : list pystr := map el_str w.
Lemma tword_wstring w : tword_str w = wstring (bodies w).
Proof. unfold tword_str, wstring, bodies. rewrite !flat_map_concat_map, map_map. reflexivity. Qed.
Lemma bodies_wf w : Forall (fun el => el <> [] /\ Forall wf_tok el) w -> wf_bodies (bodies w).
Proof.
  intros Hw. apply Forall_map. eapply Forall_impl; [|exact Hw]. intros el [_ Hel]. apply el_nb; assumption.
Qed.

Lemma raw_letters_wstring w : wf_bodies w -> raw_letters (wstring w) = w.
Proof.
  intros Hw. unfold raw_letters. rewrite split_close by assumption. rewrite map_app, map_map. cbn [map tl].
  rewrite removelast_last. apply map_id.
Qed.

Lemma int_digits_dec cs : Forall (fun c => is_digit c = true) cs -> forall a,
  int_digits a cs = Some (fold_left (fun a c => 10 * a + digit_val c) cs a).
Proof.
  induction 1 as [|c cs Hc _ IH]; intros a; [reflexivity|]. cbn [int_digits fold_left]. rewrite Hc. apply IH.
Qed.
Lemma py_int_num neg cs : cs <> [] -> Forall (fun c => is_digit c = true) cs ->
  py_int (sign_str neg ++ cs) = Ok (if neg then - Z.of_nat (dec cs) else Z.of_nat (dec cs))%Z.
Proof.
  intros Hne Hcs. unfold dec. pose proof (int_digits_dec cs Hcs 0) as E.
  destruct cs as [|c cs]; [congruence|]. inversion Hcs; subst.
  assert (Hi : int_nat (c :: cs) = Some (fold_left (fun a c => 10 * a + digit_val c) (c :: cs) 0)) by exact E.
  destruct neg; cbn [sign_str app py_int].
  - change (Ascii.eqb "-" minus_char) with true. rewrite Hi. reflexivity.
  - destruct (Ascii.eqb_spec c minus_char) as [->|_]; [discriminate|]. rewrite Hi. reflexivity.
Qed.

Lemma lex_par cs : forall temp s, Forall (fun c => c <> ")") cs ->
  lex (Some temp) (cs ++ ")" :: s) =
  (let! z := py_int (match temp ++ cs with [] => ["1"] | x => x end) in let! zs := lex None s in Ok (z :: zs)).
Proof.
  induction cs as [|c cs IH]; intros temp s Hcs; cbn [app lex].
  - rewrite app_nil_r. destruct temp; reflexivity.
  - inversion Hcs; subst. destruct (Ascii.eqb_spec c ")"); [congruence|]. rewrite IH by assumption.
    rewrite <- app_assoc. reflexivity.
Qed.
Lemma sign_dig_no_par neg cs : Forall (fun c => is_digit c = true) cs -> Forall (fun c => c <> ")") (sign_str neg ++ cs).
Proof.
  intros Hcs. apply Forall_app; split.
  - destruct neg; repeat constructor; discriminate.
  - eapply Forall_impl; [|exact Hcs]. intros c Hc ->. discriminate.
Qed.
Lemma lex_tok t s : wf_tok t -> lex None (tok_str t ++ s) = (let! zs := lex None s in Ok (tok_val t :: zs)).
Proof.
  destruct t as [neg c|neg cs]; cbn [wf_tok tok_str tok_val].
  - intros Hc. assert (Hp := py_int_num neg [c] ltac:(discriminate) ltac:(repeat constructor; assumption)).
    destruct neg; cbn [sign_str app lex] in *.
    + change (Ascii.eqb "-" "(") with false. change (Ascii.eqb "-" "-") with true. cbn [andb]. 
      change ["-"; c] with ("-" :: [c]). rewrite Hp. reflexivity.
    + destruct (Ascii.eqb_spec c "(") as [->|_]; [discriminate|].
      destruct (Ascii.eqb_spec c "-") as [->|_]; [discriminate|].
      rewrite Hp. reflexivity.
  - intros [Hne Hcs]. cbn [app]. rewrite <- !app_assoc. cbn [app lex]. change (Ascii.eqb "(" "(") with true.
    rewrite app_assoc. rewrite lex_par by (apply sign_dig_no_par; assumption). cbn [app].
    destruct (sign_str neg ++ cs) as [|x y] eqn:E.
    + destruct neg; [discriminate|]. destruct cs; [congruence|discriminate].
    + rewrite <- E. rewrite py_int_num by assumption. reflexivity.
Qed.
Lemma lex_el el : Forall wf_tok el -> lex None (el_str el) = Ok (map tok_val el).
Proof.
  induction 1 as [|t el Ht _ IH]; [reflexivity|]. unfold el_str. cbn [flat_map map]. rewrite lex_tok by assumption.
  change (flat_map tok_str el) with (el_str el). rewrite IH. reflexivity.
Qed.
Lemma lex_all w : Forall (fun el => el <> [] /\ Forall wf_tok el) w ->
  mapM (lex None) (bodies w) = Ok (map (map tok_val) w).
Proof.
  induction 1 as [|el w [_ Hel] _ IH]; [reflexivity|]. unfold bodies. cbn [map mapM]. rewrite lex_el by assumption.
  cbn [bind]. unfold bodies in IH. rewrite IH. reflexivity.
Qed.

(** ** Count tables *)
Local Open Scope Z_scope.
Definition Zsum (l : list Z) : Z := fold_right Z.add 0 l.
Lemma Zsum_cons x l : Zsum (x :: l) = x + Zsum l. Proof. reflexivity. Qed.
Lemma Zsum_nil : Zsum [] = 0. Proof. reflexivity. Qed.
Lemma Zsum_app a b : Zsum (a ++ b) = Zsum a + Zsum b.
Proof. induction a as [|x a IH]; [reflexivity|]. cbn [app]. rewrite !Zsum_cons, IH. lia. Qed.
Lemma Zsum_map_plus {A} (f g : A -> Z) l : Zsum (map (fun x => f x + g x) l) = Zsum (map f l) + Zsum (map g l).
Proof. induction l as [|x l IH]; [reflexivity|]. cbn [map]. rewrite !Zsum_cons, IH. lia. Qed.
Lemma Zsum_zero {A} (f : A -> Z) l : (forall x, In x l -> f x = 0) -> Zsum (map f l) = 0.
Proof.
  induction l as [|x l IH]; intros Hf; [reflexivity|]. cbn [map]. rewrite Zsum_cons, IH by (intros; apply Hf; right; auto).
  rewrite Hf by (left; auto). reflexivity.
Qed.
Lemma Zsum_indicator (g : Z -> Z) N x : NoDup N -> In x N ->
  Zsum (map (fun l => if Z.eq_dec x l then g l else 0) N) = g x.
Proof.
  induction N as [|y N IH]; intros Hn Hx; [destruct Hx|]. inversion Hn; subst. cbn [map]. rewrite Zsum_cons.
  destruct (Z.eq_dec x y) as [->|Hne].
  - rewrite Zsum_zero; [lia|]. intros z Hz. destruct (Z.eq_dec y z); [subst; contradiction|reflexivity].
  - destruct Hx as [->|Hx]; [congruence|]. rewrite IH by assumption. lia.
Qed.
Lemma Zsum_counts (g : Z -> Z) L N : NoDup N -> (forall x, In x L -> In x N) ->
  Zsum (map (fun l => g l * Z.of_nat (count_occ Z.eq_dec L l)) N) = Zsum (map g L).
Proof.
  intros Hn. induction L as [|x L IH]; intros Hin.
  - apply Zsum_zero. intros; cbn. lia.
  - cbn [map]. rewrite Zsum_cons. rewrite <- IH by (intros; apply Hin; right; auto).
    rewrite <- (Zsum_indicator g N x) by (auto; apply Hin; left; auto).
    rewrite <- Zsum_map_plus. f_equal. apply map_ext. intros l. cbn [count_occ].
    destruct (Z.eq_dec x l); lia.
Qed.

Definition bump_idx (md : nat) (letter : Z) : nat := match Z.abs_nat letter with O => (md - 1)%nat | S j => j end.
Definition sgn1 (letter : Z) : Z := if 0 <? letter then 1 else -1.
Lemma upd_map {A} (f : nat -> A) v m : forall j i, (i < m)%nat ->
  upd i v (map f (seq j m)) = map (fun k => if Nat.eqb k (j + i) then v else f k) (seq j m).
Proof.
  induction m as [|m IH]; intros j i Hi; [lia|]. cbn [seq map]. destruct i as [|i]; cbn [upd].
  - rewrite Nat.add_0_r, Nat.eqb_refl. f_equal. apply map_ext_in. intros k Hk. apply in_seq in Hk.
    destruct (Nat.eqb_spec k j); [lia|reflexivity].
  - destruct (Nat.eqb_spec j (j + S i)); [lia|]. f_equal. rewrite IH by lia. apply map_ext. intros k.
    replace (S j + i)%nat with (j + S i)%nat by lia. reflexivity.
Qed.
Lemma bump_ok md el letter v : (0 < md)%nat -> length el = md ->
  bump el letter v = Ok (upd (bump_idx md letter) (nth (bump_idx md letter) el 0 + v) el).
Proof. intros Hmd <-. destruct el; [cbn in Hmd; lia|]. reflexivity. Qed.
Lemma count_table_fold md el_int ls : (0 < md)%nat -> Forall (fun l => (Z.abs_nat l <= md)%nat) ls -> forall f,
  fold_left (fun acc letter =>
      let! el := acc in
      let c := Z.of_nat (count_occ Z.eq_dec el_int letter) in
      bump el letter (if (0 <? letter)%Z then c else (- c)%Z)) ls (Ok (map f (seq 0 md)))
  = Ok (map (fun i => f i + Zsum (map (fun l => (if Nat.eqb i (bump_idx md l) then sgn1 l else 0) * Z.of_nat (count_occ Z.eq_dec el_int l)) ls)) (seq 0 md)).
Proof.
  intros Hmd. induction 1 as [|l ls Hl _ IH]; intros f; cbn [fold_left].
  - cbn. f_equal. apply map_ext. intros; lia.
  - cbn [bind]. rewrite (bump_ok md) by (rewrite ?map_length, ?seq_length; auto).
    assert (Hi : (bump_idx md l < md)%nat) by (unfold bump_idx; destruct (Z.abs_nat l); lia).
    rewrite upd_map by assumption. rewrite IH. f_equal. apply map_ext_in. intros i Hi'. apply in_seq in Hi'.
    cbn [map]. rewrite Zsum_cons.
    cbn [plus]. destruct (Nat.eqb_spec i (bump_idx md l)) as [->|Hne].
    + rewrite (nth_indep _ 0 (f 0%nat)) by (rewrite map_length, seq_length; assumption).
      rewrite map_nth, seq_nth by assumption. cbn [plus]. unfold sgn1. destruct (0 <? l); lia.
    + lia.
Qed.

Lemma Zsum_occ md L i : Forall (fun l => (Z.abs_nat l <= md)%nat) L -> (i < md)%nat ->
  Zsum (map (fun l => if Nat.eqb i (bump_idx md l) then sgn1 l else 0) L)
  = occurrences L (S i) - if Nat.eqb i (md - 1) then Z.of_nat (count_occ Z.eq_dec L 0) else 0.
Proof.
  intros HL Hi. induction HL as [|l L Hl _ IH]; cbn [map]; rewrite ?Zsum_cons.
  - unfold occurrences. cbn. destruct (Nat.eqb i (md - 1)); reflexivity.
  - rewrite IH. clear IH.
    unfold occurrences. cbn [count_occ]. unfold bump_idx, sgn1.
    destruct (Z.eq_dec l 0) as [->|H0].
    + cbn [Z.abs_nat]. destruct (Z.eq_dec 0 (Z.of_nat (S i))); [lia|]. destruct (Z.eq_dec 0 (- Z.of_nat (S i))); [lia|].
      destruct (Nat.eqb i (md - 1)); cbn [Z.ltb Z.compare]; lia.
    + destruct (Z.abs_nat l) as [|j] eqn:Ej; [lia|].
      destruct (Nat.eqb_spec i j) as [->|Hne].
      * destruct (Z.ltb_spec 0 l).
        -- destruct (Z.eq_dec l (Z.of_nat (S j))); [|lia]. destruct (Z.eq_dec l (- Z.of_nat (S j))); [lia|].
           destruct (Nat.eqb j (md - 1)); lia.
        -- destruct (Z.eq_dec l (Z.of_nat (S j))); [lia|]. destruct (Z.eq_dec l (- Z.of_nat (S j))); [|lia].
           destruct (Nat.eqb j (md - 1)); lia.
      * destruct (Z.eq_dec l (Z.of_nat (S i))); [lia|]. destruct (Z.eq_dec l (- Z.of_nat (S i))); [lia|].
        destruct (Nat.eqb i (md - 1)); lia.
Qed.

Lemma Zof_abs_le md L : Forall (fun l => (Z.abs_nat l <= md)%nat) L -> Forall (fun l => (Z.abs_nat l <= md)%nat) (nodup Z.eq_dec L).
Proof. rewrite !Forall_forall. intros HL x Hx. apply HL. apply nodup_In in Hx. assumption. Qed.

Lemma count_table_spec md L : (0 < md)%nat -> Forall (fun l => (Z.abs_nat l <= md)%nat) L ->
  count_table md L = Ok (table0 md L).
Proof.
  intros Hmd HL. unfold count_table.
  replace (repeat 0 md) with (map (fun _ => 0) (seq 0 md)).
  2:{ clear. generalize 0%nat. induction md; intros k; cbn; [reflexivity|]. f_equal. apply IHmd. }
  rewrite count_table_fold by (auto using Zof_abs_le). unfold table0. f_equal. apply map_ext_in. intros i Hi. apply in_seq in Hi.
  rewrite Zsum_counts.
  - rewrite Zsum_occ by (auto; lia). lia.
  - apply NoDup_nodup.
  - intros x Hx. apply nodup_In; assumption.
Qed.
Lemma count_table_zero L : L <> [] -> count_table 0 L = Err IndexError.
Proof.
  intros HL. unfold count_table. destruct (nodup Z.eq_dec L) as [|l ls] eqn:E.
  - destruct L as [|x L]; [congruence|]. exfalso. assert (Hx : In x (nodup Z.eq_dec (x :: L))) by (apply nodup_In; left; auto).
    rewrite E in Hx. destruct Hx.
  - cbn. clear. induction ls as [|y ls IH]; [reflexivity|]. cbn. exact IH.
Qed.
Lemma max_abs_top els : max_abs els = top_dim els.
Proof. reflexivity. Qed.
Lemma top_dim_bound els : Forall (Forall (fun l => (Z.abs_nat l <= top_dim els)%nat)) els.
Proof.
  unfold top_dim. apply Forall_forall. intros el Hel. apply Forall_forall. intros l Hl.
  assert (H := proj1 (list_max_le (map Z.abs_nat (concat els)) _) (le_n _)).
  rewrite Forall_forall in H. apply H. apply in_map. apply in_concat. eauto.
Qed.
Lemma mapM_ok {A B} (f : A -> res B) g l : (forall x, In x l -> f x = Ok (g x)) -> mapM f l = Ok (map g l).
Proof.
  induction l as [|x l IH]; intros Hf; [reflexivity|]. cbn. rewrite Hf by (left; auto). cbn. rewrite IH by (intros; apply Hf; right; auto).
  reflexivity.
Qed.
Local Open Scope nat_scope.

Section Parse.
Context {T : Type} `{Num T}.

(** [multiply] on a word string. *)
Lemma multiply_spec (w : sword T) s els : spells s els ->
  let md := Nat.max (top_dim els) (sw_maxdim w) in
  multiply w s =
  if md =? 0 then Err IndexError
  else Ok {| sw_name := sw_name w ++ s; sw_maxdim := md;
             sw_exts := map (fun el => el ++ repeat 0%Z (md - sw_maxdim w)) (sw_exts w) ++ map (table0 md) els;
             sw_alpha := sw_alpha w |}.
Proof.
  intros (tw & Htw & -> & ->) md. unfold multiply. rewrite fullmatch_tword by assumption. cbn [negb].
  destruct Htw as [Hne Hw]. rewrite tword_wstring. rewrite raw_letters_wstring by (apply bodies_wf; assumption).
  rewrite lex_all by assumption. cbn [bind]. rewrite max_abs_top. fold md.
  set (els := map (map tok_val) tw) in *.
  assert (Hels : Forall (fun el => el <> []) els).
  { unfold els. apply Forall_map. eapply Forall_impl; [|exact Hw]. intros el [Hel _]. destruct el; [congruence|discriminate]. }
  destruct (Nat.eqb_spec md 0) as [E|Hmd].
  - rewrite E. destruct els as [|el els'] eqn:Eels.
    { destruct tw; [congruence|discriminate]. }
    inversion Hels; subst. cbn [mapM]. rewrite count_table_zero by assumption. reflexivity.
  - erewrite mapM_ok; [reflexivity|]. intros el Hel. apply count_table_spec; [lia|].
    assert (HB := top_dim_bound els). rewrite Forall_forall in HB. specialize (HB el Hel).
    eapply Forall_impl; [|exact HB]. cbn. intros l Hl. lia.
Qed.
Lemma multiply_bad (w : sword T) s : (~ exists els, spells s els) -> multiply w s = Err ValueError.
Proof.
  intros Hn. unfold multiply. destruct (fullmatch s) eqn:E; [|reflexivity].
  exfalso. apply Hn. apply fullmatch_iff in E. destruct E as (tw & Htw & ->). exists (map (map tok_val) tw), tw. auto.
Qed.

Lemma simple_word_spec s els : spells s els ->
  simple_word (T := T) s =
  if top_dim els =? 0 then Err IndexError
  else Ok {| sw_name := s; sw_maxdim := top_dim els; sw_exts := map (table0 (top_dim els)) els; sw_alpha := None |}.
Proof.
  intros Hs. unfold simple_word. rewrite (multiply_spec _ _ _ Hs). cbn [sw_empty sw_maxdim sw_exts sw_name sw_alpha map app].
  rewrite Nat.max_0_r. reflexivity.
Qed.
Lemma simple_word_bad s : (~ exists els, spells s els) -> simple_word (T := T) s = Err ValueError.
Proof. apply multiply_bad. Qed.
End Parse.

Lemma count_occ_no_zero el : Forall (fun z => z <> 0%Z) el -> count_occ Z.eq_dec el 0%Z = 0.
Proof. intros Hel. apply count_occ_not_In. intros Hin. rewrite Forall_forall in Hel. exact (Hel 0%Z Hin eq_refl). Qed.
Lemma table0_no_zero m el : Forall (fun z => z <> 0%Z) el -> table0 m el = table m el.
Proof.
  intros Hel. unfold table0, table. apply map_ext. intros i. rewrite count_occ_no_zero by assumption.
  destruct (i =? m - 1); lia.
Qed.
Lemma tables_no_zero m els : no_zero els -> map (table0 m) els = map (table m) els.
Proof.
  intros Hz. apply map_ext_in. intros el Hel. apply table0_no_zero. unfold no_zero in Hz. rewrite Forall_forall in Hz. auto.
Qed.
Lemma top_dim_pos els : no_zero els -> els <> [] -> Forall (fun el => el <> []) els -> 0 < top_dim els.
Proof.
  intros Hz Hne Hels. destruct els as [|el els]; [congruence|]. inversion Hels; subst. destruct el as [|z el]; [congruence|].
  assert (HB := top_dim_bound ((z :: el) :: els)). inversion HB; subst. inversion H3; subst.
  inversion Hz; subst. inversion H7; subst. lia.
Qed.
Lemma spells_ne s els : spells s els -> els <> [] /\ Forall (fun el => el <> []) els.
Proof.
  intros (tw & [Hne Hw] & -> & ->). split; [destruct tw; [congruence|discriminate]|].
  apply Forall_map. eapply Forall_impl; [|exact Hw]. intros el [Hel _]. destruct el; [congruence|discriminate].
Qed.
(** Every integer list is spelled by some string: the printer. *)
Definition z_tok (z : Z) : tok := TLong (z <? 0)%Z (str_nat (Z.abs_nat z)).
Lemma dec_str n : dec (str_nat n) = n.
Proof.
  unfold dec. assert (E := str_nat_int n). rewrite int_digits_dec in E by apply str_nat_digits. congruence.
Qed.
Lemma z_tok_val z : tok_val (z_tok z) = z.
Proof. unfold z_tok, tok_val. rewrite dec_str. destruct (Z.ltb_spec z 0); lia. Qed.
Lemma z_tok_wf z : wf_tok (z_tok z).
Proof. split; [apply str_nat_ne|apply str_nat_digits]. Qed.
Lemma spells_exists els : els <> [] -> Forall (fun el => el <> []) els -> exists s, spells s els.
Proof.
  intros Hne Hels. exists (tword_str (map (map z_tok) els)), (map (map z_tok) els). split; [|split; [reflexivity|]].
  - split; [destruct els; [congruence|discriminate]|]. apply Forall_map. eapply Forall_impl; [|exact Hels].
    intros el Hel. split; [destruct el; [congruence|discriminate]|]. apply Forall_map. apply Forall_forall. intros; apply z_tok_wf.
  - rewrite map_map. symmetry. erewrite map_ext; [apply map_id|]. intros el. rewrite map_map.
    erewrite map_ext; [apply map_id|]. intros; apply z_tok_val.
Qed.
Lemma spells_app s1 e1 s2 e2 : spells s1 e1 -> spells s2 e2 -> spells (s1 ++ s2) (e1 ++ e2).
Proof.
  intros (t1 & [Hn1 H1] & -> & ->) (t2 & [Hn2 H2] & -> & ->). exists (t1 ++ t2). split; [|split].
  - split; [destruct t1; [congruence|discriminate]|apply Forall_app; auto].
  - unfold tword_str. rewrite flat_map_app. reflexivity.
  - rewrite map_app. reflexivity.
Qed.
