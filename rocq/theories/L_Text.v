(** Lemmas for C97: [int(s)] and splitting at closing brackets. *)
From Coq Require Import Ascii String List Arith ZArith Bool Lia.
From Verif Require Import Num Arr M_Str S_Text L_Str.
Import ListNotations.

(** ** The characters *)
Lemma blank_iff c : is_space c = true <-> blank c.
Proof.
  unfold is_space, blank. rewrite !orb_true_iff, !andb_true_iff, !Nat.leb_le, !Nat.eqb_eq. cbn [In].
  generalize (nat_of_ascii c). intros n. split; intros A; lia.
Qed.
Lemma digit_iff c : is_digit c = true <-> digit c.
Proof.
  unfold digit. split.
  - intros D. destruct c as [[] [] [] [] [] [] [] []]; try discriminate D; cbn; tauto.
  - cbn. intros D. repeat (destruct D as [<- | D]; [reflexivity|]). contradiction.
Qed.
Lemma digit_solid c : is_digit c = true -> is_space c = false.
Proof.
  unfold is_digit, is_space. rewrite andb_true_iff, !Nat.leb_le. intros A. apply not_true_iff_false.
  rewrite !orb_true_iff, !andb_true_iff, !Nat.leb_le, !Nat.eqb_eq. lia.
Qed.
Lemma not_blank c : blank c -> is_space c = true.
Proof. apply blank_iff. Qed.

(** ** Blanks at both ends *)
Definition hard (m : pystr) : Prop := match m with [] => True | c :: _ => is_space c = false end.
Lemma lstrip_app pre m : Forall blank pre -> hard m -> lstrip (pre ++ m) = m.
Proof.
  intros F M. induction F as [|c pre B F IH]; cbn.
  - destruct m as [|c m]; [reflexivity|]. cbn in *. now rewrite M.
  - now rewrite (not_blank c B).
Qed.
Lemma lstrip_split s : exists pre, s = pre ++ lstrip s /\ Forall blank pre /\ hard (lstrip s).
Proof.
  induction s as [|c s (pre & E & F & M)]; [exists []; repeat constructor|]. cbn. destruct (is_space c) eqn:B.
  - exists (c :: pre). split; [cbn; congruence|]. split; [constructor; [now apply blank_iff|assumption]|exact M].
  - exists []. cbn. repeat constructor. exact B.
Qed.
Lemma strip_app pre m post : Forall blank pre -> Forall blank post -> hard m -> hard (rev m) -> strip (pre ++ m ++ post) = m.
Proof.
  intros F G M1 M2. unfold strip. destruct m as [|c m].
  - assert (Z : forall l, Forall blank l -> lstrip l = []). { intros l Fl. rewrite <- (app_nil_r l). apply lstrip_app; [exact Fl|exact Logic.I]. }
    rewrite (Z (pre ++ [] ++ post)) by (apply Forall_app; auto). reflexivity.
  - rewrite (lstrip_app pre) by (assumption || exact M1). rewrite rev_app_distr, lstrip_app; [apply rev_involutive| |exact M2]. apply Forall_rev; exact G.
Qed.
Lemma strip_split s : exists pre post, s = pre ++ strip s ++ post /\ Forall blank pre /\ Forall blank post /\ hard (strip s) /\ hard (rev (strip s)).
Proof.
  destruct (lstrip_split s) as (pre & E & F & M). destruct (lstrip_split (rev (lstrip s))) as (post & E' & F' & M').
  exists pre, (rev post). unfold strip. rewrite rev_involutive.
  assert (R : lstrip s = rev (lstrip (rev (lstrip s))) ++ rev post).
  { rewrite <- rev_app_distr, <- E', rev_involutive. reflexivity. }
  repeat split; [rewrite <- R; exact E|exact F|now apply Forall_rev| |exact M'].
  destruct (rev (lstrip (rev (lstrip s)))) as [|c m]; [exact Logic.I|]. rewrite R in M. exact M.
Qed.

(** ** Digits and underscores *)
Lemma us_digits_run g acc b r : Forall digit g -> us_digits acc b (g ++ r) = us_digits (fold_left (fun a c => 10 * a + digit_val c) g acc) (match g with [] => b | _ => true end) r.
Proof.
  intros F. revert acc b. induction F as [|c g D F IH]; intros acc b; [reflexivity|].
  cbn [app us_digits fold_left]. rewrite (proj2 (digit_iff c) D), IH. now destruct g.
Qed.
Definition val (acc : nat) (l : pystr) : nat := fold_left (fun a c => 10 * a + digit_val c) l acc.
Lemma val_decimal l : val 0 l = decimal l.
Proof. reflexivity. Qed.
Definition groups_ok (gs : list pystr) : Prop := gs <> [] /\ Forall (fun g => g <> [] /\ Forall digit g) gs.
Lemma us_digits_groups gs acc b : groups_ok gs -> us_digits acc b (join ["_"%char] gs) = Some (val acc (concat gs)).
Proof.
  intros (N & F). revert acc b N. induction F as [|g gs (Ng & Dg) F IH]; intros acc b N; [easy|]. destruct gs as [|g' gs].
  - cbn [join concat]. rewrite <- (app_nil_r g) at 1. rewrite (us_digits_run g acc b [] Dg). rewrite app_nil_r. destruct g; [easy|reflexivity].
  - rewrite join_cons2. cbn [concat]. rewrite (us_digits_run g acc b _ Dg). destruct g as [|c g]; [congruence|].
    change (["_"%char] ++ join ["_"%char] (g' :: gs)) with ("_"%char :: join ["_"%char] (g' :: gs)).
    cbn [us_digits]. change (is_digit "_"%char) with false. cbn [Ascii.eqb Bool.eqb andb].
    replace (Ascii.eqb "_"%char "_"%char && true) with true by reflexivity. rewrite IH by discriminate. unfold val. rewrite (fold_left_app _ (c :: g)). reflexivity.
Qed.
Lemma us_digits_inv s : forall acc b n, us_digits acc b s = Some n ->
  (s = [] /\ b = true /\ n = acc) \/
  (exists gs, groups_ok gs /\ s = join ["_"%char] gs /\ n = val acc (concat gs)) \/
  (b = true /\ exists gs, groups_ok gs /\ s = "_"%char :: join ["_"%char] gs /\ n = val acc (concat gs)).
Proof.
  induction s as [|c s IH]; intros acc b n E; cbn in E.
  - destruct b; [|discriminate]. left. split; [reflexivity|]. split; congruence.
  - right. destruct (is_digit c) eqn:D.
    + left. apply digit_iff in D. apply IH in E as [(-> & _ & ->) | [(gs & (N & F) & -> & ->) | (_ & gs & (N & F) & -> & ->)]].
      * exists [[c]]. split; [split; [discriminate|constructor; [split; [discriminate|constructor; [exact D|constructor]]|constructor]]|split; reflexivity].
      * destruct gs as [|g gs]; [easy|]. inversion F as [|? ? (Ng & Dg) F']; subst. exists ((c :: g) :: gs).
        split; [split; [discriminate|constructor; [split; [discriminate|now constructor]|assumption]]|].
        split; [destruct gs; reflexivity|reflexivity].
      * exists ([c] :: gs). split; [split; [discriminate|constructor; [split; [discriminate|constructor; [exact D|constructor]]|assumption]]|].
        split; [destruct gs; [easy|reflexivity]|reflexivity].
    + destruct (Ascii.eqb c "_"%char && b) eqn:U; [|discriminate]. apply andb_true_iff in U as (U & ->). apply Ascii.eqb_eq in U. subst c.
      right. split; [reflexivity|]. apply IH in E as [(_ & ? & _) | [(gs & G & -> & ->) | (? & _)]]; try discriminate.
      exists gs. auto.
Qed.
Lemma hard_groups gs : groups_ok gs -> exists c m, join ["_"%char] gs = c :: m /\ digit c /\ hard (rev (c :: m)).
Proof.
  intros (N & F). assert (HH : exists c m, join ["_"%char] gs = c :: m /\ digit c).
  { destruct F as [|g gs (Ng & Dg) F]; [easy|]. destruct g as [|c g]; [easy|]. inversion Dg; subst. exists c. destruct gs; cbn; eauto. }
  assert (L : exists c m, join ["_"%char] gs = m ++ [c] /\ digit c).
  { clear HH. revert N. induction F as [|g gs (Ng & Dg) F IH]; [easy|]. intros _. destruct gs as [|g' gs].
    - destruct (exists_last Ng) as (m & c & ->). exists c, m. split; [reflexivity|]. apply Forall_app in Dg as (_ & Dg). now inversion Dg.
    - destruct IH as (c & m & E & D); [discriminate|]. exists c, (g ++ ["_"%char] ++ m). split; [|exact D].
      transitivity (g ++ ["_"%char] ++ (m ++ [c])); [|now rewrite <- !app_assoc]. rewrite <- E. reflexivity. }
  destruct HH as (c & m & E & D). destruct L as (c' & m' & E' & D'). exists c, m. split; [exact E|]. split; [exact D|].
  rewrite <- E, E', rev_app_distr. cbn. apply digit_solid, digit_iff, D'.
Qed.

(** ** [int(s)] *)
Lemma py_int_text_spec s z : py_int_text s = Ok z <-> integer_text s z.
Proof.
  unfold py_int_text, integer_text. split.
  - destruct (strip_split s) as (pre & post & E & F & G & M & M'). intros R. exists pre.
    destruct (strip s) as [|c m] eqn:ES; [discriminate|].
    assert (X : forall body n, us_digits 0 false body = Some n -> exists gs, groups_ok gs /\ body = join ["_"%char] gs /\ n = decimal (concat gs)).
    { intros body n U. apply us_digits_inv in U as [(_ & ? & _) | [U | (? & _)]]; try discriminate. exact U. }
    destruct (Ascii.eqb c minus_char) eqn:C1; [|destruct (Ascii.eqb c "+"%char) eqn:C2].
    + apply Ascii.eqb_eq in C1. subst c. destruct (us_digits 0 false m) as [n|] eqn:U; [|discriminate]. injection R as <-.
      apply X in U as (gs & (N & GF) & -> & ->). exists ["-"%char], gs, post. repeat split; try assumption; try (right; right; split; reflexivity).
    + apply Ascii.eqb_eq in C2. subst c. destruct (us_digits 0 false m) as [n|] eqn:U; [|discriminate]. injection R as <-.
      apply X in U as (gs & (N & GF) & -> & ->). exists ["+"%char], gs, post. repeat split; try assumption; try (right; left; split; reflexivity).
    + destruct (us_digits 0 false (c :: m)) as [n|] eqn:U; [|discriminate]. injection R as <-.
      apply X in U as (gs & (N & GF) & EE & ->). exists [], gs, post. rewrite <- EE. repeat split; try assumption; try (left; split; reflexivity).
  - intros (pre & sign & gs & post & -> & F & G & N & GF & C). assert (GO : groups_ok gs) by (split; assumption).
    destruct (hard_groups gs GO) as (c & m & E & D & HR). pose proof (proj2 (digit_iff c) D) as D'.
    replace (pre ++ sign ++ join ["_"%char] gs ++ post) with (pre ++ (sign ++ join ["_"%char] gs) ++ post) by now rewrite !app_assoc.
    assert (HR' : hard (rev (sign ++ join ["_"%char] gs))).
    { rewrite rev_app_distr, E. destruct (rev (c :: m)) as [|x y] eqn:RV; [|exact HR].
      apply (f_equal (@rev ascii)) in RV. rewrite rev_involutive in RV. discriminate. }
    rewrite strip_app; [|assumption|assumption| |exact HR'].
    + pose proof (us_digits_groups gs 0 false GO) as U.
      destruct C as [(-> & ->) | [(-> & ->) | (-> & ->)]]; cbn [app].
      * rewrite E in U |- *. assert (Ascii.eqb c minus_char = false) as ->. { apply Ascii.eqb_neq. intros ->. discriminate. }
        assert (Ascii.eqb c "+"%char = false) as ->. { apply Ascii.eqb_neq. intros ->. discriminate. } rewrite U. reflexivity.
      * change (Ascii.eqb "+"%char minus_char) with false. change (Ascii.eqb "+"%char "+"%char) with true. cbv iota. rewrite U. reflexivity.
      * change (Ascii.eqb "-"%char minus_char) with true. cbv iota. rewrite U. reflexivity.
    + destruct C as [(-> & ->) | [(-> & ->) | (-> & ->)]]; cbn [app]; [|reflexivity|reflexivity].
      rewrite E. cbn. now apply digit_solid.
Qed.
Lemma py_int_text_err s e : py_int_text s = Err e -> e = ValueError /\ forall z, ~ integer_text s z.
Proof.
  intros E. split.
  - unfold py_int_text in E. destruct (match strip s with [] => _ | _ => _ end) as (neg, body). destruct (us_digits 0 false body); congruence.
  - intros z T. apply py_int_text_spec in T. congruence.
Qed.

(** ** Parts closed by a character *)
Lemma split_closed c ps rest s : closed c ps rest s -> split_on c s = ps ++ [rest].
Proof.
  intros (-> & F & R). induction F as [|p ps P F IH]; cbn [map concat app].
  - now apply split_on_none.
  - rewrite <- !app_assoc. cbn [app]. rewrite split_on_sep by exact P. now rewrite IH.
Qed.
Lemma closed_ex c s : exists ps rest, closed c ps rest s.
Proof.
  induction s as [|x s (ps & rest & E & F & R)]; [exists [], []; repeat constructor; auto|].
  destruct (ascii_dec x c) as [->|N].
  - exists ([] :: ps), rest. repeat split; [cbn; now rewrite E|constructor; auto|exact R].
  - destruct ps as [|p ps].
    + exists [], (x :: rest). repeat split; [cbn in *; now rewrite E|constructor|]. intros [A|A]; auto.
    + inversion F as [|? ? P F']; subst. exists ((x :: p) :: ps), rest. repeat split; [constructor; [|assumption]|exact R]. intros [A|A]; auto.
Qed.
Lemma closed_unique c ps rest ps' rest' s : closed c ps rest s -> closed c ps' rest' s -> ps = ps' /\ rest = rest'.
Proof. intros A B. apply split_closed in A, B. rewrite A in B. now apply app_inj_tail in B. Qed.
Lemma pieces_closed c ps rest s : closed c ps rest s -> removelast (split_on c s) = ps.
Proof. intros A. rewrite (split_closed _ _ _ _ A). apply removelast_last. Qed.

Lemma decimal_int l n : int_digits 0 l = Some n -> Forall digit l /\ n = decimal l.
Proof.
  assert (G : forall acc, int_digits acc l = Some n -> Forall digit l /\ n = val acc l).
  { induction l as [|c l IH]; intros acc E; cbn in E; [injection E as <-; auto|]. destruct (is_digit c) eqn:D; [|discriminate].
    apply IH in E as (F & ->). split; [constructor; [now apply digit_iff|exact F]|reflexivity]. }
  apply G.
Qed.
Lemma py_int_text_str n : py_int_text (str_Z n) = Ok n.
Proof.
  apply py_int_text_spec. exists [], (if (n <? 0)%Z then ["-"%char] else []), [str_nat (Z.abs_nat n)], [].
  pose proof (str_nat_ne (Z.abs_nat n)) as N. destruct (decimal_int _ _ (str_nat_int (Z.abs_nat n))) as (D & V).
  cbn [concat join]. rewrite !app_nil_r. rewrite <- V. unfold str_Z.
  split; [destruct (n <? 0)%Z; reflexivity|]. split; [constructor|]. split; [constructor|]. split; [discriminate|].
  split; [constructor; [split; assumption|constructor]|].
  destruct (Z.ltb_spec n 0); [right; right|left]; (split; [reflexivity|lia]).
Qed.
