From Coq Require Import Ascii String List Arith ZArith Bool Lia.
From Verif Require Import M_Str S_Plan.
Import ListNotations.
Local Open Scope char_scope.
Local Open Scope nat_scope.

Lemma ascii_eqb_refl c : Ascii.eqb c c = true.
Proof. apply Ascii.eqb_refl. Qed.

Lemma split_on_ne c s : split_on c s <> [].
Proof. destruct s as [|x s]; cbn; [congruence|]. destruct (Ascii.eqb x c); [congruence|].
  destruct (split_on c s); congruence. Qed.

Lemma split_on_sep c a s : ~ In c a -> split_on c (a ++ c :: s) = a :: split_on c s.
Proof.
  induction a as [|x a IH]; intros Ha; cbn.
  - now rewrite ascii_eqb_refl.
  - destruct (Ascii.eqb_spec x c) as [->|Hne]; [exfalso; apply Ha; now left|].
    rewrite IH; [reflexivity|]. intros Hi. apply Ha. now right.
Qed.

Lemma split_on_none c a : ~ In c a -> split_on c a = [a].
Proof.
  induction a as [|x a IH]; intros Ha; cbn; [reflexivity|].
  destruct (Ascii.eqb_spec x c) as [->|Hne]; [exfalso; apply Ha; now left|].
  rewrite IH; [reflexivity|]. intros Hi. apply Ha. now right.
Qed.

Lemma no_brackets_open b : no_brackets b -> ~ In "[" b.
Proof. intros H Hi. unfold no_brackets in H. rewrite Forall_forall in H. now destruct (H _ Hi). Qed.
Lemma no_brackets_close b : no_brackets b -> ~ In "]" b.
Proof. intros H Hi. unfold no_brackets in H. rewrite Forall_forall in H. now destruct (H _ Hi). Qed.

Lemma wstring_cons b w : wstring (b :: w) = ("[" :: b) ++ "]" :: wstring w.
Proof. unfold wstring. cbn [flat_map]. now rewrite <- app_assoc. Qed.
Lemma wstring_app v w : wstring (v ++ w) = wstring v ++ wstring w.
Proof. unfold wstring. now rewrite flat_map_app. Qed.

(** split("]") of a word string. *)
Lemma split_close w : wf_bodies w -> split_on "]" (wstring w) = map (fun b => "[" :: b) w ++ [[]].
Proof.
  induction 1 as [|b w Hb Hw IH]; [reflexivity|].
  rewrite wstring_cons, split_on_sep.
  - cbn [map app]. now rewrite IH.
  - intros [E|Hi]; [discriminate|]. now apply no_brackets_close in Hi.
Qed.

Lemma split_on_prefix_open c a s : ~ In c a -> split_on c (a ++ s) =
  match split_on c s with [] => [] | h :: t => (a ++ h) :: t end.
Proof.
  induction a as [|x a IH]; intros Ha; cbn.
  - destruct (split_on c s); reflexivity.
  - destruct (Ascii.eqb_spec x c) as [->|Hne]; [exfalso; apply Ha; now left|].
    rewrite IH by (intros Hi; apply Ha; now right).
    destruct (split_on c s) eqn:E; [now apply split_on_ne in E|]. reflexivity.
Qed.

(** split("[") of a word string. *)
Lemma split_open w : wf_bodies w -> split_on "[" (wstring w) = [] :: map (fun b => b ++ ["]"]) w.
Proof.
  induction 1 as [|b w Hb Hw IH]; [reflexivity|].
  rewrite wstring_cons. cbn [app split_on]. rewrite ascii_eqb_refl. f_equal.
  replace (b ++ "]" :: wstring w) with ((b ++ ["]"]) ++ wstring w) by now rewrite <- app_assoc.
  rewrite split_on_prefix_open.
  - rewrite IH. cbn [map]. now rewrite app_nil_r.
  - rewrite in_app_iff. intros [Hi|[E|[]]]; [now apply no_brackets_open in Hi|discriminate].
Qed.

Lemma join_cons2 c p q r : join c (p :: q :: r) = p ++ c ++ join c (q :: r).
Proof. reflexivity. Qed.

Lemma join_open w : w <> [] -> "[" :: join ["["] (map (fun b => b ++ ["]"]) w) = wstring w.
Proof.
  induction w as [|b w IH]; intros Hne; [congruence|].
  rewrite wstring_cons. destruct w as [|b2 w].
  - cbn. now rewrite ?app_nil_r.
  - cbn [map]. rewrite join_cons2. cbn [map] in IH. rewrite <- IH by congruence.
    rewrite <- app_assoc. reflexivity.
Qed.

Lemma join_close w : w <> [] -> join ["]"] (map (fun b => "[" :: b) w) ++ ["]"] = wstring w.
Proof.
  induction w as [|b w IH]; intros Hne; [congruence|].
  rewrite wstring_cons. destruct w as [|b2 w].
  - cbn. now rewrite ?app_nil_r.
  - rewrite <- IH by congruence. cbn [map]. rewrite join_cons2. rewrite <- !app_assoc. reflexivity.
Qed.

Lemma startswith_app s p : startswith s p = true <-> exists r, s = p ++ r.
Proof.
  revert s. induction p as [|x p IH]; intros s; cbn.
  - split; [intros _; now exists s|intros _; now destruct s].
  - destruct s as [|y s]; cbn.
    + split; [discriminate|]. intros (r & E). discriminate.
    + rewrite andb_true_iff, IH. destruct (Ascii.eqb_spec x y) as [->|Hne].
      * split; [intros (_ & r & ->); eauto|]. intros (r & E). injection E as ->. split; eauto.
      * split; [intros (E & _); discriminate|]. intros (r & E). injection E. congruence.
Qed.

(** A word string determines the word. *)
Lemma body_split a b s t : no_brackets a -> no_brackets b ->
  a ++ "]" :: s = b ++ "]" :: t -> a = b /\ s = t.
Proof.
  intros Ha Hb. revert b Hb. induction Ha as [|x a Hx Ha IH]; intros b Hb E.
  - destruct Hb as [|y b [Hy1 Hy2] Hb]; cbn in E; injection E; [auto|]. intros _ E2. congruence.
  - destruct Hb as [|y b Hy Hb]; cbn in E; injection E as E1 E2; [subst; destruct Hx; congruence|].
    subst y. destruct (IH b Hb E2) as [-> ->]. auto.
Qed.

Lemma wstring_inj v w : wf_bodies v -> wf_bodies w -> wstring v = wstring w -> v = w.
Proof.
  intros Hv. revert w. induction Hv as [|b v Hb Hv IH]; intros w Hw E.
  - destruct w as [|c w]; [auto|]. rewrite wstring_cons in E. discriminate.
  - destruct Hw as [|c w Hc Hw]; [rewrite wstring_cons in E; discriminate|].
    rewrite !wstring_cons in E. cbn [app] in E. injection E as E.
    apply body_split in E; auto. destruct E as [-> E]. f_equal. now apply IH.
Qed.

Definition is_prefix {A} (p w : list A) : Prop := exists r, w = p ++ r.

Lemma startswith_wstring v p : wf_bodies v -> wf_bodies p ->
  startswith (wstring v) (wstring p) = true <-> is_prefix p v.
Proof.
  intros Hv Hp. rewrite startswith_app. split.
  - revert v Hv. induction Hp as [|b p Hb Hp IH]; intros v Hv (r & E).
    + exists v. reflexivity.
    + destruct Hv as [|c v Hc Hv]; [rewrite wstring_cons in E; discriminate|].
      rewrite !wstring_cons in E. cbn [app] in E. injection E as E.
      rewrite <- app_assoc in E. cbn [app] in E.
      apply body_split in E; auto. destruct E as [-> E].
      destruct (IH v Hv) as (r' & ->); [eauto|]. now exists r'.
  - intros (r & ->). exists (wstring r). apply wstring_app.
Qed.

(** ** Decimal round trip *)
Lemma digit_char_digit d : d < 10 -> is_digit (digit_char d) = true /\ digit_val (digit_char d) = d.
Proof.
  intros Hd. do 10 (destruct d as [|d]; [split; reflexivity|]). lia.
Qed.
Lemma int_digits_app a s t :
  int_digits a (s ++ t) = match int_digits a s with Some b => int_digits b t | None => None end.
Proof.
  revert a. induction s as [|c s IH]; intros a; cbn [app int_digits]; [reflexivity|].
  destruct (is_digit c); auto.
Qed.
Lemma str_nat_aux_int fuel n : n < fuel -> int_digits 0 (str_nat_aux fuel n) = Some n.
Proof.
  revert n. induction fuel as [|f IH]; intros n Hn; [lia|]. cbn [str_nat_aux].
  destruct (Nat.ltb_spec n 10) as [H10|H10].
  - cbn [int_digits]. destruct (digit_char_digit n H10) as [-> ->]. reflexivity.
  - rewrite int_digits_app, IH.
    + cbn [int_digits]. destruct (digit_char_digit (n mod 10)) as [-> ->]; [apply Nat.mod_upper_bound; lia|].
      f_equal. symmetry. rewrite (Nat.div_mod n 10) at 1 by lia. lia.
    + assert (n / 10 < n) by (apply Nat.div_lt; lia). lia.
Qed.
Lemma str_nat_int n : int_digits 0 (str_nat n) = Some n.
Proof. apply str_nat_aux_int. lia. Qed.
Lemma str_nat_aux_digits fuel n : Forall (fun c => is_digit c = true) (str_nat_aux fuel n).
Proof.
  revert n. induction fuel as [|f IH]; intros n; cbn [str_nat_aux]; [constructor|].
  destruct (Nat.ltb_spec n 10).
  - repeat constructor. now apply digit_char_digit.
  - apply Forall_app. split; auto. repeat constructor.
    apply digit_char_digit. apply Nat.mod_upper_bound. lia.
Qed.
Lemma str_nat_digits n : Forall (fun c => is_digit c = true) (str_nat n).
Proof. apply str_nat_aux_digits. Qed.
Lemma str_nat_ne n : str_nat n <> [].
Proof.
  unfold str_nat. cbn [str_nat_aux]. destruct (n <? 10); [congruence|].
  intros E. apply app_eq_nil in E. destruct E. discriminate.
Qed.
Lemma int_nat_str n : int_nat (str_nat n) = Some n.
Proof.
  unfold int_nat. destruct (str_nat n) eqn:E; [now apply str_nat_ne in E|].
  rewrite <- E. apply str_nat_int.
Qed.
Lemma digit_not_special c : is_digit c = true ->
  c <> "[" /\ c <> "]" /\ c <> "(" /\ c <> ")" /\ c <> "-".
Proof.
  intros H. repeat split; intros ->; discriminate H.
Qed.
Lemma py_int_str n : py_int (str_nat n) = Ok (Z.of_nat n).
Proof.
  unfold py_int. destruct (str_nat n) as [|c r] eqn:E; [now apply str_nat_ne in E|].
  pose proof (str_nat_digits n) as Hd. rewrite E in Hd. inversion Hd as [|? ? Hc _]; subst.
  destruct (Ascii.eqb_spec c minus_char) as [->|_]; [discriminate Hc|].
  rewrite <- E, int_nat_str. reflexivity.
Qed.
Lemma py_int_neg_str n : py_int (minus_char :: str_nat n) = Ok (- Z.of_nat n)%Z.
Proof. unfold py_int. rewrite ascii_eqb_refl, int_nat_str. reflexivity. Qed.

Lemma str_nat_digit d : d < 10 -> str_nat d = [digit_char d].
Proof. intros Hd. unfold str_nat. cbn [str_nat_aux]. now replace (d <? 10) with true by (symmetry; now apply Nat.ltb_lt). Qed.
Lemma str_nat_long n : 10 <= n -> 1 < length (str_nat n).
Proof.
  intros Hn. unfold str_nat. cbn [str_nat_aux]. replace (n <? 10) with false by (symmetry; now apply Nat.ltb_ge).
  rewrite app_length. cbn [length].
  assert (H : str_nat_aux n (n / 10) <> []).
  { destruct n; [lia|]. cbn [str_nat_aux]. destruct (S n / 10 <? 10); [congruence|].
    intros E. apply app_eq_nil in E. destruct E. discriminate. }
  destruct (str_nat_aux n (n / 10)); [congruence|cbn; lia].
Qed.
