(** Lemmas about the word objects of M_WordObj. *)
From Coq Require Import Ascii String List Arith ZArith Bool Lia.
From Verif Require Import L_Text Num Arr M_Str M_Semiring M_Words M_Fruit M_WordObj L_Arr L_Str L_Fruit L_Fruit3.
Import ListNotations.

Section WordObj.
Context {T : Type} `{Num T}.
Local Notation registry := (list (pystr * fn T)).

Lemma eqs_true (a b : pystr) : eqs a b = true <-> a = b.
Proof. unfold eqs. destruct (list_eq_dec ascii_dec a b); split; congruence. Qed.

Lemma reg_get_app (r x : registry) n f : reg_get r n = Some f -> reg_get (r ++ x) n = Some f.
Proof. induction r as [|[m g] r IH]; [discriminate|]. cbn. destruct (eqs n m); auto. Qed.
Lemma reg_get_app_none (r : registry) m g n :
  reg_get r n = None -> reg_get (r ++ [(m, g)]) n = if eqs n m then Some g else None.
Proof. induction r as [|[k f] r IH]; [reflexivity|]. cbn. destruct (eqs n k); [discriminate|auto]. Qed.
Lemma reg_get_in (r : registry) n f : reg_get r n = Some f -> In (n, f) r.
Proof.
  induction r as [|[m g] r IH]; [discriminate|]. cbn. destruct (eqs n m) eqn:E; [|auto].
  intros [= ->]. apply eqs_true in E. subst. auto.
Qed.
Lemma reg_get_none (r : registry) n : reg_get r n = None <-> ~ In n (map fst r).
Proof.
  induction r as [|[m g] r IH]; [cbn; tauto|]. cbn. destruct (eqs n m) eqn:E.
  - apply eqs_true in E. subst. split; [discriminate|tauto].
  - rewrite IH. assert (n <> m) by (intros ->; rewrite (proj2 (eqs_true m m) eq_refl) in E; discriminate).
    intuition congruence.
Qed.

(** What the string of an extended letter describes. *)
Definition one_repr (nd : pystr * int) : pystr := fst nd ++ "("%char :: str_Z (snd nd + 1) ++ [")"%char].
Definition repr_of (nds : list (pystr * int)) : pystr := flat_map one_repr nds.
Definition honest (r : registry) (o : elobj T) : Prop :=
  exists nds, eo_repr o = repr_of nds /\ eo_dims o = map snd nds
              /\ Forall2 (fun nd f => reg_get r (fst nd) = Some f) nds (eo_fns o).
Definition plain_name (n : pystr) : Prop := ~ In "("%char n /\ ~ In ")"%char n /\ ~ In "]"%char n.
Definition plain (r : registry) : Prop := forall n f, reg_get r n = Some f -> plain_name n.

Lemma honest_mono (r x : registry) o : honest r o -> honest (r ++ x) o.
Proof.
  intros (nds & A & B & C). exists nds. split; [exact A|split; [exact B|]].
  clear A B. induction C as [|? ? ? ? E C IH]; constructor; [now apply reg_get_app|exact IH].
Qed.
Lemma repr_snoc nds nd : repr_of (nds ++ [nd]) = repr_of nds ++ one_repr nd.
Proof. unfold repr_of. rewrite flat_map_app. cbn. now rewrite app_nil_r. Qed.
Lemma honest_fresh (r : registry) : honest r el_fresh.
Proof. exists []. repeat split; constructor. Qed.
Lemma honest_append (r : registry) o n d o' : honest r o -> eo_append r o n d = Ok o' -> honest r o'.
Proof.
  intros (nds & A & B & C) E. unfold eo_append in E. destruct (reg_get r n) as [f|] eqn:G; [|discriminate].
  injection E as <-. exists (nds ++ [(n, d)]). cbn. rewrite repr_snoc, map_app, A, B. repeat split.
  apply Forall2_app; auto.
Qed.
Lemma honest_build_from (r : registry) ps o o' : honest r o ->
  fold_left (fun acc piece =>
      let! o := acc in
      match split_on "(" piece with
      | [name; d] => let! z := py_int_text d in eo_append r o name (z - 1)
      | _ => Err ValueError
      end) ps (Ok o) = Ok o' -> honest r o'.
Proof.
  assert (bad : forall ps e (o' : elobj T), fold_left (fun acc piece =>
      let! o := acc in
      match split_on "(" piece with
      | [name; d] => let! z := py_int_text d in eo_append r o name (z - 1)
      | _ => Err ValueError
      end) ps (Err e) = Ok o' -> False).
  { clear. induction ps as [|p ps IH]; cbn; [discriminate|eauto]. }
  revert o. induction ps as [|p ps IH]; intros o Ho; cbn [fold_left bind]; [intros [= <-]; auto|].
  destruct (split_on "(" p) as [|a [|b [|c l]]]; try (intros E; exfalso; exact (bad _ _ _ E)).
  destruct (py_int_text b) as [z|e]; cbn [bind]; [|intros E; exfalso; exact (bad _ _ _ E)].
  destruct (eo_append r o a (z - 1)) as [o1|e] eqn:A; [|intros E; exfalso; exact (bad _ _ _ E)].
  apply IH. eapply honest_append; eauto.
Qed.
Lemma honest_build (r : registry) s o : eo_build r s = Ok o -> honest r o.
Proof. apply honest_build_from, honest_fresh. Qed.
Lemma honest_copy (r : registry) o : honest r o -> honest r (eo_copy o).
Proof. intros (nds & A); exists nds; exact A. Qed.
Lemma honest_iter (r : registry) k o : honest r o -> honest r (set_el_iter k o).
Proof. intros (nds & A); exists nds; exact A. Qed.

(** *** Reading a printed extended letter *)
Lemma str_Z_no c z : is_digit c = false -> c <> minus_char -> ~ In c (str_Z z).
Proof.
  intros D M I. assert (forall n, ~ In c (str_nat n)).
  { intros n J. pose proof (str_nat_digits n) as F. rewrite Forall_forall in F. rewrite (F _ J) in D. discriminate. }
  unfold str_Z in I. destruct (z <? 0)%Z; [destruct I as [I|I]; [congruence|]|]; eapply H0; eauto.
Qed.
Lemma split_repr nds : Forall (fun nd : pystr * int => plain_name (fst nd)) nds ->
  split_on ")" (repr_of nds) = map (fun nd => fst nd ++ "("%char :: str_Z (snd nd + 1)) nds ++ [[]].
Proof.
  induction 1 as [|nd nds (P1 & P2 & P3) F IH]; [reflexivity|].
  change (repr_of (nd :: nds)) with (one_repr nd ++ repr_of nds). unfold one_repr.
  replace ((fst nd ++ "("%char :: str_Z (snd nd + 1) ++ [")"%char]) ++ repr_of nds)
    with ((fst nd ++ "("%char :: str_Z (snd nd + 1)) ++ ")"%char :: repr_of nds).
  - rewrite split_on_sep; [now rewrite IH|].
    intros I. apply in_app_iff in I as [I|[I|I]]; [tauto|discriminate|].
    revert I. apply str_Z_no; [reflexivity|discriminate].
  - rewrite <- !app_assoc. cbn. now rewrite <- app_assoc.
Qed.
Lemma build_repr_from (r : registry) nds fs o :
  Forall (fun nd => plain_name (fst nd)) nds -> Forall2 (fun nd f => reg_get r (fst nd) = Some f) nds fs ->
  fold_left (fun acc piece =>
      let! o := acc in
      match split_on "(" piece with
      | [name; d] => let! z := py_int_text d in eo_append r o name (z - 1)
      | _ => Err ValueError
      end) (map (fun nd => fst nd ++ "("%char :: str_Z (snd nd + 1)) nds) (Ok o)
  = Ok {| eo_fns := eo_fns o ++ fs; eo_dims := eo_dims o ++ map snd nds; eo_repr := eo_repr o ++ repr_of nds; eo_iter := eo_iter o |}.
Proof.
  intros F G. revert o. induction G as [|nd f nds fs E G IH]; intros o; cbn [map fold_left bind].
  - cbn. rewrite !app_nil_r. now destruct o.
  - inversion F as [|? ? (P1 & P2 & P3) F']; subst. destruct nd as [n d]; cbn [fst snd] in *.
    rewrite split_on_sep by assumption.
    rewrite split_on_none by (apply str_Z_no; [reflexivity|discriminate]).
    rewrite py_int_text_str. cbn [bind].
    assert (Ea : eo_append r o (n) (d + 1 - 1)
      = Ok {| eo_fns := eo_fns o ++ [f]; eo_dims := eo_dims o ++ [d];
              eo_repr := eo_repr o ++ n ++ "("%char :: str_Z (d + 1) ++ [")"%char]; eo_iter := eo_iter o |})
      by (unfold eo_append; rewrite E, Z.add_simpl_r; reflexivity).
    rewrite Ea, (IH F'). cbn [map snd]. f_equal. cbn [eo_fns eo_dims eo_repr eo_iter].
    change (repr_of ((n, d) :: nds)) with (one_repr (n, d) ++ repr_of nds). unfold one_repr.
    f_equal; rewrite <- !app_assoc; cbn; rewrite <- ?app_assoc; reflexivity.
Qed.
Lemma build_repr (r : registry) nds fs :
  Forall (fun nd => plain_name (fst nd)) nds -> Forall2 (fun nd f => reg_get r (fst nd) = Some f) nds fs ->
  eo_build r (repr_of nds) = Ok {| eo_fns := fs; eo_dims := map snd nds; eo_repr := repr_of nds; eo_iter := 0 |}.
Proof.
  intros F G. unfold eo_build. rewrite split_repr by assumption. rewrite removelast_last.
  exact (build_repr_from r nds fs el_fresh F G).
Qed.
Lemma plain_nds (r : registry) nds fs : plain r -> Forall2 (fun nd f => reg_get r (fst nd) = Some f) nds fs ->
  Forall (fun nd : pystr * int => plain_name (fst nd)) nds.
Proof. intros P. induction 1; constructor; eauto. Qed.
Lemma build_honest (r : registry) o : plain r -> honest r o -> eo_build r (eo_repr o) = Ok (eo_copy o).
Proof.
  intros P (nds & A & B & C). rewrite A, (build_repr r nds (eo_fns o) (plain_nds r nds _ P C) C).
  unfold eo_copy. now rewrite A, B.
Qed.
Lemma repr_no_close (r : registry) o : plain r -> honest r o -> ~ In "]"%char (eo_repr o).
Proof.
  intros P (nds & A & B & C). rewrite A. pose proof (plain_nds r nds _ P C) as F. clear - F.
  induction F as [|nd nds (P1 & P2 & P3) F IH]; [intros []|].
  change (repr_of (nd :: nds)) with (one_repr nd ++ repr_of nds). unfold one_repr.
  intros I. repeat (rewrite ?in_app_iff in I; cbn in I).
  destruct I as [[I|[I|[I|I]]]|I]; try tauto; try discriminate.
  - revert I. apply str_Z_no; [reflexivity|discriminate].
  - destruct I as [I|[]]; discriminate.
Qed.
Lemma raws_print (r : registry) os : plain r -> Forall (honest r) os ->
  raws_of (flat_map eo_str os) = map (fun o => "["%char :: eo_repr o) os.
Proof.
  intros P F. unfold raws_of.
  enough (split_on "]" (flat_map eo_str os) = map (fun o => "["%char :: eo_repr o) os ++ [[]]) as ->
    by now rewrite removelast_last.
  induction F as [|o os Ho F IH]; [reflexivity|].
  change (flat_map eo_str (o :: os)) with (eo_str o ++ flat_map eo_str os). unfold eo_str at 1.
  replace ((("["%char :: eo_repr o) ++ ["]"%char]) ++ flat_map eo_str os)
    with (("["%char :: eo_repr o) ++ "]"%char :: flat_map eo_str os) by now rewrite <- app_assoc.
  rewrite split_on_sep.
  - now rewrite IH.
  - intros [I|I]; [discriminate|]. exact (repr_no_close r o P Ho I).
Qed.

(** *** Histories and their invariant *)
Inductive whist : wheap T -> Prop :=
| wh0 : whist wheap0
| whS h fuel op x h' : whist h -> wexec fuel op h = Some (x, h') -> whist h'.

Definition ids (h : wheap T) (w : nat) : list nat :=
  match nth_error (w_words h) w with None => [] | Some o => wo_els o end.
Definition inv (h : wheap T) : Prop :=
  Forall (honest (w_reg h)) (w_els h) /\
  Forall (fun o => Forall (fun e => e < length (w_els h)) (wo_els o)) (w_words h).

Lemma word_els_ids h w : word_els h w = map (fun e => nth e (w_els h) el_fresh) (ids h w).
Proof. unfold word_els, ids. destruct (nth_error (w_words h) w); reflexivity. Qed.

Lemma upd_upd {A} i (a b : A) l : upd i a (upd i b l) = upd i a l.
Proof. revert i. induction l as [|x l IH]; intros [|i]; cbn; congruence. Qed.
Lemma upd_id {A} i (a : A) l : nth_error l i = Some a -> upd i a l = l.
Proof. revert i. induction l as [|x l IH]; intros [|i] E; cbn in *; try congruence. now rewrite IH. Qed.
Lemma add_letters_nil (o : wobj T) : add_letters [] o = o.
Proof. destruct o. unfold add_letters. cbn. now rewrite app_nil_r. Qed.
Lemma mul_ids_nil w (h : wheap T) : mul_ids w [] h = h.
Proof.
  unfold mul_ids. destruct (nth_error (w_words h) w) as [o|] eqn:E; [|reflexivity].
  rewrite add_letters_nil, upd_id by exact E. now destruct h.
Qed.
Lemma mul_ids_mul w a b (h : wheap T) : mul_ids w b (mul_ids w a h) = mul_ids w (a ++ b) h.
Proof.
  unfold mul_ids at 2 3. destruct (nth_error (w_words h) w) as [o|] eqn:E.
  - unfold mul_ids. cbn. rewrite upd_nth_error_eq by (apply nth_error_Some; congruence).
    unfold with_words. cbn. rewrite upd_upd. unfold add_letters. cbn. now rewrite app_assoc.
  - unfold mul_ids. now rewrite E.
Qed.
Lemma mul_ids_els w a (h : wheap T) : w_els (mul_ids w a h) = w_els h.
Proof. unfold mul_ids. destruct (nth_error (w_words h) w); reflexivity. Qed.
Lemma mul_ids_reg w a (h : wheap T) : w_reg (mul_ids w a h) = w_reg h.
Proof. unfold mul_ids. destruct (nth_error (w_words h) w); reflexivity. Qed.
Lemma mul_ids_len w a (h : wheap T) : length (w_words (mul_ids w a h)) = length (w_words h).
Proof. unfold mul_ids. destruct (nth_error (w_words h) w); [apply upd_length|reflexivity]. Qed.
Lemma ids_mul w a (h : wheap T) v :
  ids (mul_ids w a h) v = if (w =? v) && (w <? length (w_words h)) then ids h w ++ a else ids h v.
Proof.
  unfold mul_ids. destruct (nth_error (w_words h) w) as [o|] eqn:E.
  - assert (L : w < length (w_words h)) by (apply nth_error_Some; congruence).
    rewrite (proj2 (Nat.ltb_lt _ _) L), andb_true_r. unfold ids, with_words; cbn.
    destruct (Nat.eqb_spec w v) as [->|Hn].
    + rewrite upd_nth_error_eq by exact L. now rewrite E.
    + now rewrite upd_nth_error_neq by exact Hn.
  - apply nth_error_None in E. rewrite (proj2 (Nat.ltb_ge _ _) E), andb_false_r. reflexivity.
Qed.
Lemma ids_mul_same w a (h : wheap T) : w < length (w_words h) -> ids (mul_ids w a h) w = ids h w ++ a.
Proof. intros L. rewrite ids_mul, Nat.eqb_refl, (proj2 (Nat.ltb_lt _ _) L). reflexivity. Qed.
Lemma ids_mul_other w a (h : wheap T) v : w <> v -> ids (mul_ids w a h) v = ids h v.
Proof. intros L. now rewrite ids_mul, (proj2 (Nat.eqb_neq _ _) L). Qed.

Lemma mul_loop_some fuel : forall w other i h h', w < length (w_words h) ->
  mul_loop fuel w other i h = Some h' -> h' = mul_ids w (skipn i (ids h other)) h /\ (w = other -> length (ids h w) <= i).
Proof.
  induction fuel as [|fuel IH]; intros w other i h h' L E; cbn in E; unfold ids at 1.
  - destruct (nth_error (w_words h) other) as [o|] eqn:Eo.
    + destruct (nth_error (wo_els o) i) as [e|] eqn:Ee; [discriminate|]. injection E as <-.
      apply nth_error_None in Ee. rewrite skipn_all2 by exact Ee. rewrite mul_ids_nil. split; [reflexivity|].
      intros ->. unfold ids. now rewrite Eo.
    + injection E as <-. rewrite skipn_nil, mul_ids_nil. split; [reflexivity|]. intros ->. unfold ids. rewrite Eo. cbn. lia.
  - destruct (nth_error (w_words h) other) as [o|] eqn:Eo.
    + destruct (nth_error (wo_els o) i) as [e|] eqn:Ee.
      * apply IH in E as (E & E2); [|now rewrite mul_ids_len].
        assert (Le : i < length (wo_els o)) by (apply nth_error_Some; congruence).
        destruct (Nat.eq_dec w other) as [->|Hn].
        -- exfalso. specialize (E2 eq_refl). rewrite ids_mul_same in E2 by exact L.
           rewrite app_length in E2. unfold ids in E2. rewrite Eo in E2. cbn in E2. 
           lia.
        -- split; [|intros; contradiction]. rewrite E, ids_mul_other, mul_ids_mul by exact Hn.
           unfold ids. rewrite Eo. f_equal. clear - Ee. revert i Ee.
           generalize (wo_els o). induction l as [|x l IH]; intros [|i] Ee; cbn in *; try discriminate; [congruence|now apply IH].
      * injection E as <-. apply nth_error_None in Ee. rewrite skipn_all2 by exact Ee. rewrite mul_ids_nil. split; [reflexivity|].
        intros ->. unfold ids. now rewrite Eo.
    + injection E as <-. rewrite skipn_nil, mul_ids_nil. split; [reflexivity|]. intros ->. unfold ids. rewrite Eo. cbn. lia.
Qed.
Lemma mul_loop_ends fuel : forall w other i h, w <> other -> length (ids h other) <= i + fuel ->
  mul_loop fuel w other i h = Some (mul_ids w (skipn i (ids h other)) h).
Proof.
  intros w other i h Hn L. destruct (mul_loop fuel w other i h) as [h'|] eqn:E.
  - destruct (Nat.lt_ge_cases w (length (w_words h))) as [Lw|Lw].
    + now rewrite (proj1 (mul_loop_some _ _ _ _ _ _ Lw E)).
    + f_equal. assert (U : forall a, mul_ids w a h = h) by (intros a; unfold mul_ids; now rewrite (proj2 (nth_error_None _ _) Lw)).
      rewrite U. clear L. revert i E. induction fuel as [|f IH]; intros i E; cbn in E;
        destruct (nth_error (w_words h) other) as [o|]; try congruence; destruct (nth_error (wo_els o) i); try congruence.
      rewrite U in E. eauto.
  - exfalso. revert i h L E. induction fuel as [|f IH]; intros i h L E; cbn in E; unfold ids in L;
      destruct (nth_error (w_words h) other) as [o|] eqn:Eo; try discriminate; destruct (nth_error (wo_els o) i) as [e|] eqn:Ee; try discriminate.
    + assert (i < length (wo_els o)) by (apply nth_error_Some; congruence). lia.
    + apply IH in E; [auto|]. rewrite ids_mul_other by exact Hn. unfold ids. rewrite Eo. lia.
Qed.
Lemma mul_loop_self fuel : forall w i h, w < length (w_words h) -> i < length (ids h w) -> mul_loop fuel w w i h = None.
Proof.
  intros w i h L Li. destruct (mul_loop fuel w w i h) as [h'|] eqn:E; [|reflexivity].
  apply mul_loop_some in E as (_ & E); [|exact L]. specialize (E eq_refl). lia.
Qed.

Lemma mul_raws_inv raws : forall w (h : wheap T) x h', mul_raws w raws h = (x, h') ->
  exists good rest os, raws = good ++ rest
    /\ Forall2 (fun (raw : pystr) o => eo_build (w_reg h) (tl raw) = Ok o) good os
    /\ h' = mul_ids w (seq (length (w_els h)) (length os)) (with_els (w_els h ++ os) h)
    /\ ((rest = [] /\ x = Ok tt) \/ (exists raw r e, rest = raw :: r /\ eo_build (w_reg h) (tl raw) = Err e /\ x = Err e)).
Proof.
  induction raws as [|raw raws IH]; intros w h x h' E; cbn [mul_raws] in E.
  - injection E as <- <-. exists [], [], []. cbn [length seq]. rewrite mul_ids_nil.
    split; [reflexivity|split; [constructor|split; [destruct h; unfold with_els; cbn; now rewrite app_nil_r|now left]]].
  - destruct (eo_build (w_reg h) (tl raw)) as [o|e] eqn:B.
    + apply IH in E as (good & rest & os & A1 & A2 & A3 & A4). rewrite mul_ids_reg in A2, A4. cbn in A2, A4.
      exists (raw :: good), rest, (o :: os). split; [now rewrite A1|]. split; [now constructor|]. split; [|exact A4].
      rewrite A3. clear. rewrite mul_ids_els. cbn [w_els with_els].
      unfold mul_ids at 2 3. cbn [w_words with_els]. destruct (nth_error (w_words h) w) as [wo|] eqn:E.
      * unfold mul_ids. cbn. rewrite upd_nth_error_eq by (apply nth_error_Some; congruence).
        unfold with_words, with_els. cbn. rewrite upd_upd, <- app_assoc, app_length. cbn.
        unfold add_letters. cbn. rewrite <- app_assoc, Nat.add_1_r. reflexivity.
      * unfold mul_ids. cbn. rewrite E. unfold with_els. cbn. now rewrite <- app_assoc.
    + injection E as <- <-. exists [], (raw :: raws), []. cbn [length seq]. rewrite mul_ids_nil.
      split; [reflexivity|split; [constructor|split; [destruct h; unfold with_els; cbn; now rewrite app_nil_r|]]]. right. exists raw, raws, e. auto.
Qed.
Lemma mul_raws_ok w (h : wheap T) good os : Forall2 (fun (raw : pystr) o => eo_build (w_reg h) (tl raw) = Ok o) good os ->
  mul_raws w good h = (Ok tt, mul_ids w (seq (length (w_els h)) (length os)) (with_els (w_els h ++ os) h)).
Proof.
  intros F. destruct (mul_raws w good h) as [x h'] eqn:E.
  apply mul_raws_inv in E as (g & rest & os' & -> & A2 & -> & A4).
  assert (exists o2, os = os' ++ o2 /\ Forall2 (fun (raw : pystr) o => eo_build (w_reg h) (tl raw) = Ok o) rest o2) as (o2 & -> & F2).
  { clear A4. revert os F. induction A2 as [|a b g os' B A IH]; intros os F; [now exists os|].
    cbn in F. inversion F as [|? o ? os2 B2 F2]; subst. rewrite B in B2. injection B2 as <-.
    destruct (IH _ F2) as (o2 & -> & Q). now exists o2. }
  destruct A4 as [(-> & ->)|(raw & r & e & -> & B & ->)].
  - inversion F2; subst. now rewrite app_nil_r.
  - inversion F2; subst. congruence.
Qed.

(** *** The invariant *)
Lemma Forall_upd {A} (P : A -> Prop) i v l : Forall P l -> P v -> Forall P (upd i v l).
Proof. intros F Pv. revert i. induction F; intros [|i]; cbn; auto. Qed.
Lemma inv_ids h w : inv h -> Forall (fun e => e < length (w_els h)) (ids h w).
Proof.
  intros (_ & F). unfold ids. destruct (nth_error (w_words h) w) as [o|] eqn:E; [|constructor].
  apply nth_error_In in E. rewrite Forall_forall in F. now apply F.
Qed.
Lemma inv_grow h os : inv h -> Forall (honest (w_reg h)) os -> inv (with_els (w_els h ++ os) h).
Proof.
  intros (A & B) F. split; cbn; [now apply Forall_app|].
  eapply Forall_impl; [|exact B]. intros o Fo. eapply Forall_impl; [|exact Fo]. cbn. intros e Le. rewrite app_length. lia.
Qed.
Lemma inv_mul h w l : inv h -> Forall (fun e => e < length (w_els h)) l -> inv (mul_ids w l h).
Proof.
  intros (A & B) F. unfold mul_ids. destruct (nth_error (w_words h) w) as [o|] eqn:E; [|now split].
  split; cbn; [exact A|]. apply Forall_upd; [exact B|]. cbn. apply Forall_app. split; [|exact F].
  apply nth_error_In in E. rewrite Forall_forall in B. now apply B.
Qed.
Lemma inv_upd_el h e o : inv h -> honest (w_reg h) o -> inv (with_els (upd e o (w_els h)) h).
Proof.
  intros (A & B) F. split; cbn; [now apply Forall_upd|]. rewrite upd_length. exact B.
Qed.
Lemma inv_upd_word h w o : inv h -> Forall (fun e => e < length (w_els h)) (wo_els o) -> inv (with_words (upd w o (w_words h)) h).
Proof. intros (A & B) F. split; cbn; [exact A|now apply Forall_upd]. Qed.
Lemma inv_new_word h o : inv h -> Forall (fun e => e < length (w_els h)) (wo_els o) -> inv (with_words (w_words h ++ [o]) h).
Proof. intros (A & B) F. split; cbn; [exact A|]. apply Forall_app. auto. Qed.
Lemma built_honest (r : registry) good os :
  Forall2 (fun (raw : pystr) o => eo_build r (tl raw) = Ok o) good os -> Forall (honest r) os.
Proof. induction 1; constructor; eauto using honest_build. Qed.
Lemma inv_raws w raws (h : wheap T) x h' : inv h -> mul_raws w raws h = (x, h') -> inv h'.
Proof.
  intros Hi E. apply mul_raws_inv in E as (good & rest & os & -> & F & -> & _).
  apply inv_mul; [apply inv_grow; [exact Hi|eapply built_honest; eauto]|].
  apply Forall_forall. intros e I. apply in_seq in I. cbn. rewrite app_length. lia.
Qed.
Lemma raws_words w raws (h : wheap T) x h' : mul_raws w raws h = (x, h') ->
  w_reg h' = w_reg h /\ length (w_words h') = length (w_words h)
  /\ (forall v, v <> w -> nth_error (w_words h') v = nth_error (w_words h) v)
  /\ exists os, w_els h' = w_els h ++ os.
Proof.
  intros E. apply mul_raws_inv in E as (good & rest & os & -> & F & -> & _).
  rewrite mul_ids_reg, mul_ids_len, mul_ids_els. cbn. split; [reflexivity|]. split; [reflexivity|]. split; [|eauto].
  intros v Hn. unfold mul_ids. cbn. destruct (nth_error (w_words h) w); [|reflexivity].
  cbn. now apply upd_nth_error_neq, not_eq_sym.
Qed.

Definition wfresh : wobj T := {| wo_els := []; wo_iter := 0; wo_alpha := None |}.
Lemma new_word_case (h : wheap T) s x h' fuel : wexec fuel (WNewWord (Some s)) h = Some (x, h') ->
  exists h2, mul_raws (length (w_words h)) (raws_of s) (with_words (w_words h ++ [wfresh]) h) = (x, h2)
    /\ h' = match x with Ok _ => h2 | Err _ => with_words (w_words h) h2 end.
Proof.
  cbn. fold wfresh. destruct (mul_raws _ _ _) as [[[]|e] h2]; intros [= <- <-]; eauto.
Qed.

Lemma inv_step fuel op h x h' : inv h -> wexec fuel op h = Some (x, h') -> inv h'.
Proof.
  intros Hi E.
  assert (Hel : forall e o, nth_error (w_els h) e = Some o -> honest (w_reg h) o).
  { intros e o Ee. apply nth_error_In in Ee. destruct Hi as (A & _). rewrite Forall_forall in A. auto. }
  assert (Hwo : forall w o, nth_error (w_words h) w = Some o -> Forall (fun e => e < length (w_els h)) (wo_els o)).
  { intros w o Ew. pose proof (inv_ids h w Hi) as F. unfold ids in F. now rewrite Ew in F. }
  destruct op.
  - cbn in E. destruct (reg_get (w_reg h) name); injection E as <- <-; [exact Hi|].
    destruct Hi as (A & B). split; cbn; [|exact B]. eapply Forall_impl; [|exact A]. intros. now apply honest_mono.
  - cbn in E. destruct (eo_build (w_reg h) s) eqn:B; injection E as <- <-; [|exact Hi].
    apply inv_grow; [exact Hi|]. constructor; [eapply honest_build; eauto|constructor].
  - cbn in E. unfold on_el in E. destruct (nth_error (w_els h) e) as [o|] eqn:Ee; [|now injection E as <- <-].
    destruct (eo_append (w_reg h) o name dim) eqn:A; injection E as <- <-; apply inv_upd_el; eauto using honest_append.
  - cbn in E. destruct (nth_error (w_els h) e) as [o|] eqn:Ee; injection E as <- <-; [|exact Hi].
    apply inv_grow; [exact Hi|]. constructor; [|constructor]. apply honest_copy. eauto.
  - destruct s as [s|].
    + apply new_word_case in E as (h2 & E & ->). destruct (raws_words _ _ _ _ _ E) as (_ & _ & _ & os & El). apply inv_raws in E.
      * destruct x; [exact E|]. cbn. split; [apply E|]. destruct Hi as (_ & B).
        cbn. eapply Forall_impl; [|exact B]. intros o Fo. eapply Forall_impl; [|exact Fo]. cbn.
        intros e' Le. rewrite El. cbn. rewrite app_length. lia.
      * apply inv_new_word; [exact Hi|constructor].
    + cbn in E. injection E as <- <-. apply inv_new_word; [exact Hi|constructor].
  - cbn in E. destruct (nth_error (w_words h) w) as [o|] eqn:Ew; [|now injection E as <- <-].
    destruct (nth_error (w_els h) e) as [l|] eqn:Ee; injection E as <- <-; [|exact Hi].
    apply inv_mul; [exact Hi|]. constructor; [|constructor]. apply nth_error_Some. congruence.
  - cbn in E. destruct (nth_error (w_words h) w) as [o|] eqn:Ew; [|now injection E as <- <-].
    destruct (nth_error (w_words h) other) as [o2|] eqn:Eo; [|now injection E as <- <-].
    destruct (mul_loop fuel w other 0 h) as [h2|] eqn:M; [|discriminate]. injection E as <- <-.
    apply mul_loop_some in M as (-> & _); [|apply nth_error_Some; congruence].
    apply inv_mul; [exact Hi|]. cbn. now apply inv_ids.
  - cbn in E. destruct (nth_error (w_words h) w) as [o|] eqn:Ew; [|now injection E as <- <-].
    injection E as E. eapply inv_raws; eauto.
  - cbn in E. unfold on_word in E. destruct (nth_error (w_words h) w) as [o|] eqn:Ew; [|now injection E as <- <-].
    destruct (length a =? length (wo_els o)); injection E as <- <-; apply inv_upd_word; eauto. exact (Hwo _ _ Ew).
  - cbn in E. destruct (nth_error (w_words h) w) as [o|] eqn:Ew; injection E as <- <-; [|exact Hi].
    destruct Hi as (A & B). split; cbn.
    + apply Forall_app. split; [exact A|]. apply Forall_map, Forall_forall. intros e He. apply honest_copy.
      pose proof (Hwo _ _ Ew) as F. rewrite Forall_forall in F. specialize (F _ He).
      apply (Hel e). now apply nth_error_nth'.
    + apply Forall_app. split; [|constructor; [|constructor]].
      * eapply Forall_impl; [|exact B]. intros o' Fo. eapply Forall_impl; [|exact Fo]. cbn. intros e Le. rewrite app_length. lia.
      * cbn. apply Forall_forall. intros e He. apply in_seq in He. rewrite app_length, map_length. lia.
  - cbn in E. unfold on_el in E. destruct (nth_error (w_els h) e) as [o|] eqn:Ee; injection E as <- <-; [|exact Hi].
    apply inv_upd_el; [exact Hi|]. apply honest_iter; eauto.
  - cbn in E. unfold on_el in E. destruct (nth_error (w_els h) e) as [o|] eqn:Ee; [|now injection E as <- <-].
    unfold el_next in E. destruct (eo_iter o <? length (eo_fns o)); injection E as <- <-; apply inv_upd_el; eauto.
    apply honest_iter; eauto.
  - cbn in E. unfold on_word in E. destruct (nth_error (w_words h) w) as [o|] eqn:Ew; injection E as <- <-; [|exact Hi].
    apply inv_upd_word; [exact Hi|]. exact (Hwo _ _ Ew).
  - cbn in E. unfold on_word in E. destruct (nth_error (w_words h) w) as [o|] eqn:Ew; [|now injection E as <- <-].
    unfold word_next in E. destruct (wo_iter o <? length (wo_els o)); injection E as <- <-; apply inv_upd_word; eauto; exact (Hwo _ _ Ew).
Qed.
Lemma whist_inv h : whist h -> inv h.
Proof.
  induction 1; [|eapply inv_step; eauto]. split; constructor.
Qed.

(** *** What one call changes *)
Definition multiplies (op : wop T) (w : nat) : Prop :=
  match op with WMulEl v _ | WMulWord v _ | WMulStr v _ => v = w | _ => False end.
Definition appends (op : wop T) (e : nat) : Prop :=
  match op with WAppend e' _ _ => e' = e | _ => False end.
Definition edata (o : elobj T) := (eo_fns o, eo_dims o, eo_repr o).
Definition el_of (h : wheap T) (e : nat) : elobj T := nth e (w_els h) el_fresh.

Lemma step_els fuel op (h : wheap T) x h' : wexec fuel op h = Some (x, h') ->
  length (w_els h) <= length (w_els h')
  /\ forall e, e < length (w_els h) -> ~ appends op e -> edata (el_of h' e) = edata (el_of h e).
Proof.
  assert (Hgrow : forall h', (exists os, w_els h' = w_els h ++ os) ->
    length (w_els h) <= length (w_els h') /\ forall e, e < length (w_els h) -> ~ appends op e -> edata (el_of h' e) = edata (el_of h e)).
  { intros h1 (os & El). unfold el_of. rewrite El. split; [rewrite app_length; lia|]. intros e Le _. now rewrite app_nth1. }
  assert (Hsame : forall h', w_els h' = w_els h ->
    length (w_els h) <= length (w_els h') /\ forall e, e < length (w_els h) -> ~ appends op e -> edata (el_of h' e) = edata (el_of h e)).
  { intros h1 El. apply Hgrow. exists []. now rewrite app_nil_r. }
  assert (Hupd : forall k o o' , nth_error (w_els h) k = Some o -> (~ appends op k -> edata o' = edata o) ->
    forall h', w_els h' = upd k o' (w_els h) ->
    length (w_els h) <= length (w_els h') /\ forall e, e < length (w_els h) -> ~ appends op e -> edata (el_of h' e) = edata (el_of h e)).
  { intros k o o' Eo Ed h1 El. unfold el_of. rewrite El. split; [now rewrite upd_length|]. intros e Le Na.
    destruct (Nat.eq_dec k e) as [->|Hn].
    - rewrite (nth_error_nth _ _ _ (upd_nth_error_eq e o' _ Le)), (nth_error_nth _ _ _ Eo). auto.
    - f_equal. apply nth_error_nth. rewrite upd_nth_error_neq by exact Hn. now apply nth_error_nth'. }
  intros E. destruct op.
  - cbn in E. destruct (reg_get (w_reg h) name); injection E as <- <-; now apply Hsame.
  - cbn in E. destruct (eo_build (w_reg h) s) eqn:B; injection E as <- <-; [apply Hgrow; cbn; eauto|now apply Hsame].
  - cbn in E. unfold on_el in E. destruct (nth_error (w_els h) e) as [o|] eqn:Ee; [|injection E as <- <-; now apply Hsame].
    destruct (eo_append (w_reg h) o name dim) eqn:A; injection E as <- <-; (eapply (Hupd _ _ _ Ee); [intros N; exfalso; apply N; reflexivity|reflexivity]).
  - cbn in E. destruct (nth_error (w_els h) e) as [o|] eqn:Ee; injection E as <- <-; [apply Hgrow; cbn; eauto|now apply Hsame].
  - destruct s as [s|].
    + apply new_word_case in E as (h2 & E & ->). apply raws_words in E as (_ & _ & _ & os & El).
      apply Hgrow. exists os. destruct x; exact El.
    + cbn in E. injection E as <- <-. now apply Hsame.
  - cbn in E. destruct (nth_error (w_words h) w) as [o|] eqn:Ew; [|injection E as <- <-; now apply Hsame].
    destruct (nth_error (w_els h) e) as [l|] eqn:Ee; injection E as <- <-; apply Hsame; [apply mul_ids_els|reflexivity].
  - cbn in E. destruct (nth_error (w_words h) w) as [o|] eqn:Ew; [|injection E as <- <-; now apply Hsame].
    destruct (nth_error (w_words h) other) as [o2|] eqn:Eo; [|injection E as <- <-; now apply Hsame].
    destruct (mul_loop fuel w other 0 h) as [h2|] eqn:M; [|discriminate]. injection E as <- <-.
    apply mul_loop_some in M as (-> & _); [|apply nth_error_Some; congruence]. apply Hsame, mul_ids_els.
  - cbn in E. destruct (nth_error (w_words h) w) as [o|] eqn:Ew; [|injection E as <- <-; now apply Hsame].
    injection E as E. apply raws_words in E as (_ & _ & _ & os & El). apply Hgrow. eauto.
  - cbn in E. unfold on_word in E. destruct (nth_error (w_words h) w) as [o|] eqn:Ew; [|injection E as <- <-; now apply Hsame].
    destruct (length a =? length (wo_els o)); injection E as <- <-; now apply Hsame.
  - cbn in E. destruct (nth_error (w_words h) w) as [o|] eqn:Ew; injection E as <- <-; [apply Hgrow; cbn; eauto|now apply Hsame].
  - cbn in E. unfold on_el in E. destruct (nth_error (w_els h) e) as [o|] eqn:Ee; injection E as <- <-; [|now apply Hsame].
    (eapply Hupd; [exact Ee| |reflexivity]; reflexivity).
  - cbn in E. unfold on_el in E. destruct (nth_error (w_els h) e) as [o|] eqn:Ee; [|injection E as <- <-; now apply Hsame].
    unfold el_next in E. destruct (eo_iter o <? length (eo_fns o)); injection E as <- <-; (eapply Hupd; [exact Ee| |reflexivity]; reflexivity).
  - cbn in E. unfold on_word in E. destruct (nth_error (w_words h) w) as [o|] eqn:Ew; injection E as <- <-; now apply Hsame.
  - cbn in E. unfold on_word in E. destruct (nth_error (w_words h) w) as [o|] eqn:Ew; [|injection E as <- <-; now apply Hsame].
    unfold word_next in E. destruct (wo_iter o <? length (wo_els o)); injection E as <- <-; now apply Hsame.
Qed.

Lemma step_ids fuel op (h : wheap T) x h' : wexec fuel op h = Some (x, h') ->
  length (w_words h) <= length (w_words h')
  /\ forall v, v < length (w_words h) -> ~ multiplies op v -> ids h' v = ids h v.
Proof.
  assert (Hgrow : forall h', (exists os, w_words h' = w_words h ++ os) ->
    length (w_words h) <= length (w_words h') /\ forall v, v < length (w_words h) -> ~ multiplies op v -> ids h' v = ids h v).
  { intros h1 (os & El). unfold ids. rewrite El. split; [rewrite app_length; lia|]. intros e Le _. now rewrite nth_error_app1. }
  assert (Hsame : forall h', w_words h' = w_words h ->
    length (w_words h) <= length (w_words h') /\ forall v, v < length (w_words h) -> ~ multiplies op v -> ids h' v = ids h v).
  { intros h1 El. apply Hgrow. exists []. now rewrite app_nil_r. }
  assert (Hupd : forall k o o' , nth_error (w_words h) k = Some o -> wo_els o' = wo_els o ->
    forall h', w_words h' = upd k o' (w_words h) ->
    length (w_words h) <= length (w_words h') /\ forall v, v < length (w_words h) -> ~ multiplies op v -> ids h' v = ids h v).
  { intros k o o' Eo Ed h1 El. unfold ids. rewrite El. split; [now rewrite upd_length|]. intros e Le Na.
    destruct (Nat.eq_dec k e) as [->|Hn].
    - now rewrite upd_nth_error_eq, Eo.
    - now rewrite upd_nth_error_neq by exact Hn. }
  assert (Hmul : forall k l, (forall v, v <> k -> multiplies op k) -> 
    length (w_words h) <= length (w_words (mul_ids k l h)) /\ forall v, v < length (w_words h) -> ~ multiplies op v -> ids (mul_ids k l h) v = ids h v).
  { intros k l Hk. rewrite mul_ids_len. split; [lia|]. intros v Lv Nv. apply ids_mul_other. intros <-. apply Nv, (Hk (S k)). lia. }
  intros E. destruct op.
  - cbn in E. destruct (reg_get (w_reg h) name); injection E as <- <-; now apply Hsame.
  - cbn in E. destruct (eo_build (w_reg h) s) eqn:B; injection E as <- <-; now apply Hsame.
  - cbn in E. unfold on_el in E. destruct (nth_error (w_els h) e) as [o|] eqn:Ee; [|injection E as <- <-; now apply Hsame].
    destruct (eo_append (w_reg h) o name dim) eqn:A; injection E as <- <-; now apply Hsame.
  - cbn in E. destruct (nth_error (w_els h) e) as [o|] eqn:Ee; injection E as <- <-; now apply Hsame.
  - destruct s as [s|].
    + apply new_word_case in E as (h2 & E & ->). apply raws_words in E as (_ & L & N & _). cbn in L, N. rewrite app_length in L. cbn in L.
      destruct x; [|now apply Hsame]. split; [lia|]. intros v Lv _. unfold ids. rewrite N by lia. now rewrite nth_error_app1.
    + cbn in E. injection E as <- <-. apply Hgrow. cbn. eauto.
  - cbn in E. destruct (nth_error (w_words h) w) as [o|] eqn:Ew; [|injection E as <- <-; now apply Hsame].
    destruct (nth_error (w_els h) e) as [l|] eqn:Ee; injection E as <- <-; [apply Hmul; reflexivity|now apply Hsame].
  - cbn in E. destruct (nth_error (w_words h) w) as [o|] eqn:Ew; [|injection E as <- <-; now apply Hsame].
    destruct (nth_error (w_words h) other) as [o2|] eqn:Eo; [|injection E as <- <-; now apply Hsame].
    destruct (mul_loop fuel w other 0 h) as [h2|] eqn:M; [|discriminate]. injection E as <- <-.
    apply mul_loop_some in M as (-> & _); [|apply nth_error_Some; congruence]. apply Hmul. reflexivity.
  - cbn in E. destruct (nth_error (w_words h) w) as [o|] eqn:Ew; [|injection E as <- <-; now apply Hsame].
    injection E as E. apply raws_words in E as (_ & L & N & _). split; [lia|]. intros v Lv Nv. unfold ids. rewrite N; [reflexivity|]. intros ->. now apply Nv.
  - cbn in E. unfold on_word in E. destruct (nth_error (w_words h) w) as [o|] eqn:Ew; [|injection E as <- <-; now apply Hsame].
    destruct (length a =? length (wo_els o)); injection E as <- <-; (eapply Hupd; [exact Ew| |reflexivity]; reflexivity).
  - cbn in E. destruct (nth_error (w_words h) w) as [o|] eqn:Ew; injection E as <- <-; [apply Hgrow; cbn; eauto|now apply Hsame].
  - cbn in E. unfold on_el in E. destruct (nth_error (w_els h) e) as [o|] eqn:Ee; injection E as <- <-; now apply Hsame.
  - cbn in E. unfold on_el in E. destruct (nth_error (w_els h) e) as [o|] eqn:Ee; [|injection E as <- <-; now apply Hsame].
    unfold el_next in E. destruct (eo_iter o <? length (eo_fns o)); injection E as <- <-; now apply Hsame.
  - cbn in E. unfold on_word in E. destruct (nth_error (w_words h) w) as [o|] eqn:Ew; injection E as <- <-; [|now apply Hsame].
    (eapply Hupd; [exact Ew| |reflexivity]; reflexivity).
  - cbn in E. unfold on_word in E. destruct (nth_error (w_words h) w) as [o|] eqn:Ew; [|injection E as <- <-; now apply Hsame].
    unfold word_next in E. destruct (wo_iter o <? length (wo_els o)); injection E as <- <-; (eapply Hupd; [exact Ew| |reflexivity]; reflexivity).
Qed.

Lemma step_reg fuel op (h : wheap T) x h' : wexec fuel op h = Some (x, h') ->
  w_reg h' = w_reg h \/ exists n f, op = WLetter n f /\ x = Ok tt /\ reg_get (w_reg h) n = None /\ w_reg h' = w_reg h ++ [(n, f)].
Proof.
  intros E. destruct op; cbn in E; unfold on_el, on_word in E.
  1: destruct (reg_get (w_reg h) name) eqn:G; injection E as <- <-; [now left|right; eauto 10].
  4: { left. destruct s as [s|]; [|now injection E as <- <-].
       change (wexec fuel (WNewWord (Some s)) h = Some (x, h')) in E.
       apply new_word_case in E as (h2 & E & ->). apply raws_words in E as (R & _). destruct x; exact R. }
  all: left; repeat match goal with
    | Q : context [match ?t with _ => _ end] |- _ => lazymatch t with mul_raws _ _ _ => fail | _ => destruct t eqn:? end
    | Q : Some _ = Some _ |- _ => injection Q as <- <- || injection Q as Q
    | Q : option_map _ ?t = Some _ |- _ => destruct t eqn:?; cbn in Q; [|discriminate]
    | Q : None = Some _ |- _ => discriminate
    end; cbn; try reflexivity; try apply mul_ids_reg.
  - match goal with Q : mul_loop _ _ _ _ _ = _ |- _ => apply mul_loop_some in Q as (-> & _); [apply mul_ids_reg|apply nth_error_Some; congruence] end.
  - now apply raws_words in E.
Qed.
End WordObj.
