(** Property C71: [for slc in fruit]. *)
From Coq Require Import Ascii String List Arith ZArith Bool Lia.
From Verif Require Import Num Arr M_Str M_Words M_Np M_Prep M_Fruit M_FruitIter S_Fruit L_Arr L_Fruit L_Fruit2 L_Fruit3 L_Fruit4 L_Fruit5 T_Run.
Import ListNotations.

Section C71.
Context {T : Type} `{Num T}.
Variable K : kit T.
Variable W : lawful K.
Notation ist := (ist K). Notation prog := (prog K).

(** The slices of a fruit, and a fruit that is not touched: same slices, same
    position. *)
Definition slices_of (s : ist) (f : nat) : option (list nat) := option_map f_slices (nth_error (h_fr K (i_heap K s)) f).
Definition good (s : ist) : Prop := wf K (i_heap K s).
Definition keeps (f : nat) (p : prog) : Prop :=
  forall s L, good s -> slices_of s f = Some L -> L <> [] ->
  good (snd (p s)) /\ slices_of (snd (p s)) f = Some L /\ i_pos K (snd (p s)) f = i_pos K s f.

Lemma next_more s f L i : slices_of s f = Some L -> i_pos K s f = i -> i < length L ->
  exists sl, nth_error L i = Some sl /\ fruit_next K f s = (Ok sl, set_pos K f (S i) s).
Proof.
  intros E Ei Li. unfold slices_of in E. unfold fruit_next. destruct (nth_error _ f) as [x|]; [|discriminate]. injection E as E. rewrite E, Ei.
  rewrite (proj2 (Nat.ltb_lt _ _) Li). destruct (nth_error L i) as [sl|] eqn:Q; [eauto|apply nth_error_None in Q; lia].
Qed.
Lemma next_end s f L : slices_of s f = Some L -> length L <= i_pos K s f -> fruit_next K f s = (Err StopIteration, s).
Proof.
  intros E Li. unfold slices_of in E. unfold fruit_next. destruct (nth_error _ f) as [x|]; [|discriminate]. injection E as E. rewrite E.
  destruct (Nat.ltb_spec (i_pos K s f) (length L)); [lia|reflexivity].
Qed.
Lemma skipn_cons {A} i (l : list A) x : nth_error l i = Some x -> skipn i l = x :: skipn (S i) l.
Proof. revert i. induction l as [|a l IH]; intros [|i] E; cbn in *; try discriminate; [congruence|now apply IH]. Qed.
Lemma set_pos_same s f n : i_pos K (set_pos K f n s) f = n.
Proof. cbn. now rewrite Nat.eqb_refl. Qed.

Lemma rounds_all f body L : (forall sl, keeps f (body sl)) -> forall n s, good s -> slices_of s f = Some L -> i_pos K s f <= length L -> length L < n + i_pos K s f ->
  exists seen r s', rounds K f body n s = Some (seen, r, s') /\ good s' /\ slices_of s' f = Some L /\
    (r = Ok tt -> seen = skipn (i_pos K s f) L /\ i_pos K s' f = length L) /\
    (forall e, r = Err e -> exists k sl s0, (k < length (skipn (i_pos K s f) L))%nat /\ seen = firstn (S k) (skipn (i_pos K s f) L) /\
        nth_error (skipn (i_pos K s f) L) k = Some sl /\ body sl s0 = (Err e, s')).
Proof.
  intros Hb n. induction n as [|n IH]; intros s G E Li Ln; [cbn in Ln; lia|]. cbn [rounds].
  destruct (Nat.lt_ge_cases (i_pos K s f) (length L)) as [C|C].
  - destruct (next_more s f L _ E eq_refl C) as (sl & Q & ->). set (s1 := set_pos K f (S (i_pos K s f)) s).
    assert (G1 : good s1) by exact G. assert (E1 : slices_of s1 f = Some L) by exact E.
    assert (Ne : L <> []) by (intros ->; cbn in C; lia).
    destruct (Hb sl s1 L G1 E1 Ne) as (G2 & E2 & P2). rewrite (skipn_cons _ _ _ Q).
    destruct (body sl s1) as [[[]|e] s2] eqn:B; cbn [snd] in *.
    + unfold s1 in P2. rewrite set_pos_same in P2.
      destruct (IH s2 G2 E2) as (seen & r & s' & R & G' & E' & Hok & Herr); [lia|lia|]. rewrite R.
      exists (sl :: seen), r, s'. split; [reflexivity|]. split; [exact G'|]. split; [exact E'|]. rewrite P2 in *. split.
      * intros Er. destruct (Hok Er) as (-> & Hp). auto.
      * intros e Er. destruct (Herr e Er) as (k & sl' & s0 & Lk & -> & Nk & Bk). exists (S k), sl', s0. cbn [length firstn nth_error]. split; [lia|]. auto.
    + exists [sl], (Err e), s2. split; [reflexivity|]. split; [exact G2|]. split; [exact E2|]. split; [discriminate|].
      intros e' Ee. injection Ee as <-. exists 0, sl, s1. cbn [length firstn nth_error]. split; [lia|]. auto.
  - rewrite (next_end s f L E C). exists [], (Ok tt), s. split; [reflexivity|]. split; [exact G|]. split; [exact E|]. split.
    + intros _. split; [symmetry; apply skipn_all2; lia|lia].
    + discriminate.
Qed.

(** A loop whose body leaves the fruit alone terminates whatever iterations
    were started or abandoned before.  If no round raises it has seen every
    slice once, in order; if a round raises, the loop ends there with that
    exception. *)
Theorem C71_loop_sees_all : forall s f L body n, good s -> slices_of s f = Some L -> (forall sl, keeps f (body sl)) -> length L < n ->
  exists seen r s', for_loop K f body n s = Some (seen, r, s') /\ slices_of s' f = Some L /\
    (r = Ok tt -> seen = L) /\
    (forall e, r = Err e -> exists k sl s0, k < length L /\ seen = firstn (S k) L /\ nth_error L k = Some sl /\ body sl s0 = (Err e, s')).
Proof.
  intros s f L body n G E Hb Ln. unfold for_loop.
  destruct (rounds_all f body L Hb n (fruit_iter K f s) G E) as (seen & r & s' & R & _ & E' & Hok & Herr).
  - unfold fruit_iter. rewrite set_pos_same. lia.
  - unfold fruit_iter. rewrite set_pos_same. lia.
  - unfold fruit_iter in Hok, Herr. rewrite set_pos_same in Hok, Herr. cbn [skipn] in *.
    exists seen, r, s'. split; [exact R|]. split; [exact E'|]. split; [|exact Herr]. intros Er. now destruct (Hok Er).
Qed.
(** The k-th slice of the loop is fruit[k]; fruit[-1] is the last one; outside
    of -len .. len-1 IndexError. *)
Theorem C71_getitem : forall s f L z, slices_of s f = Some L ->
  fst (fruit_getitem K f z (i_heap K s)) =
    (let i := if (z <? 0)%Z then (z + Z.of_nat (length L))%Z else z in
     if (0 <=? i)%Z then match nth_error L (Z.to_nat i) with Some sl => Ok sl | None => Err IndexError end else Err IndexError).
Proof.
  intros s f L z E. unfold slices_of in E. unfold fruit_getitem, fruit_get_slice, bindM, look.
  destruct (nth_error (h_fr K (i_heap K s)) f) as [x|]; [|discriminate]. injection E as E. rewrite E.
  unfold liftR, py_index. destruct (Z.ltb_spec z 0) as [Hz|Hz]; cbn zeta.
  - rewrite (Z.add_comm z). destruct (Z.leb_spec 0 (Z.of_nat (length L) + z)); [|reflexivity].
    destruct (nth_error L _); reflexivity.
  - rewrite (proj2 (Z.leb_le 0 z) Hz). destruct (Z.ltb_spec z (Z.of_nat (length L))) as [Hl|Hl].
    + destruct (nth_error L _); reflexivity.
    + rewrite (proj2 (nth_error_None L (Z.to_nat z))) by lia. reflexivity.
Qed.

(** What leaves a fruit alone: every API call except cut and copycut on that
    very fruit - fits, transforms, copies, switch_slice, all calls on slices and
    seeds, [add] -, programs made of such calls, and loops over other fruits. *)
Lemma keeps_slices f (o : op K) : (forall sl, o <> FCut K f sl) -> o <> FCopycut K f -> keeps f (call K o).
Proof.
  intros N1 N2 s L G E Ne. unfold call. destruct (exec K o (i_heap K s)) as [r h] eqn:Q. cbn [snd i_heap i_pos].
  pose proof (exec_opR K W (i_heap K s) o G) as (Wf & _ & _ & Ll & _ & R). rewrite Q in *. cbn [snd] in *.
  split; [exact Wf|]. split; [|reflexivity]. unfold slices_of in *. cbn [i_heap].
  destruct (nth_error (h_fr K (i_heap K s)) f) as [x|] eqn:Ex; [|discriminate]. cbn in E. injection E as E.
  destruct (nth_error (h_fr K h) f) as [x'|] eqn:Ex'; [|apply nth_error_None in Ex'; apply nth_lt in Ex; lia].
  specialize (R f x' Ex'). rewrite Ex in R. cbn. destruct R as [(C & _)|(C & _)]; [|congruence].
  f_equal. rewrite <- E.
  assert (exists objects, o = FAdd K f objects) as (objects & ->).
  { destruct o; cbn in C; try contradiction; try discriminate C; subst; try (exfalso; now apply (N1 sl)); try (exfalso; now apply N2); eauto. }
  clear - Q Ex Ex' E Ne. cbn [exec] in Q. unfold fruit_add, bindM, look in Q. rewrite Ex in Q.
  destruct (f_slices x) as [|a l] eqn:El; [congruence|]. cbn [nonempty] in Q. unfold ret in Q.
  destruct (fruit_get_slice K f None (i_heap K s)) as [[sl|e] h1] eqn:Eg.
  - pose proof (get_slice_same K _ _ _ _ _ Eg) as ->. pose proof (tR_slice_add K (fun _ => True) (fun _ => False) sl objects Logic.I (i_heap K s)) as (_ & _ & _ & _ & _ & R).
    destruct (slice_add K sl objects (i_heap K s)) as [[[]|e] h2] eqn:Ea; cbn [snd] in R.
    + unfold upd_fr, bindM, look in Q. destruct (nth_error (h_fr K h2) f) as [x2|] eqn:E2.
      * unfold set_fr in Q. injection Q as <- <-. cbn [h_fr] in Ex'. rewrite upd_nth_error_eq in Ex' by (eapply nth_lt; exact E2). injection Ex' as <-.
        specialize (R f x2 E2). rewrite Ex in R. cbn. destruct R as [([] & _)|(R & _)]. congruence.
      * injection Q as <- <-. congruence.
    + injection Q as <- <-. specialize (R f x' Ex'). rewrite Ex in R. destruct R as [([] & _)|(R & _)]. congruence.
  - unfold fruit_get_slice, bindM, look in Eg. rewrite Ex in Eg. destruct (nth_error (f_slices x) (f_idx x)); unfold ret, raise in Eg; [discriminate|].
    injection Eg as <- <-. injection Q as <- <-. congruence.
Qed.
Theorem C71_calls_leave_it_alone : forall f,
  keeps f (skip K) /\
  (forall a b, keeps f a -> keeps f b -> keeps f (andthen K a b)) /\
  (forall o : op K, (forall sl, o <> FCut K f sl) -> o <> FCopycut K f -> keeps f (call K o)) /\
  (forall g body n s0, g <> f -> (forall sl, keeps f (body sl)) ->
     keeps f (fun s => match for_loop K g body n s with Some (_, r, s') => (r, s') | None => (Err s0, s) end)).
Proof.
  intros f. split; [|split; [|split]].
  - intros s L G E Ne. auto.
  - intros a b Ha Hb s L G E Ne. unfold andthen. destruct (Ha s L G E Ne) as (G1 & E1 & P1).
    destruct (a s) as [[[]|e] s1]; cbn [snd] in *; [|auto]. destruct (Hb s1 L G1 E1 Ne) as (G2 & E2 & P2). split; [exact G2|]. split; [exact E2|]. congruence.
  - exact (keeps_slices f).
  - intros g body n s0 Hg Hb s L G E Ne. unfold for_loop.
    assert (St : forall n s, good s -> slices_of s f = Some L -> forall l r s', rounds K g body n s = Some (l, r, s') ->
              good s' /\ slices_of s' f = Some L /\ i_pos K s' f = i_pos K s f).
    { clear - Hg Hb Ne. intros n. induction n as [|n IH]; intros s G E l r s' R; [discriminate|]. cbn [rounds] in R.
      assert (N : good (snd (fruit_next K g s)) /\ slices_of (snd (fruit_next K g s)) f = Some L /\ i_pos K (snd (fruit_next K g s)) f = i_pos K s f).
      { unfold fruit_next. destruct (nth_error _ g) as [x|]; [|auto]. destruct (_ <? _); cbn [snd]; [|auto].
        split; [exact G|]. split; [exact E|]. cbn. destruct (Nat.eqb_spec f g); [congruence|reflexivity]. }
      destruct (fruit_next K g s) as [[sl|e] s1]; cbn [snd] in N; destruct N as (G1 & E1 & P1).
      - destruct (Hb sl s1 L G1 E1 Ne) as (G2 & E2 & P2). destruct (body sl s1) as [[[]|e] s2]; cbn [snd] in *.
        + destruct (rounds K g body n s2) as [[[l2 r2] s3]|] eqn:R2; [|discriminate]. injection R as <- <- <-.
          destruct (IH s2 G2 E2 _ _ _ R2) as (G3 & E3 & P3). split; [exact G3|]. split; [exact E3|]. congruence.
        + injection R as <- <- <-. split; [exact G2|]. split; [exact E2|]. congruence.
      - destruct e; injection R as <- <- <-; split; [exact G1|split; [exact E1|exact P1]|exact G1|split; [exact E1|exact P1]|exact G1|split; [exact E1|exact P1]|exact G1|split; [exact E1|exact P1]|exact G1|split; [exact E1|exact P1]|exact G1|split; [exact E1|exact P1]|exact G1|split; [exact E1|exact P1]|exact G1|split; [exact E1|exact P1]|exact G1|split; [exact E1|exact P1]]. }
    assert (P0 : i_pos K (fruit_iter K g s) f = i_pos K s f) by (cbn; destruct (Nat.eqb_spec f g); [congruence|reflexivity]).
    destruct (rounds K g body n (fruit_iter K g s)) as [[[l r] s']|] eqn:R; cbn [snd]; [|auto].
    destruct (St n (fruit_iter K g s) G E l r s' R) as (G' & E' & P'). split; [exact G'|]. split; [exact E'|]. congruence.
Qed.

(** A loop over the same fruit inside the body that runs to its end also ends
    the outer loop, after its first round. *)
Theorem C71_nested_loops_stop : forall s f sl L body n k, good s -> slices_of s f = Some (sl :: L) -> (forall sl, keeps f (body sl)) ->
  (forall sl s, fst (body sl s) = Ok tt) -> length (sl :: L) < k ->
  exists s', for_loop K f (fun _ s => match for_loop K f body k s with Some (_, r, s') => (r, s') | None => (Err RuntimeError, s) end) (S (S n)) s
             = Some ([sl], Ok tt, s').
Proof.
  intros s f sl L body n k G E Hb Hr Lk. unfold for_loop at 1. cbn [rounds].
  destruct (next_more (fruit_iter K f s) f (sl :: L) 0 E) as (sl' & Q & ->); [unfold fruit_iter; apply set_pos_same|cbn; lia|].
  cbn in Q. injection Q as <-. set (s1 := set_pos K f 1 (fruit_iter K f s)). unfold for_loop.
  destruct (rounds_all f body (sl :: L) Hb k (fruit_iter K f s1)) as (seen & r & s' & R & G' & E' & Hok & Herr); [exact G|exact E| | |].
  - unfold fruit_iter. rewrite set_pos_same. lia.
  - unfold fruit_iter. rewrite set_pos_same. lia.
  - rewrite R. destruct r as [[]|e].
    + destruct (Hok eq_refl) as (_ & Hp). rewrite (next_end s' f (sl :: L) E') by lia. eauto.
    + exfalso. destruct (Herr e eq_refl) as (k' & sl' & s0 & _ & _ & _ & B). specialize (Hr sl' s0). rewrite B in Hr. discriminate.
Qed.
(** A loop over a fruit with a slice that cuts the fruit in every round never
    ends. *)
Theorem C71_growing_loop : forall s f L (body : nat -> prog) n, good s -> slices_of s f = Some L -> L <> [] ->
  (forall sl s M, good s -> slices_of s f = Some M -> exists s' M' x, body sl s = (Ok tt, s') /\ good s' /\ slices_of s' f = Some (M ++ x :: M') /\ i_pos K s' f = i_pos K s f) ->
  for_loop K f body n s = None.
Proof.
  intros s f L body n G E Ne Hb. unfold for_loop.
  enough (St : forall n s L, good s -> slices_of s f = Some L -> i_pos K s f < length L -> rounds K f body n s = None).
  { apply (St n (fruit_iter K f s) L G E). unfold fruit_iter. rewrite set_pos_same. destruct L; [congruence|cbn; lia]. }
  clear - Hb. intros n. induction n as [|n IH]; intros s L G E Lp; [reflexivity|]. cbn [rounds].
  destruct (next_more s f L _ E eq_refl Lp) as (sl & _ & ->).
  destruct (Hb sl (set_pos K f (S (i_pos K s f)) s) L G E) as (s' & M' & x & B & G' & E' & P'). rewrite B.
  rewrite (IH s' _ G' E'); [reflexivity|]. rewrite P', set_pos_same, app_length. cbn. lia.
Qed.
Lemma good_init (h : heap K) p : reachable K h -> good {| i_heap := h; i_pos := p |}.
Proof. intros R. apply (reachable_wf K W). exact R. Qed.
Theorem C71_cut_in_loop : forall s f L n, good s -> slices_of s f = Some L -> L <> [] ->
  for_loop K f (fun _ => call K (FCut K f None)) n s = None.
Proof.
  intros s f L n G E Ne. apply (C71_growing_loop s f L); auto. clear - W. intros sl s M G E.
  destruct (exec_opR K W (i_heap K s) (FCut K f None) G) as (Wf & _). cbn [exec] in Wf. unfold call. cbn [exec].
  unfold fruit_cut in *. unfold bindM at 1 in Wf. unfold bindM at 1. unfold new_sl in *. unfold upd_fr, bindM, look in *. cbn [h_fr] in *.
  unfold slices_of in E. destruct (nth_error (h_fr K (i_heap K s)) f) as [x|] eqn:Ex; [|discriminate]. cbn in E. injection E as E.
  unfold set_fr in *. cbn [snd] in Wf. eexists _, [], _. split; [reflexivity|]. split; [exact Wf|]. split; [|reflexivity].
  unfold slices_of. cbn [i_heap h_fr]. rewrite upd_nth_error_eq by (eapply nth_lt; exact Ex). cbn. now rewrite E.
Qed.
End C71.
Print Assumptions C71_loop_sees_all.
Print Assumptions C71_getitem.
Print Assumptions C71_calls_leave_it_alone.
Print Assumptions C71_nested_loops_stop.
Print Assumptions C71_growing_loop.
Print Assumptions C71_cut_in_loop.

(** A concrete run: a fruit with two slices after some abandoned iteration. *)
From Coq Require Import QArith.
Open Scope nat_scope.
Definition h71 (K : kit Q) (g : rng K) : heap K :=
  run K (heap0 K g) [ONewFruit K (str "f"); FCut K 0 None; FCut K 0 None; ONewFruit K (str "g")].
Example C71_ex (g : rng qlib) :
  let s := {| i_heap := h71 qlib g; i_pos := fun _ => 1 |} in
  reachable qlib (h71 qlib g) /\ slices_of qlib s 0 = Some [0; 1] /\
  option_map (fun x => fst x) (for_loop qlib 0 (fun sl => call qlib (FSwitch qlib 0 (Z.of_nat sl))) 5 s) = Some ([0; 1], Ok tt) /\
  option_map (fun x => fst x) (for_loop qlib 0 (fun sl => call qlib (FSwitch qlib 0 7)) 5 s) = Some ([0], Err IndexError) /\
  option_map (fun x => fst x) (for_loop qlib 0 (fun _ s => match for_loop qlib 0 (fun _ => skip qlib) 9 s with Some (_, r, s') => (r, s') | None => (Err RuntimeError, s) end) 5 s) = Some ([0], Ok tt) /\
  for_loop qlib 0 (fun _ => call qlib (FCut qlib 0 None)) 5 s = None.
Proof.
  intros s. split; [now exists g, [ONewFruit qlib (str "f"); FCut qlib 0 None; FCut qlib 0 None; ONewFruit qlib (str "g")]|].
  repeat split; reflexivity.
Qed.
