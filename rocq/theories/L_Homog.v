(** C59 at the API; order of letters in general words. *)
From Coq Require Import Ascii String List Arith ZArith Bool Lia Reals Lra Permutation.
From Verif Require Import S_Shuffle Num Arr L_Arr S_ISS S_Plan S_Words M_Str M_Semiring M_Words M_ISS
  L_Tuples L_Reals L_Words L_Gen L_Rows L_ISS L_Single L_Ext L_Word2 L_General L_Algebra.
Import ListNotations.
Local Open Scope R_scope.

Lemma nth_grid {A} (F : A -> nat -> R) n (X : list A) d i t : (i < length X)%nat -> (t < n)%nat ->
  nth t (nth i (map (fun x => map (F x) (seq 0 n)) X) []) 0 = F (nth i X d) t.
Proof.
  intros Hi Ht. rewrite (nth_indep _ _ ((fun x => map (F x) (seq 0 n)) d)) by (now rewrite map_length).
  rewrite (map_nth (fun x => map (F x) (seq 0 n))).
  rewrite (nth_indep _ _ (F (nth i X d) 0%nat)) by (now rewrite map_length, seq_length).
  rewrite (map_nth (F (nth i X d))). now rewrite seq_nth.
Qed.

Lemma scale_dim_length d k X : length (scale_dim d k X) = length X.
Proof. apply upd_length. Qed.
Lemma Forall_upd {A} (P : A -> Prop) i v l : Forall P l -> ((i < length l)%nat -> P v) -> Forall P (upd i v l).
Proof.
  revert i. induction l as [|x l IH]; intros [|i] Hl Hv; cbn; auto; inversion Hl; subst; constructor; auto.
  - apply Hv. cbn. lia.
  - apply IH; auto. intros. apply Hv. cbn. lia.
Qed.
Lemma scale_dim_wf d k X n : wf_series X n -> wf_series (scale_dim d k X) n.
Proof.
  intros [Hne HF]. split.
  - intros E. apply Hne. apply length_zero_iff_nil. rewrite <- (scale_dim_length d k), E. reflexivity.
  - apply Forall_upd; [assumption|]. intros Hd. rewrite map_length. rewrite Forall_forall in HF. apply HF. now apply nth_In.
Qed.
Lemma scale_dim_ok d k X n w : k <> 0 -> letters_in (length X) w /\ nonzero_where_neg X n w ->
  letters_in (length (scale_dim d k X)) w /\ nonzero_where_neg (scale_dim d k X) n w.
Proof.
  intros Hk [H1 H2]. rewrite scale_dim_length. split; [assumption|]. eapply Forall_impl; [|exact H2]. cbn. intros e He j i Hj Hn Hi.
  rewrite at_scale. specialize (He j i Hj Hn Hi). destruct (j =? d)%nat; [|assumption]. now apply Rmult_integral_contrapositive_currified.
Qed.

Lemma reals_scaling (c : iss_cfg R) (words : list (sword R)) X n d k :
  is_words c = map simple_iword words -> is_mode c = SINGLE -> is_sr c = Reals -> is_wt c = None ->
  words <> [] -> wf_dataset X n -> k <> 0 ->
  Forall (fun w => sw_exts w <> [] /\
      Forall (fun x => letters_in (length x) (sw_exts w) /\ nonzero_where_neg x n (sw_exts w)) X) words ->
  exists rows rows', iss_transform c X = Ok rows /\ iss_transform c (map (scale_dim d k) X) = Ok rows' /\
    forall r w i t, nth_error words r = Some w -> (i < length X)%nat -> (t < n)%nat ->
      nth t (nth i (nth r rows' []) []) 0
      = powerRZ k (total_exponent d (sw_exts w)) * nth t (nth i (nth r rows []) []) 0.
Proof.
  intros Ew Hm Hs Hwt Hne HX Hk HW.
  rewrite (reals_api c words X n) by assumption. rewrite (reals_api c words (map (scale_dim d k) X) n); try assumption.
  - eexists _, _. split; [reflexivity|]. split; [reflexivity|]. intros r w i t Hr Hi Ht.
    rewrite !(nth_error_nth_ (map _ words) r _ [] (map_nth_error _ _ _ Hr)).
    rewrite (nth_grid (fun x => iss x (sw_exts w)) n (map (scale_dim d k) X) [] i t) by (rewrite ?map_length; assumption).
    rewrite (nth_grid (fun x => iss x (sw_exts w)) n X [] i t) by assumption.
    rewrite (nth_indep _ _ (scale_dim d k [])) by (now rewrite map_length). rewrite map_nth. now apply iss_scale.
  - apply Forall_map. eapply Forall_impl; [|exact HX]. intros x Hx. now apply scale_dim_wf.
  - eapply Forall_impl; [|exact HW]. intros w [H1 H2]. split; [assumption|]. apply Forall_map.
    eapply Forall_impl; [|exact H2]. intros x Hx. now apply scale_dim_ok.
Qed.

Lemma negated_ne w : w <> [] -> negated w <> [].
Proof. destruct w; cbn; congruence. Qed.
Lemma Forall_congr_ {A} (P Q : A -> Prop) l : (forall x, P x <-> Q x) -> (Forall P l <-> Forall Q l).
Proof. intros E. rewrite !Forall_forall. firstorder. Qed.
Lemma negated_letters D w : letters_in D (negated w) <-> letters_in D w.
Proof.
  unfold letters_in, negated. rewrite Forall_map. apply Forall_congr_. intros e. rewrite map_length.
  assert (N : forall j, nth j (map Z.opp e) 0%Z = (- nth j e 0)%Z) by (intros j; change 0%Z with (- 0)%Z at 1; apply map_nth).
  split; intros H j Hj Hn; apply (H j Hj); [rewrite N in *; lia|]. rewrite N in Hn. lia.
Qed.

(** Words with negated exponents on [X] = the words on the inverted data. *)
Lemma reals_inversion (c c' : iss_cfg R) (words words' : list (sword R)) X n :
  is_words c = map simple_iword words -> is_mode c = SINGLE -> is_sr c = Reals -> is_wt c = None ->
  is_words c' = map simple_iword words' -> is_mode c' = SINGLE -> is_sr c' = Reals -> is_wt c' = None ->
  map (@sw_exts R) words' = map (fun w => negated (sw_exts w)) words ->
  words <> [] -> wf_dataset X n -> Forall (Forall (Forall (fun v => v <> 0))) X ->
  Forall (fun w => sw_exts w <> [] /\ Forall (fun x => letters_in (length x) (sw_exts w)) X) words ->
  iss_transform c' X = iss_transform c (map invert X).
Proof.
  intros Ew Hm Hs Hwt Ew' Hm' Hs' Hwt' Eneg Hne HX Hnz HW.
  assert (Hat : forall x d i, In x X -> (d < length x)%nat -> (i < n)%nat -> at_ x d i <> 0).
  { intros x d i Hx Hd Hi. unfold wf_dataset in HX. rewrite Forall_forall in Hnz, HX. specialize (Hnz x Hx). rewrite Forall_forall in Hnz.
    specialize (Hnz (nth d x []) (nth_In _ _ Hd)). rewrite Forall_forall in Hnz. apply Hnz. apply nth_In.
    destruct (HX x Hx) as [_ HF]. rewrite Forall_forall in HF. rewrite (HF _ (nth_In _ _ Hd)). assumption. }
  assert (Hin : forall w', In w' words' -> exists w, In w words /\ sw_exts w' = negated (sw_exts w)).
  { intros w' Hw'. assert (Hi : In (sw_exts w') (map (@sw_exts R) words')) by now apply in_map.
    rewrite Eneg in Hi. apply in_map_iff in Hi. destruct Hi as (w & E & Hw). eauto. }
  rewrite Forall_forall in HW.
  rewrite (reals_api c' words' X n); try assumption.
  - rewrite (reals_api c words (map invert X) n); try assumption.
    + f_equal. rewrite <- (map_map (@sw_exts R) (fun e => map (fun x => map (iss x e) (seq 0 n)) X) words').
      rewrite Eneg, map_map. apply map_ext. intros w. rewrite map_map. apply map_ext. intros x. apply map_ext. intros t. apply iss_negated.
    + apply Forall_map. eapply Forall_impl; [|exact HX]. intros x [Hx1 Hx2]. split.
      * unfold invert. destruct x; [congruence|discriminate].
      * unfold invert. apply Forall_map. eapply Forall_impl; [|exact Hx2]. intros y Hy. now rewrite map_length.
    + apply Forall_forall. intros w Hw. destruct (HW w Hw) as [H1 H2]. split; [assumption|]. apply Forall_map. rewrite Forall_forall in H2.
      apply Forall_forall. intros x Hx. specialize (H2 x Hx). assert (El : length (invert x) = length x) by apply map_length. rewrite El. split; [assumption|].
      unfold letters_in in H2. eapply Forall_impl; [|exact H2]. cbn. intros e He j i Hj Hn Hi. rewrite at_invert.
      apply Rinv_neq_0_compat. apply Hat; auto. apply He; [assumption|]. lia.
  - intros E. rewrite E in Eneg. destruct words; [congruence|discriminate].
  - apply Forall_forall. intros w' Hw'. destruct (Hin w' Hw') as (w & Hw & E). rewrite E. destruct (HW w Hw) as [H1 H2].
    split; [now apply negated_ne|]. rewrite Forall_forall in H2. apply Forall_forall. intros x Hx. specialize (H2 x Hx).
    apply negated_letters in H2. split; [assumption|]. unfold letters_in in H2. eapply Forall_impl; [|exact H2]. cbn.
    intros e He j i Hj Hn Hi. apply Hat; auto. apply He; [assumption|lia].
Qed.

Lemma scale_all_wf k X n : wf_series X n -> wf_series (scale_all k X) n.
Proof.
  intros [H1 H2]. split; [unfold scale_all; destruct X; [congruence|discriminate]|].
  unfold scale_all. apply Forall_map. eapply Forall_impl; [|exact H2]. intros y Hy. now rewrite map_length.
Qed.
Lemma is_max_scale P v m k : 0 < k -> is_max P v m -> is_max P (fun tau => k * v tau) (k * m).
Proof.
  intros Hk [(tau & Ht & E) Hu]. split; [exists tau; split; [assumption|now rewrite E]|].
  intros s Hs. apply Rmult_le_compat_l; [lra|]. now apply Hu.
Qed.
Lemma is_max_congr P v v' m : (forall tau, v tau = v' tau) -> is_max P v m -> is_max P v' m.
Proof. intros E [(tau & Ht & <-) Hu]. split; [exists tau; split; auto|]. intros s Hs. rewrite <- E. auto. Qed.

Lemma arctic_scaling (c : iss_cfg R) (words : list (sword R)) X n k :
  is_words c = map simple_iword words -> is_mode c = SINGLE -> is_sr c = Arctic false -> is_wt c = None ->
  words <> [] -> wf_dataset X n -> 0 < k ->
  Forall (fun w => sw_exts w <> [] /\ Forall (fun x => tables_in (length x) (sw_exts w)) X) words ->
  exists rows rows', iss_transform c X = Ok rows /\ iss_transform c (map (scale_all k) X) = Ok rows' /\
    length rows = length words /\ length rows' = length words /\
    forall r i t, (r < length words)%nat -> (i < length X)%nat -> (t < n)%nat ->
      nth t (nth i (nth r rows' []) []) 0 = k * nth t (nth i (nth r rows []) []) 0.
Proof.
  intros Ew Hm Hs Hwt Hne HX Hk HW.
  destruct (arctic_api c words X n) as (rows & E & L & _ & V); auto; [now rewrite Hwt|].
  destruct (arctic_api c words (map (scale_all k) X) n) as (rows' & E' & L' & _ & V'); auto.
  - apply Forall_map. eapply Forall_impl; [|exact HX]. intros. now apply scale_all_wf.
  - now rewrite Hwt.
  - eapply Forall_impl; [|exact HW]. intros w [H1 H2]. split; [assumption|]. apply Forall_map. eapply Forall_impl; [|exact H2].
    intros x Hx. assert (El : length (scale_all k x) = length x) by apply map_length. now rewrite El.
  - exists rows, rows'. repeat split; auto. intros r i t Hr Hi Ht.
    destruct (nth_error words r) as [w|] eqn:Ewr; [|apply nth_error_None in Ewr; lia].
    destruct (nth_error X i) as [x|] eqn:Ex; [|apply nth_error_None in Ex; lia].
    specialize (V r i t w x Ewr Ex Ht). specialize (V' r i t w (scale_all k x) Ewr (map_nth_error _ _ _ Ex) Ht).
    rewrite Hwt in V, V'. cbn [wexp] in V, V'.
    eapply is_max_unique; [exact V'|]. apply (is_max_scale _ _ _ k Hk) in V. eapply is_max_congr; [|exact V].
    intros tau. cbn. rewrite word_val_plus_scale. ring.
Qed.
Lemma arctic_negation (c c' : iss_cfg R) (words words' : list (sword R)) X n :
  is_words c = map simple_iword words -> is_mode c = SINGLE -> is_sr c = Arctic false -> is_wt c = None ->
  is_words c' = map simple_iword words' -> is_mode c' = SINGLE -> is_sr c' = Arctic false -> is_wt c' = None ->
  map (@sw_exts R) words' = map (fun w => negated (sw_exts w)) words ->
  words <> [] -> wf_dataset X n ->
  Forall (fun w => sw_exts w <> [] /\ Forall (fun x => tables_in (length x) (sw_exts w)) X) words ->
  iss_transform c' X = iss_transform c (map (scale_all (-1)) X).
Proof.
  intros Ew Hm Hs Hwt Ew' Hm' Hs' Hwt' Eneg Hne HX HW.
  assert (Hlen : length words' = length words) by (rewrite <- (map_length (@sw_exts R) words'), Eneg; apply map_length).
  assert (Hpt : forall r w', nth_error words' r = Some w' -> exists w, nth_error words r = Some w /\ sw_exts w' = negated (sw_exts w)).
  { intros r w' Hr. assert (A := map_nth_error (@sw_exts R) r words' Hr). rewrite Eneg in A.
    destruct (nth_error words r) as [w|] eqn:Ewr.
    - exists w. split; [reflexivity|]. rewrite (map_nth_error (fun w => negated (sw_exts w)) r words Ewr) in A. congruence.
    - apply nth_error_None in Ewr. assert (nth_error words' r <> None) by congruence. apply nth_error_Some in H. lia. }
  destruct (arctic_api c (words) (map (scale_all (-1)) X) n) as (rows & E & L & Sh & V); auto.
  { apply Forall_map. eapply Forall_impl; [|exact HX]. intros. now apply scale_all_wf. } { now rewrite Hwt. }
  { eapply Forall_impl; [|exact HW]. intros w [H1 H2]. split; [assumption|]. apply Forall_map. eapply Forall_impl; [|exact H2].
    intros x Hx. assert (El : length (scale_all (-1) x) = length x) by apply map_length. now rewrite El. }
  destruct (arctic_api c' words' X n) as (rows' & E' & L' & Sh' & V'); auto.
  { intros Z. rewrite Z in Hlen. destruct words; [congruence|discriminate]. } { now rewrite Hwt'. }
  { apply Forall_forall. intros w' Hw'. apply In_nth_error in Hw'. destruct Hw' as (r & Hr). destruct (Hpt r w' Hr) as (w & Hw & Ex).
    apply nth_error_In in Hw. rewrite Forall_forall in HW. destruct (HW w Hw) as [H1 H2]. rewrite Ex. split; [now apply negated_ne|].
    eapply Forall_impl; [|exact H2]. intros x Hx. unfold tables_in, negated in *. apply Forall_map. eapply Forall_impl; [|exact Hx].
    cbn. intros e He. now rewrite map_length. }
  rewrite E, E'. f_equal. 
  assert (Hm0 : length rows' = length rows) by lia.
  apply (nth_ext _ _ [] []); [assumption|]. intros r Hr.
  assert (Hr' : (r < length rows)%nat) by lia.
  rewrite Forall_forall in Sh, Sh'.
  destruct (Sh' _ (nth_In _ [] Hr)) as [A1 A2]. destruct (Sh _ (nth_In _ [] Hr')) as [B1 B2]. rewrite map_length in B1.
  apply (nth_ext _ _ [] []); [lia|]. intros i Hi. rewrite Forall_forall in A2, B2.
  assert (A3 := A2 _ (nth_In _ [] Hi)). assert (B3 : length (nth i (nth r rows []) []) = n) by (apply B2, nth_In; lia).
  apply (nth_ext _ _ 0 0); [lia|]. intros t Ht. rewrite A3 in Ht.
  destruct (nth_error words' r) as [w'|] eqn:Ewr; [|apply nth_error_None in Ewr; lia]. destruct (Hpt r w' Ewr) as (w & Hw & Ex).
  destruct (nth_error X i) as [x|] eqn:Exx; [|apply nth_error_None in Exx; lia].
  specialize (V' r i t w' x Ewr Exx Ht). specialize (V r i t w (scale_all (-1) x) Hw (map_nth_error _ _ _ Exx) Ht).
  rewrite Hwt in V. rewrite Hwt' in V'. cbn [wexp] in V, V'. rewrite Ex in V'. unfold negated in V' at 1. rewrite map_length in V'.
  eapply is_max_unique; [exact V'|]. eapply is_max_congr; [|exact V]. intros tau. cbn. now rewrite word_val_plus_negated.
Qed.

(** *** Order of the letters of general words *)
Definition comm_assoc {T} (o : srops T) := (forall a b, sr_op o a b = sr_op o b a) /\ (forall a b c, sr_op o a (sr_op o b c) = sr_op o (sr_op o a b) c).
Lemma map2_swap {T} (f : T -> T -> T) C a b : (forall x y, f x y = f y x) -> (forall x y z, f x (f y z) = f (f x y) z) ->
  map2 f (map2 f C a) b = map2 f (map2 f C b) a.
Proof.
  intros Hc Ha. revert a b. induction C as [|c C IH]; intros [|x a] [|y b]; cbn; auto. f_equal; [|apply IH].
  rewrite <- !Ha. f_equal. apply Hc.
Qed.
Lemma ext_value_perm (o : srops R) Z el el' : comm_assoc o -> Permutation el el' -> ext_value o Z el = ext_value o Z el'.
Proof.
  intros [Hc Ha] HP. unfold ext_value. generalize (repeat (sr_one o) (tlen Z)).
  induction HP; intros C; cbn [fold_left]; auto.
  - f_equal. now apply map2_swap.
  - etransitivity; eauto.
Qed.
Lemma slow_loop_perm (o : srops R) Z len ext w w' : comm_assoc o -> Forall2 (@Permutation _) w w' -> forall k tmp result,
  slow_loop o Z len ext k w tmp result = slow_loop o Z len ext k w' tmp result.
Proof.
  intros Ho. induction 1 as [|e e' w w' He _ IH]; intros k tmp result; [reflexivity|]. cbn [slow_loop].
  rewrite (ext_value_perm o Z e e') by assumption. apply IH.
Qed.
Lemma slow_arctic_loop_perm (o : srops R) Z len ext w w' : comm_assoc o -> Forall2 (@Permutation _) w w' -> forall k tmp result,
  slow_arctic_loop o Z len ext k w tmp result = slow_arctic_loop o Z len ext k w' tmp result.
Proof.
  intros Ho. induction 1 as [|e e' w w' He _ IH]; intros k tmp result; [reflexivity|]. cbn [slow_arctic_loop].
  rewrite (ext_value_perm o Z e e') by assumption. apply IH.
Qed.
Lemma Forall2_length_ {A B} (P : A -> B -> Prop) l l' : Forall2 P l l' -> length l = length l'.
Proof. induction 1; cbn; auto. Qed.
Lemma general_single_perm s (Z : mts R) w w' ext : Forall2 (@Permutation _) w w' -> general_single s Z w ext = general_single s Z w' ext.
Proof.
  intros HF. assert (El := Forall2_length_ _ _ _ HF).
  destruct s; cbn [general_single]; unfold slow_single, slow_arctic_single; rewrite El.
  - apply slow_loop_perm; [|assumption]. split; cbn; intros; ring.
  - apply slow_arctic_loop_perm; [|assumption]. split; cbn; intros; ring.
  - apply slow_loop_perm; [|assumption]. split; cbn; intros; ring.
Qed.
(** Two lists of words that differ only in the order of letters inside the
    extended letters of general words. *)
Definition same_letters (a b : wordv R) : Prop :=
  match a, b with
  | WGeneral g, WGeneral g' => Forall2 (@Permutation _) g g'
  | _, _ => a = b
  end.
Lemma batch_rows_perm s X wt plan ws ws' : Forall2 same_letters ws ws' -> forall i,
  batch_rows s X wt plan i ws = batch_rows s X wt plan i ws'.
Proof.
  induction 1 as [|w w' ws ws' Hw _ IH]; intros i; [reflexivity|]. cbn [batch_rows]. rewrite IH.
  destruct w as [e a|g], w' as [e' a'|g']; cbn in Hw; try (injection Hw as -> ->; reflexivity); try discriminate.
  assert (El := Forall2_length_ _ _ _ Hw).
  assert (E : forall ext, iterated_sums s X (WGeneral g) ext wt = iterated_sums s X (WGeneral g') ext wt).
  { intros ext. cbn [iterated_sums]. apply map_ext. intros Z. now apply general_single_perm. }
  rewrite E. unfold word_rows, sr_rows, wlen. rewrite El. reflexivity.
Qed.
Lemma letter_order (c c' : iss_cfg R) X :
  Forall2 same_letters (map iw_val (is_words c)) (map iw_val (is_words c')) ->
  is_sr c' = is_sr c -> is_wt c' = is_wt c -> is_plan_opt c' = is_plan_opt c ->
  iss_transform c X = iss_transform c' X.
Proof.
  intros HF Hs Hwt Hp. assert (El := Forall2_length_ _ _ _ HF). rewrite !map_length in El.
  destruct (is_words c) as [|w ws] eqn:E.
  - rewrite !iss_transform_empty; auto. destruct (is_words c'); [reflexivity|discriminate].
  - rewrite iss_transform_eq by congruence. rewrite iss_transform_eq by (destruct (is_words c'); [discriminate|congruence]).
    unfold cfg_guard. rewrite Hs, Hwt, Hp, E. now rewrite (batch_rows_perm _ _ _ _ _ _ HF).
Qed.
