(** ISS.transform in SINGLE mode against the specification. *)
From Coq Require Import Ascii String List Arith ZArith Bool Lia Reals Lra.
From Verif Require Import Num Arr L_Arr S_ISS M_Str M_Semiring M_Words M_ISS L_Tuples L_Reals L_Max L_Slow L_ISS L_Gen L_API L_Rows.
Import ListNotations.
Open Scope R_scope.

Lemma map2_const_r {A B C} (f : A -> C) (l : list A) (l2 : list B) :
  length l2 = length l -> map2 (fun a _ => f a) l l2 = map f l.
Proof.
  revert l2. induction l as [|x l IH]; intros [|y l2] Hl; cbn in *; try discriminate; [reflexivity|].
  f_equal. apply IH. lia.
Qed.

Lemma cfg_eta {T} (c : iss_cfg T) : c = {| is_words := is_words c; is_mode := is_mode c; is_sr := is_sr c;
  is_wt := is_wt c; is_wt_name := is_wt_name c |}.
Proof. now destruct c. Qed.

Lemma single_transform' {T} `{Num T} (c : iss_cfg T) X :
  is_mode c = SINGLE -> is_words c <> [] -> is_argmax (is_sr c) = false ->
  length (lookups (is_wt c) X) = length X ->
  iss_transform c X
  = Ok (map (fun w => map2 (fun x g => nth 0 (sample_sums (is_sr c) (iw_val w) 1 (totals (is_wt c)) x g) []) X
                           (lookups (is_wt c) X)) (is_words c)).
Proof.
  intros Hm Hne Hs Hl. destruct c as [ws md s wt nm]. cbn in *. subst md. now apply single_transform.
Qed.

Lemma sample_row_none s X n exts alpha g : is_argmax s = false -> wf_series X n -> kernel_ok s X n exts ->
  exts <> [] ->
  nth 0 (sample_sums s (WSimple exts alpha) 1 None X g) []
  = row_of s X n (zeros (length exts)) (zeros n) true exts.
Proof.
  intros Hs HX Hk Hne. cbn [sample_sums]. rewrite (tlen_wf X n HX).
  assert (Hlen : (1 <= length exts)%nat) by (destruct exts; [congruence|cbn; lia]).
  rewrite (fast_single_row s X n); auto; [|apply repeat_length].
  f_equal. rewrite firstn_all2; [reflexivity|lia].
Qed.
Lemma sample_row_some s X n exts alpha g b : is_argmax s = false -> wf_series X n -> kernel_ok s X n exts ->
  exts <> [] -> length g = n ->
  nth 0 (sample_sums s (WSimple exts alpha) 1 (Some b) X g) [] = row_of s X n alpha g b exts.
Proof.
  intros Hs HX Hk Hne Hg. cbn [sample_sums].
  assert (Hlen : (1 <= length exts)%nat) by (destruct exts; [congruence|cbn; lia]).
  rewrite (fast_single_row s X n); auto.
  f_equal. rewrite firstn_all2; [reflexivity|lia].
Qed.

Lemma lookups_none_length {T} (X : dataset T) : length (lookups None X) = length X.
Proof. cbn. apply map_length. Qed.

Lemma words_ne {T} `{Num T} (c : iss_cfg T) words : is_words c = map simple_iword words -> words <> [] -> is_words c <> [].
Proof. intros -> Hne. destruct words; cbn; congruence. Qed.

(** *** Reals *)
Lemma reals_api (c : iss_cfg R) (words : list (sword R)) X n :
  is_words c = map simple_iword words -> is_mode c = SINGLE -> is_sr c = Reals -> is_wt c = None ->
  words <> [] -> wf_dataset X n ->
  Forall (fun w => sw_exts w <> [] /\
      Forall (fun x => letters_in (length x) (sw_exts w) /\ nonzero_where_neg x n (sw_exts w)) X) words ->
  iss_transform c X
  = Ok (map (fun w => map (fun x => map (iss x (sw_exts w)) (seq 0 n)) X) words).
Proof.
  intros Ew Hm Hs Hwt Hne HX HW.
  rewrite single_transform'; rewrite ?Hwt, ?Hs; auto using lookups_none_length; [|eapply words_ne; eauto].
  f_equal. rewrite Ew, map_map. apply map_ext_in. intros w Hw. rewrite Forall_forall in HW. destruct (HW w Hw) as [H1 H2].
  unfold totals. cbn [simple_iword iw_val].
  transitivity (map2 (fun x (_ : list R) => map (iss x (sw_exts w)) (seq 0 n)) X (lookups None X)).
  - apply map2_ext_in. intros x g Hx _.
    unfold wf_dataset in HX. rewrite Forall_forall in HX, H2.
    rewrite (sample_row_none Reals x n); auto; [|exact (H2 x Hx)].
    cbn [row_of]. rewrite row_total_spec by (auto; apply repeat_length).
    unfold tab. apply map_ext. intros t. apply iss_weighted_zero.
  - apply map2_const_r. apply lookups_none_length.
Qed.

Lemma reals_weighted_api (c : iss_cfg R) (words : list (sword R)) wt X n :
  is_words c = map simple_iword words -> is_mode c = SINGLE -> is_sr c = Reals -> is_wt c = Some wt ->
  words <> [] -> wf_dataset X n ->
  length (wg_lookup wt X) = length X -> Forall (fun g => length g = n) (wg_lookup wt X) ->
  Forall (fun w => sw_exts w <> [] /\
      Forall (fun x => letters_in (length x) (sw_exts w) /\ nonzero_where_neg x n (sw_exts w)) X) words ->
  iss_transform c X
  = Ok (map (fun w => map2 (fun x g => map (iss_weighted x (sw_exts w) (get_alpha w) g (wg_total wt)) (seq 0 n))
                           X (wg_lookup wt X)) words).
Proof.
  intros Ew Hm Hs Hwt Hne HX Hl Hgs HW.
  rewrite single_transform'; rewrite ?Hwt, ?Hs; auto; [|eapply words_ne; eauto].
  f_equal. rewrite Ew, map_map. apply map_ext_in. intros w Hw. rewrite Forall_forall in HW. destruct (HW w Hw) as [H1 H2].
  unfold totals. cbn [simple_iword iw_val lookups].
  apply map2_ext_in. intros x g Hx Hgx.
  unfold wf_dataset in HX. rewrite Forall_forall in HX, H2, Hgs.
  rewrite (sample_row_some Reals x n); auto; [|exact (H2 x Hx)].
  cbn [row_of]. destruct (wg_total wt); [rewrite row_total_spec|rewrite row_plain_spec]; auto.
Qed.

(** A weighting that is zero everywhere has no effect. *)
Lemma iss_weighted_zero_g X w a k total t : iss_weighted X w a (repeat 0 k) total t = iss X w t.
Proof.
  assert (Z0 : forall i q, nth i (repeat 0 q) 0 = 0) by (intros; apply nth_repeat).
  unfold iss_weighted, iss. f_equal. apply map_ext. intros tau.
  assert (E : weight_exp a (repeat 0 k) tau = 0).
  { unfold weight_exp. apply Rsum_zero. intros j _. rewrite !Z0. ring. }
  rewrite E, exp_0. unfold total_exp. rewrite !Z0.
  destruct total; [replace (nth (length tau - 1) a 0 * (0 - 0)) with 0 by ring; rewrite exp_0|]; ring.
Qed.

Lemma iss_early X w t : (t + 1 < length w)%nat -> iss X w t = 0.
Proof. intros Ht. unfold iss. now rewrite itup_short by lia. Qed.

(** *** General access to one value *)
Lemma nth_error_map2 {A B C} (f : A -> B -> C) l1 : forall l2 i x y,
  nth_error l1 i = Some x -> nth_error l2 i = Some y -> nth_error (map2 f l1 l2) i = Some (f x y).
Proof. induction l1 as [|a l1 IH]; intros [|b l2] [|i] x y; cbn; try discriminate; eauto. congruence. Qed.
Lemma nth_error_nth_ {A} (l : list A) i x d : nth_error l i = Some x -> nth i l d = x.
Proof. revert i. induction l as [|a l IH]; intros [|i]; cbn; try discriminate; [congruence|apply IH]. Qed.

(** *** Arctic and Bayesian *)
Definition ok_for (s : semiring) (X : dataset R) (n : nat) (w : sword R) : Prop :=
  sw_exts w <> [] /\ Forall (fun x => kernel_ok s x n (sw_exts w)) X.

Lemma single_values (c : iss_cfg R) (words : list (sword R)) X n :
  is_words c = map simple_iword words -> is_mode c = SINGLE -> is_argmax (is_sr c) = false ->
  words <> [] -> wf_dataset X n -> Forall (ok_for (is_sr c) X n) words ->
  length (lookups (is_wt c) X) = length X ->
  (is_wt c <> None -> Forall (fun g => length g = n) (lookups (is_wt c) X)) ->
  exists rows, iss_transform c X = Ok rows /\ length rows = length words /\
    Forall (fun row => length row = length X /\ Forall (fun y => length y = n) row) rows /\
    forall r i w x, nth_error words r = Some w -> nth_error X i = Some x ->
      nth i (nth r rows []) [] =
      match is_wt c with
      | None => row_of (is_sr c) x n (zeros (length (sw_exts w))) (zeros n) true (sw_exts w)
      | Some wt => row_of (is_sr c) x n (get_alpha w) (nth i (wg_lookup wt X) []) (wg_total wt) (sw_exts w)
      end.
Proof.
  intros Ew Hm Hs Hne HX HW Hl Hg.
  rewrite single_transform' by (auto; eapply words_ne; eauto).
  set (rows := map _ _). exists rows.
  assert (Hval : forall r i w x, nth_error words r = Some w -> nth_error X i = Some x ->
      nth i (nth r rows []) [] =
      match is_wt c with
      | None => row_of (is_sr c) x n (zeros (length (sw_exts w))) (zeros n) true (sw_exts w)
      | Some wt => row_of (is_sr c) x n (get_alpha w) (nth i (wg_lookup wt X) []) (wg_total wt) (sw_exts w)
      end).
  { intros r i w x Hw Hx.
    assert (Hg' : exists g, nth_error (lookups (is_wt c) X) i = Some g).
    { destruct (nth_error (lookups (is_wt c) X) i) eqn:E; [eauto|].
      apply nth_error_None in E. assert (i < length X)%nat by (apply nth_error_Some; congruence). lia. }
    destruct Hg' as (g & Hgi).
    assert (Er : nth r rows [] = map2 (fun x g => nth 0 (sample_sums (is_sr c) (iw_val (simple_iword w)) 1 (totals (is_wt c)) x g) []) X
                           (lookups (is_wt c) X)).
    { apply nth_error_nth_. unfold rows. rewrite Ew, map_map. exact (map_nth_error _ _ _ Hw). }
    rewrite Er. erewrite nth_error_nth_; [|eapply nth_error_map2; eauto].
    apply nth_error_In in Hw as Hwi. apply nth_error_In in Hx as Hxi.
    rewrite Forall_forall in HW. destruct (HW w Hwi) as [H1 H2]. rewrite Forall_forall in H2.
    unfold wf_dataset in HX. rewrite Forall_forall in HX. cbn [simple_iword iw_val].
    destruct (is_wt c) as [wt|]; cbn [totals lookups] in *.
    - assert (E : nth i (wg_lookup wt X) [] = g) by (now apply nth_error_nth_). rewrite E.
      apply sample_row_some; auto.
      assert (Hne' : Some wt <> None) by congruence. specialize (Hg Hne'). rewrite Forall_forall in Hg.
      apply Hg. now apply nth_error_In in Hgi.
    - apply sample_row_none; auto. }
  split; [reflexivity|]. split; [unfold rows; now rewrite Ew, !map_length|]. split; [|exact Hval].
  rewrite Forall_forall. intros row Hrow. destruct (In_nth rows row [] Hrow) as (r & Hr & Er).
  assert (Hr' : (r < length words)%nat) by (unfold rows in Hr; now rewrite Ew, !map_length in Hr).
  destruct (nth_error words r) as [w|] eqn:Hw; [|apply nth_error_None in Hw; lia].
  assert (HLr : length row = length X).
  { unfold rows in Hrow. apply in_map_iff in Hrow. destruct Hrow as (w0 & <- & _).
    rewrite map2_length. lia. }
  split; [exact HLr|].
  rewrite Forall_forall. intros y Hy. destruct (In_nth row y [] Hy) as (i & Hi & Ey).
  rewrite HLr in Hi. destruct (nth_error X i) as [x|] eqn:Hx; [|apply nth_error_None in Hx; lia].
  rewrite <- Ey, <- Er, (Hval r i w x Hw Hx). destruct (is_wt c); apply row_of_length.
Qed.

Lemma weight_exp_zeros m k (tau : list nat) : weight_exp (@zeros R _ m) (@zeros R _ k) tau = 0.
Proof.
  unfold weight_exp. apply Rsum_zero. intros j _. unfold zeros. cbn [nzero RNum]. rewrite !nth_repeat. ring.
Qed.
Lemma total_exp_zeros m k (tau : list nat) (t : nat) : total_exp (@zeros R _ m) (@zeros R _ k) tau t = 0.
Proof. unfold total_exp, zeros. cbn [nzero RNum]. rewrite !nth_repeat. ring. Qed.

Lemma arctic_row_max X n alpha g (total : bool) p t : wf_series X n -> p <> [] -> tables_in (length X) p -> length g = n -> (t < n)%nat ->
  is_max (nondec_upto (length p) t)
    (fun tau => word_val_plus X p tau + weight_exp alpha g tau + (if total then total_exp alpha g tau t else 0))
    (nth t (row_of (Arctic false) X n alpha g total p) 0).
Proof.
  intros HX Hp Hk Hg Ht. cbn [row_of]. destruct total.
  - apply arow_total_spec; auto.
  - eapply is_max_ext; [|reflexivity|apply arow_plain_spec; auto]. intros tau _. cbn. ring.
Qed.
Lemma bayesian_row_max X n alpha g (total : bool) p t : wf_series X n -> p <> [] -> Forall (Forall (fun v => 0 <= v)) X -> length g = n -> (t < n)%nat ->
  is_max (nondec_upto (length p) t)
    (fun tau => word_val X p tau * exp (weight_exp alpha g tau) * (if total then exp (total_exp alpha g tau t) else 1))
    (nth t (row_of Bayesian X n alpha g total p) 0).
Proof.
  intros HX Hp Hnn Hg Ht. cbn [row_of].
  assert (He : ext_nonneg X p).
  { unfold ext_nonneg. rewrite Forall_forall. intros e _ i. apply ext_val_nonneg. intros d. now apply at_nonneg. }
  destruct total.
  - apply brow_total_spec; auto.
  - eapply is_max_ext; [|reflexivity|apply brow_plain_spec; auto]. intros tau _. cbn. ring.
Qed.

(** The weight exponent as one number, no weighting meaning no weight. *)
Definition wexp (wt : option (weighting R)) (X : dataset R) (i : nat) (alpha : list R) (tau : list nat) (t : nat) : R :=
  match wt with
  | None => 0
  | Some w => weight_exp alpha (nth i (wg_lookup w X) []) tau
              + (if wg_total w then total_exp alpha (nth i (wg_lookup w X) []) tau t else 0)
  end.

Lemma lookups_len wt (X : dataset R) n :
  (match wt with None => True | Some w => length (wg_lookup w X) = length X /\ Forall (fun g => length g = n) (wg_lookup w X) end) ->
  length (lookups wt X) = length X /\ (wt <> None -> Forall (fun g => length g = n) (lookups wt X)).
Proof. destruct wt as [w|]; cbn; intros Hw; [intuition|]. split; [apply map_length|congruence]. Qed.

Lemma arctic_api (c : iss_cfg R) (words : list (sword R)) X n :
  is_words c = map simple_iword words -> is_mode c = SINGLE -> is_sr c = Arctic false ->
  words <> [] -> wf_dataset X n ->
  (match is_wt c with None => True | Some w => length (wg_lookup w X) = length X /\ Forall (fun g => length g = n) (wg_lookup w X) end) ->
  Forall (fun w => sw_exts w <> [] /\ Forall (fun x => tables_in (length x) (sw_exts w)) X) words ->
  exists rows, iss_transform c X = Ok rows /\ length rows = length words /\
    Forall (fun row => length row = length X /\ Forall (fun y => length y = n) row) rows /\
    forall r i t w x, nth_error words r = Some w -> nth_error X i = Some x -> (t < n)%nat ->
      is_max (nondec_upto (length (sw_exts w)) t)
             (fun tau => word_val_plus x (sw_exts w) tau + wexp (is_wt c) X i (get_alpha w) tau t)
             (nth t (nth i (nth r rows []) []) 0).
Proof.
  intros Ew Hm Hs Hne HX Hwt HW. destruct (lookups_len _ X n Hwt) as [Hl Hg].
  destruct (single_values c words X n) as (rows & E & Hlen & Hsh & Hval); auto.
  { now rewrite Hs. } { rewrite Hs. exact HW. }
  exists rows. split; [exact E|]. split; [exact Hlen|]. split; [exact Hsh|].
  intros r i t w x Hw Hx Ht. rewrite (Hval r i w x Hw Hx).
  apply nth_error_In in Hw as Hwi. apply nth_error_In in Hx as Hxi.
  rewrite Forall_forall in HW. destruct (HW w Hwi) as [H1 H2]. rewrite Forall_forall in H2.
  unfold wf_dataset in HX. rewrite Forall_forall in HX. rewrite Hs.
  destruct (is_wt c) as [wt|]; cbn [wexp].
  - destruct Hwt as [Hwl Hwg]. eapply is_max_ext; [|reflexivity|apply arctic_row_max]; auto.
    + intros tau _. cbn. ring.
    + rewrite Forall_forall in Hwg. apply Hwg. apply nth_In. rewrite Hwl. apply nth_error_Some. congruence.
  - eapply is_max_ext; [|reflexivity|apply arctic_row_max]; auto.
    + intros tau _. cbn. rewrite weight_exp_zeros, total_exp_zeros. ring.
    + apply repeat_length.
Qed.

Lemma bayesian_api (c : iss_cfg R) (words : list (sword R)) X n :
  is_words c = map simple_iword words -> is_mode c = SINGLE -> is_sr c = Bayesian ->
  words <> [] -> wf_dataset X n -> Forall (Forall (Forall (fun v => 0 <= v))) X ->
  (match is_wt c with None => True | Some w => length (wg_lookup w X) = length X /\ Forall (fun g => length g = n) (wg_lookup w X) end) ->
  Forall (fun w => sw_exts w <> [] /\
      Forall (fun x => letters_in (length x) (sw_exts w) /\ nonzero_where_neg x n (sw_exts w)) X) words ->
  exists rows, iss_transform c X = Ok rows /\ length rows = length words /\
    Forall (fun row => length row = length X /\ Forall (fun y => length y = n) row) rows /\
    forall r i t w x, nth_error words r = Some w -> nth_error X i = Some x -> (t < n)%nat ->
      is_max (nondec_upto (length (sw_exts w)) t)
             (fun tau => word_val x (sw_exts w) tau * exp (wexp (is_wt c) X i (get_alpha w) tau t))
             (nth t (nth i (nth r rows []) []) 0).
Proof.
  intros Ew Hm Hs Hne HX Hnn Hwt HW. destruct (lookups_len _ X n Hwt) as [Hl Hg].
  destruct (single_values c words X n) as (rows & E & Hlen & Hsh & Hval); auto.
  { now rewrite Hs. } { rewrite Hs. exact HW. }
  exists rows. split; [exact E|]. split; [exact Hlen|]. split; [exact Hsh|].
  intros r i t w x Hw Hx Ht. rewrite (Hval r i w x Hw Hx).
  apply nth_error_In in Hw as Hwi. apply nth_error_In in Hx as Hxi.
  rewrite Forall_forall in HW. destruct (HW w Hwi) as [H1 H2]. rewrite Forall_forall in H2.
  unfold wf_dataset in HX. rewrite Forall_forall in HX, Hnn. rewrite Hs.
  destruct (is_wt c) as [wt|]; cbn [wexp].
  - destruct Hwt as [Hwl Hwg]. eapply is_max_ext; [|reflexivity|apply bayesian_row_max]; auto.
    + intros tau _. cbn. rewrite exp_plus. destruct (wg_total wt); [ring|]. rewrite exp_0. ring.
    + rewrite Forall_forall in Hwg. apply Hwg. apply nth_In. rewrite Hwl. apply nth_error_Some. congruence.
  - eapply is_max_ext; [|reflexivity|apply bayesian_row_max]; auto.
    + intros tau _. cbn. rewrite weight_exp_zeros, total_exp_zeros, exp_0. ring.
    + apply repeat_length.
Qed.
