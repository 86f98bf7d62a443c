(** The Arctic and Bayesian kernels compute maxima over non-decreasing tuples. *)
From Coq Require Import List Arith ZArith Reals Sorting Lia Lra Bool.
From Verif Require Import Num Arr L_Arr S_ISS L_Tuples M_Semiring L_Reals.
Import ListNotations.
Open Scope R_scope.

Lemma nmax_Rmax (x y : R) : nmax x y = Rmax x y.
Proof.
  unfold nmax. cbn. unfold Rleb, Rmax. destruct (Rle_dec x y); reflexivity.
Qed.

(** Running maximum. *)
Definition rmax (f : nat -> R) (t : nat) : R := accum nmax f t.

Lemma rmax_bound f t i : (i <= t)%nat -> f i <= rmax f t.
Proof.
  unfold rmax. induction t as [|t IH]; intros Hi; cbn [accum].
  - replace i with 0%nat by lia. lra.
  - rewrite nmax_Rmax. destruct (Nat.eq_dec i (S t)) as [->|Hne].
    + apply Rmax_r.
    + eapply Rle_trans; [apply IH; lia|apply Rmax_l].
Qed.

Lemma rmax_attained f t : exists i, (i <= t)%nat /\ f i = rmax f t.
Proof.
  unfold rmax. induction t as [|t (i & Hi & IH)]; cbn [accum].
  - exists 0%nat. auto.
  - rewrite nmax_Rmax. unfold Rmax. destruct (Rle_dec _ _).
    + exists (S t). auto.
    + exists i. auto.
Qed.

(** * Chains of running maxima *)
Section Chain.
Variables (op : R -> R -> R) (e : R).
Definition chain (fs : list (nat -> R)) : nat -> R :=
  fold_left (fun m f => rmax (fun i => op (m i) (f i))) fs (fun _ => e).
Definition gv (fs : list (nat -> R)) (tau : list nat) : R := fold_left op (fapp fs tau) e.

Lemma chain_snoc fs f t : chain (fs ++ [f]) t = rmax (fun i => op (chain fs i) (f i)) t.
Proof. unfold chain. now rewrite fold_left_app. Qed.

Lemma gv_snoc fs f tau i : length tau = length fs -> gv (fs ++ [f]) (tau ++ [i]) = op (gv fs tau) (f i).
Proof. intros E. unfold gv. now rewrite fapp_snoc, fold_left_app. Qed.

Definition mono_fun (f : nat -> R) : Prop := forall i a b, a <= b -> op a (f i) <= op b (f i).

Lemma nondec_snoc k t tau i : nondec_upto k i tau -> (i <= t)%nat -> nondec_upto (S k) t (tau ++ [i]).
Proof.
  intros (Hl & Hs & Hf) Hi. repeat split.
  - rewrite app_length. cbn. lia.
  - apply StronglySorted_Sorted. apply sorted_snoc.
    + apply Sorted_StronglySorted; auto. intros x y z; lia.
    + exact Hf.
  - apply Forall_app. split; [|repeat constructor; auto].
    eapply Forall_impl; [|exact Hf]. cbn. intros; lia.
Qed.

Lemma nondec_snoc_inv k t tau : nondec_upto (S k) t tau ->
  exists tau' i, tau = tau' ++ [i] /\ (i <= t)%nat /\ nondec_upto k i tau'.
Proof.
  intros (Hl & Hs & Hf). destruct (snoc_cases tau) as [->|(tau' & i & ->)]; [discriminate|].
  exists tau', i. split; auto. rewrite app_length in Hl. cbn in Hl.
  apply Forall_app in Hf. destruct Hf as [Hf1 Hf2]. inversion Hf2; subst.
  apply Sorted_StronglySorted in Hs; [|intros x y z; lia].
  apply sorted_snoc_inv in Hs. destruct Hs as [Hs1 Hs2].
  repeat split; auto; [lia|]. now apply StronglySorted_Sorted.
Qed.

Lemma chain_is_max fs : Forall mono_fun fs -> forall t,
  is_max (nondec_upto (length fs) t) (gv fs) (chain fs t).
Proof.
  induction fs as [|f fs IH] using rev_ind; intros Hm t.
  - split.
    + exists []. repeat split; constructor.
    + intros tau (Hl & _). destruct tau; [|discriminate]. cbn. apply Rle_refl.
  - apply Forall_app in Hm. destruct Hm as [Hm Hf]. inversion Hf as [|? ? Hf' _]; subst.
    specialize (IH Hm). rewrite app_length. cbn [length]. rewrite Nat.add_1_r.
    rewrite chain_snoc. split.
    + destruct (rmax_attained (fun i => op (chain fs i) (f i)) t) as (i & Hi & Ei).
      destruct (IH i) as [(tau & Ht & Ev) _]. exists (tau ++ [i]). split.
      * now apply nondec_snoc.
      * rewrite gv_snoc by apply Ht. now rewrite Ev.
    + intros tau Ht. apply nondec_snoc_inv in Ht. destruct Ht as (tau' & i & -> & Hi & Ht').
      rewrite gv_snoc by apply Ht'. destruct (IH i) as [_ Hb].
      eapply Rle_trans; [apply Hf', Hb, Ht'|].
      apply (rmax_bound (fun i => op (chain fs i) (f i))). auto.
Qed.
End Chain.

Lemma fold_left_Rplus l : forall a, fold_left Rplus l a = a + Rsum l.
Proof. induction l as [|x l IH]; intros a; cbn [fold_left]; [cbn; ring|]. rewrite IH, Rsum_cons. ring. Qed.
Lemma fold_left_Rmult l : forall a, fold_left Rmult l a = a * Rprod l.
Proof. induction l as [|x l IH]; intros a; cbn [fold_left]; [cbn; ring|]. rewrite IH, Rprod_cons. ring. Qed.
Lemma gv_plus fs tau : gv Rplus 0 fs tau = Rsum (fapp fs tau).
Proof. unfold gv. rewrite fold_left_Rplus. ring. Qed.
Lemma gv_mult fs tau : gv Rmult 1 fs tau = Rprod (fapp fs tau).
Proof. unfold gv. rewrite fold_left_Rmult. ring. Qed.

Lemma is_max_ext (P : list nat -> Prop) v v' m m' : (forall tau, P tau -> v tau = v' tau) -> m = m' ->
  is_max P v m -> is_max P v' m'.
Proof.
  intros E <- [(tau & Ht & Ev) Hb]. split.
  - exists tau. split; auto. now rewrite <- E.
  - intros tau' Ht'. rewrite <- E by auto. auto.
Qed.

Lemma is_max_unique (P : list nat -> Prop) v m m' : is_max P v m -> is_max P v m' -> m = m'.
Proof.
  intros [(t1 & H1 & E1) B1] [(t2 & H2 & E2) B2].
  apply Rle_antisym; [rewrite <- E1; auto|rewrite <- E2; auto].
Qed.

(** * Arctic kernels *)
Section Arc.
Variables (X : mts R) (n : nat).
Hypothesis HX : wf_series X n.

Lemma arctic_ext_tab_gen el : forall d f,
  (d + length el <= length X)%nat ->
  arctic_ext X d el (tab n f) =
  tab n (fun i => f i + Rsum (map (fun j => IZR (nth j el 0%Z) * at_ X (d + j) i) (seq 0 (length el)))).
Proof.
  induction el as [|o el IH]; intros d f Hd; cbn [arctic_ext].
  - apply tab_ext. intros. cbn. lra.
  - cbn [length] in Hd. rewrite (row_tab X n HX) by lia. rewrite vscale_tab, vadd_tab, IH by lia.
    apply tab_ext. intros i Hi. cbn [length seq map nth nadd nmul nofZ RNum].
    rewrite Rsum_cons, Nat.add_0_r, <- seq_shift, map_map.
    replace (map (fun j => IZR (nth j el 0%Z) * at_ X (S d + j) i) (seq 0 (length el)))
      with (map (fun x => IZR (nth x el 0%Z) * at_ X (d + S x) i) (seq 0 (length el))).
    + ring.
    + apply map_ext. intros j. now rewrite Nat.add_succ_r.
Qed.

Lemma arctic_ext_tab el f : (length el <= length X)%nat ->
  arctic_ext X 0 el (tab n f) = tab n (fun i => f i + ext_val_plus X el i).
Proof. intros Hl. now rewrite arctic_ext_tab_gen. Qed.

Variables (alpha g : list R).
Hypothesis Hg : length g = n.
Let ga (i : nat) := nth i g 0.
Let aa (j : nat) := nth j alpha 0.

Definition inwp (k i : nat) : R := match k with O => 0 | S j => ga i * aa j end.
Definition AF (e : list Z) (k i : nat) : R := - inwp k i + ext_val_plus X e i + ga i * aa k.
Definition AG (e : list Z) (k i : nat) : R := - inwp k i + ext_val_plus X e i.
Definition AFs (p : list (list Z)) : list (nat -> R) :=
  map (fun j => AF (nth j p []) j) (seq 0 (length p)).

Lemma AFs_snoc p e : AFs (p ++ [e]) = AFs p ++ [AF e (length p)].
Proof. clear Hg HX.
  unfold AFs. rewrite app_length. cbn [length]. rewrite Nat.add_1_r, seq_S, map_app. f_equal.
  - apply map_ext_in. intros j Hj. apply in_seq in Hj. now rewrite app_nth1 by lia.
  - cbn. now rewrite app_nth2, Nat.sub_diag by lia.
Qed.
Lemma AFs_length p : length (AFs p) = length p.
Proof. unfold AFs. now rewrite map_length, seq_length. Qed.

Definition arow_total (p : list (list Z)) : list R :=
  tab n (fun t => chain Rplus 0 (AFs p) t - ga t * aa (length p - 1)).
Definition arow_plain (p : list (list Z)) : list R :=
  tab n (chain Rplus 0 (AFs (removelast p) ++ [AG (last p []) (length p - 1)])).

Lemma gscale_tab a : vscale g a = tab n (fun i => ga i * a).
Proof. rewrite (g_tab n g Hg) at 1. now rewrite vscale_tab. Qed.

Lemma total_arctic_loop_rows len ext word : forall p tmp result,
  tables_in (length X) word -> len = (length p + length word)%nat ->
  tmp = tab n (fun i => chain Rplus 0 (AFs p) i - inwp (length p) i) ->
  total_arctic_loop X alpha g len ext (length p) word tmp result =
  save_rows len ext (length p) (map arow_total (prefixes_from p word)) result.
Proof.
  induction word as [|el word IH]; intros p tmp result Hok Hlen Htmp; [reflexivity|].
  pose proof (Forall_inv Hok) as Hel; pose proof (Forall_inv_tail Hok) as Hok'.
  cbn [total_arctic_loop prefixes_from map save_rows].
  subst tmp. rewrite arctic_ext_tab by auto.
  rewrite gscale_tab, vadd_tab, cummax_tab.
  assert (Ec : tab n (accum nmax (fun i => nadd (chain Rplus 0 (AFs p) i - inwp (length p) i + ext_val_plus X el i)
                                       (ga i * nth (length p) alpha nzero)))
               = tab n (chain Rplus 0 (AFs (p ++ [el])))).
  { apply tab_ext. intros t Ht. rewrite AFs_snoc, chain_snoc. unfold rmax. apply accum_ext.
    intros i Hi. cbn [nadd RNum nzero]. unfold AF, aa. ring. }
  rewrite Ec, vsub_tab. cbn [length] in Hlen.
  assert (Er : tab n (fun i => nsub (chain Rplus 0 (AFs (p ++ [el])) i) (ga i * nth (length p) alpha nzero))
               = arow_total (p ++ [el])).
  { unfold arow_total. apply tab_ext. intros t Ht. rewrite app_length. cbn [length].
    replace (length p + 1 - 1)%nat with (length p) by lia. reflexivity. }
  rewrite Er.
  replace (S (length p)) with (length (p ++ [el])) by (rewrite app_length; cbn; lia).
  destruct word as [|el2 word]; [reflexivity|].
  apply IH; auto; [rewrite app_length; cbn in *; lia|].
  replace (length p <? len - 1)%nat with true by (symmetry; apply Nat.ltb_lt; cbn in *; lia).
  unfold arow_total. apply tab_ext. intros i Hi.
  rewrite app_length. cbn [length]. rewrite Nat.add_1_r. cbn [inwp Nat.sub]. now rewrite Nat.sub_0_r.
Qed.

Lemma arctic_loop_rows len ext word : forall p tmp result,
  tables_in (length X) word -> len = (length p + length word)%nat ->
  tmp = tab n (chain Rplus 0 (AFs p)) ->
  arctic_loop X alpha g len ext (length p) word tmp result =
  save_rows len ext (length p) (map arow_plain (prefixes_from p word)) result.
Proof.
  induction word as [|el word IH]; intros p tmp result Hok Hlen Htmp; [reflexivity|].
  pose proof (Forall_inv Hok) as Hel; pose proof (Forall_inv_tail Hok) as Hok'.
  cbn [arctic_loop prefixes_from map save_rows].
  subst tmp. rewrite arctic_ext_tab by auto.
  set (tmp2 := if (0 <? length p)%nat then _ else _).
  assert (E2 : tmp2 = tab n (fun i => chain Rplus 0 (AFs p) i + AG el (length p) i)).
  { subst tmp2. destruct (length p) as [|k] eqn:Ek; cbn [Nat.ltb Nat.leb].
    - apply tab_ext. intros. unfold AG. cbn [inwp]. ring.
    - rewrite gscale_tab, vsub_tab. apply tab_ext. intros i Hi. unfold AG. cbn [inwp].
      cbn [Nat.sub]. rewrite Nat.sub_0_r. cbn [nsub RNum nzero]. unfold aa. ring. }
  rewrite E2. clear tmp2 E2. cbn [length] in Hlen.
  rewrite cummax_tab.
  assert (Er : tab n (accum nmax (fun i => chain Rplus 0 (AFs p) i + AG el (length p) i)) = arow_plain (p ++ [el])).
  { unfold arow_plain. apply tab_ext. intros t Ht.
    rewrite removelast_last, last_last, app_length. cbn [length].
    replace (length p + 1 - 1)%nat with (length p) by lia. now rewrite chain_snoc. }
  rewrite Er, gscale_tab, vadd_tab, cummax_tab.
  replace (S (length p)) with (length (p ++ [el])) by (rewrite app_length; cbn; lia).
  destruct word as [|el2 word]; [reflexivity|].
  apply IH; auto; [rewrite app_length; cbn in *; lia|].
  replace (length p <? len - 1)%nat with true by (symmetry; apply Nat.ltb_lt; cbn in *; lia).
  apply tab_ext. intros t Ht. rewrite AFs_snoc, chain_snoc. unfold rmax. apply accum_ext.
  intros i Hi. cbn [nadd RNum nzero]. unfold AF, AG, aa. ring.
Qed.

Lemma word_val_plus_snoc p e tau i : length tau = length p ->
  word_val_plus X (p ++ [e]) (tau ++ [i]) = word_val_plus X p tau + ext_val_plus X e i.
Proof. clear Hg HX.
  intros E. unfold word_val_plus. rewrite app_length. cbn [length].
  rewrite Nat.add_1_r, seq_S, map_app, Rsum_app. f_equal.
  - f_equal. apply map_ext_in. intros j Hj. apply in_seq in Hj. now rewrite !app_nth1 by lia.
  - cbn [map plus]. rewrite Rsum_cons, Rsum_nil. rewrite !app_nth2 by lia.
    rewrite E, Nat.sub_diag. cbn [nth]. ring.
Qed.

Lemma AFs_sum p : forall tau, length tau = length p ->
  Rsum (fapp (AFs p) tau) =
  word_val_plus X p tau + weight_exp alpha g tau
  + (if (0 <? length p)%nat then ga (last tau 0%nat) * aa (length p - 1) else 0).
Proof. clear Hg HX.
  induction p as [|e p IH] using rev_ind; intros tau Hl.
  - destruct tau; [|discriminate]. cbn. unfold weight_exp, word_val_plus. cbn. ring.
  - destruct (snoc_cases tau) as [->|(t & i & ->)]; [rewrite app_length in Hl; cbn in Hl; lia|].
    rewrite !app_length in Hl. cbn in Hl. assert (Hl' : length t = length p) by lia.
    rewrite AFs_snoc, fapp_snoc by (rewrite AFs_length; auto).
    rewrite Rsum_app, IH, word_val_plus_snoc by auto. rewrite Rsum_cons, Rsum_nil.
    rewrite app_length. cbn [length]. rewrite Nat.add_1_r. cbn [Nat.ltb Nat.leb].
    replace (S (length p) - 1)%nat with (length p) by lia. rewrite last_last.
    unfold AF. destruct (length p) as [|k] eqn:Ek; cbn [Nat.ltb Nat.leb inwp].
    + destruct t; [|discriminate]. cbn [app]. rewrite weight_exp_single.
      unfold weight_exp. cbn. ring.
    + rewrite weight_exp_snoc by (destruct t; [discriminate|congruence]).
      rewrite Hl'. replace (S k - 1)%nat with k by lia. fold (aa k) (ga (last t 0%nat)) (ga i). ring.
Qed.

Lemma AG_sum q e ta i : length ta = length q ->
  Rsum (fapp (AFs q ++ [AG e (length q)]) (ta ++ [i])) =
  word_val_plus X (q ++ [e]) (ta ++ [i]) + weight_exp alpha g (ta ++ [i]).
Proof. clear Hg HX.
  intros Hl'. rewrite fapp_snoc by (rewrite AFs_length; auto).
  rewrite Rsum_app, AFs_sum, word_val_plus_snoc by auto. rewrite Rsum_cons, Rsum_nil.
  unfold AG. destruct (length q) as [|k] eqn:Ek; cbn [Nat.ltb Nat.leb inwp].
  - destruct ta; [|discriminate]. cbn [app]. rewrite weight_exp_single.
    unfold weight_exp. cbn. ring.
  - rewrite weight_exp_snoc by (destruct ta; [discriminate|congruence]).
    rewrite Hl'. replace (S k - 1)%nat with k by lia. fold (aa k) (ga (last ta 0%nat)) (ga i). ring.
Qed.

Lemma mono_plus f : mono_fun Rplus f.
Proof. intros i a b Hab. lra. Qed.

Lemma arow_total_spec p t : p <> [] -> (t < n)%nat ->
  is_max (nondec_upto (length p) t)
    (fun tau => word_val_plus X p tau + weight_exp alpha g tau + total_exp alpha g tau t)
    (nth t (arow_total p) 0).
Proof.
  intros Hp Ht. unfold arow_total. rewrite tab_nth by auto.
  assert (Hl : (0 < length p)%nat) by (destruct p; [congruence|cbn; lia]).
  destruct (chain_is_max Rplus 0 (AFs p)
             (proj2 (Forall_forall _ _) (fun f _ => mono_plus f)) t) as [(tau & Htau & Ev) Hb].
  rewrite AFs_length in Htau, Hb.
  assert (E : forall ta, nondec_upto (length p) t ta ->
    word_val_plus X p ta + weight_exp alpha g ta + total_exp alpha g ta t
    = gv Rplus 0 (AFs p) ta - ga t * aa (length p - 1)).
  { intros ta Hta. rewrite gv_plus, AFs_sum by apply Hta.
    replace (0 <? length p)%nat with true by (symmetry; now apply Nat.ltb_lt).
    unfold total_exp. destruct Hta as (-> & _).
    fold (ga (last ta 0%nat)) (aa (length p - 1)) (ga t). ring. }
  split.
  - exists tau. split; auto. rewrite E by auto. now rewrite Ev.
  - intros ta Hta. rewrite E by auto. specialize (Hb ta Hta). lra.
Qed.

Lemma arow_plain_spec p t : p <> [] -> (t < n)%nat ->
  is_max (nondec_upto (length p) t)
    (fun tau => word_val_plus X p tau + weight_exp alpha g tau)
    (nth t (arow_plain p) 0).
Proof.
  intros Hp Ht. destruct (snoc_cases p) as [->|(q & e & ->)]; [congruence|].
  unfold arow_plain. rewrite tab_nth by auto.
  rewrite removelast_last, last_last, app_length. cbn [length].
  replace (length q + 1 - 1)%nat with (length q) by lia.
  pose proof (chain_is_max Rplus 0 (AFs q ++ [AG e (length q)])
             (proj2 (Forall_forall _ _) (fun f _ => mono_plus f)) t) as HM.
  rewrite app_length, AFs_length in HM. cbn [length] in HM.
  eapply is_max_ext; [|reflexivity|exact HM].
  intros tau (Hl & _). rewrite gv_plus.
  destruct (snoc_cases tau) as [->|(ta & i & ->)]; [cbn in Hl; lia|].
  rewrite app_length in Hl. cbn in Hl. apply AG_sum. lia.
Qed.

(** * Bayesian kernels *)
Notation Fs' := (Fs X alpha g).
Definition brow_total (p : list (list Z)) : list R :=
  tab n (fun t => chain Rmult 1 (Fs' p) t * exp (- ga t * aa (length p - 1))).
Definition brow_plain (p : list (list Z)) : list R :=
  tab n (chain Rmult 1 (Fs' (removelast p) ++ [Gfun X alpha g (last p []) (length p - 1)])).

Lemma total_bayesian_loop_rows len ext word : forall p tmp result,
  Forall (el_ok X n) word -> len = (length p + length word)%nat ->
  tmp = tab n (fun i => chain Rmult 1 (Fs' p) i * inw alpha g (length p) i) ->
  total_bayesian_loop X alpha g len ext (length p) word tmp result =
  save_rows len ext (length p) (map brow_total (prefixes_from p word)) result.
Proof.
  induction word as [|el word IH]; intros p tmp result Hok Hlen Htmp; [reflexivity|].
  pose proof (Forall_inv Hok) as Hel; pose proof (Forall_inv_tail Hok) as Hok'.
  cbn [total_bayesian_loop prefixes_from map save_rows].
  subst tmp. rewrite (apply_ext_tab X n HX) by auto.
  rewrite (expw_tab n g Hg), (expwn_tab n g Hg), vmul_tab, cummax_tab.
  assert (Ec : tab n (accum nmax (fun i => nmul (chain Rmult 1 (Fs' p) i * inw alpha g (length p) i * ext_val X el i)
                                       (exp (nth i g 0 * nth (length p) alpha nzero))))
               = tab n (chain Rmult 1 (Fs' (p ++ [el])))).
  { apply tab_ext. intros t Ht. rewrite Fs_snoc, chain_snoc. unfold rmax. apply accum_ext.
    intros i Hi. cbn [nmul RNum nzero]. unfold Ffun. ring. }
  rewrite Ec, vmul_tab. cbn [length] in Hlen.
  assert (Er : tab n (fun i => nmul (chain Rmult 1 (Fs' (p ++ [el])) i) (exp (- nth i g 0 * nth (length p) alpha nzero)))
               = brow_total (p ++ [el])).
  { unfold brow_total. apply tab_ext. intros t Ht. rewrite app_length. cbn [length].
    replace (length p + 1 - 1)%nat with (length p) by lia. reflexivity. }
  rewrite Er.
  replace (S (length p)) with (length (p ++ [el])) by (rewrite app_length; cbn; lia).
  destruct word as [|el2 word]; [reflexivity|].
  apply IH; auto; [rewrite app_length; cbn in *; lia|].
  replace (length p <? len - 1)%nat with true by (symmetry; apply Nat.ltb_lt; cbn in *; lia).
  unfold brow_total. apply tab_ext. intros i Hi.
  rewrite app_length. cbn [length]. rewrite Nat.add_1_r. cbn [inw Nat.sub]. now rewrite Nat.sub_0_r.
Qed.

Lemma bayesian_loop_rows len ext word : forall p tmp result,
  Forall (el_ok X n) word -> len = (length p + length word)%nat ->
  tmp = tab n (chain Rmult 1 (Fs' p)) ->
  bayesian_loop X alpha g len ext (length p) word tmp result =
  save_rows len ext (length p) (map brow_plain (prefixes_from p word)) result.
Proof.
  induction word as [|el word IH]; intros p tmp result Hok Hlen Htmp; [reflexivity|].
  pose proof (Forall_inv Hok) as Hel; pose proof (Forall_inv_tail Hok) as Hok'.
  cbn [bayesian_loop prefixes_from map save_rows].
  subst tmp. rewrite (apply_ext_tab X n HX) by auto.
  set (tmp2 := if (0 <? length p)%nat then _ else _).
  assert (E2 : tmp2 = tab n (fun i => chain Rmult 1 (Fs' p) i * Gfun X alpha g el (length p) i)).
  { subst tmp2. destruct (length p) as [|k] eqn:Ek; cbn [Nat.ltb Nat.leb].
    - apply tab_ext. intros. unfold Gfun. cbn [inw]. ring.
    - rewrite (expwn_tab n g Hg), vmul_tab. apply tab_ext. intros i Hi. unfold Gfun. cbn [inw].
      cbn [Nat.sub]. rewrite Nat.sub_0_r. cbn [nmul RNum nzero]. unfold aa. ring. }
  rewrite E2. clear tmp2 E2. cbn [length] in Hlen.
  rewrite cummax_tab.
  assert (Er : tab n (accum nmax (fun i => chain Rmult 1 (Fs' p) i * Gfun X alpha g el (length p) i)) = brow_plain (p ++ [el])).
  { unfold brow_plain. apply tab_ext. intros t Ht.
    rewrite removelast_last, last_last, app_length. cbn [length].
    replace (length p + 1 - 1)%nat with (length p) by lia. now rewrite chain_snoc. }
  rewrite Er, (expw_tab n g Hg), vmul_tab, cummax_tab.
  replace (S (length p)) with (length (p ++ [el])) by (rewrite app_length; cbn; lia).
  destruct word as [|el2 word]; [reflexivity|].
  apply IH; auto; [rewrite app_length; cbn in *; lia|].
  replace (length p <? len - 1)%nat with true by (symmetry; apply Nat.ltb_lt; cbn in *; lia).
  apply tab_ext. intros t Ht. rewrite Fs_snoc, chain_snoc. unfold rmax. apply accum_ext.
  intros i Hi. cbn [nmul RNum nzero]. unfold Ffun, Gfun. ring.
Qed.

Lemma mono_mult f : (forall i, 0 <= f i) -> mono_fun Rmult f.
Proof. intros Hf i a b Hab. apply Rmult_le_compat_r; auto. Qed.

Lemma inw_pos k i : 0 < inw alpha g k i.
Proof. destruct k; cbn; [lra|apply exp_pos]. Qed.

Definition ext_nonneg (w : list (list Z)) : Prop :=
  Forall (fun e => forall i, 0 <= ext_val X e i) w.

Lemma Fs_mono p : ext_nonneg p -> Forall (mono_fun Rmult) (Fs' p).
Proof. clear Hg HX.
  intros Hp. unfold Fs. apply Forall_map. apply Forall_forall. intros j Hj. apply in_seq in Hj.
  apply mono_mult. intros i. unfold Ffun.
  unfold ext_nonneg in Hp. rewrite Forall_forall in Hp.
  apply Rmult_le_pos; [apply Rmult_le_pos|].
  - apply Rlt_le, inw_pos.
  - apply Hp. apply nth_In. lia.
  - apply Rlt_le, exp_pos.
Qed.

Lemma brow_total_spec p t : p <> [] -> (t < n)%nat -> ext_nonneg p ->
  is_max (nondec_upto (length p) t)
    (fun tau => word_val X p tau * exp (weight_exp alpha g tau) * exp (total_exp alpha g tau t))
    (nth t (brow_total p) 0).
Proof.
  intros Hp Ht Hnn. unfold brow_total. rewrite tab_nth by auto.
  assert (Hl : (0 < length p)%nat) by (destruct p; [congruence|cbn; lia]).
  destruct (chain_is_max Rmult 1 (Fs' p) (Fs_mono p Hnn) t) as [(tau & Htau & Ev) Hb].
  rewrite Fs_length in Htau, Hb.
  assert (E : forall ta, nondec_upto (length p) t ta ->
    word_val X p ta * exp (weight_exp alpha g ta) * exp (total_exp alpha g ta t)
    = gv Rmult 1 (Fs' p) ta * exp (- ga t * aa (length p - 1))).
  { intros ta Hta. rewrite gv_mult, Fs_prod by apply Hta.
    replace (0 <? length p)%nat with true by (symmetry; now apply Nat.ltb_lt).
    unfold total_exp. destruct Hta as (-> & _).
    fold (ga (last ta 0%nat)) (aa (length p - 1)) (ga t).
    replace (aa (length p - 1) * (ga (last ta 0%nat) - ga t))
      with (ga (last ta 0%nat) * aa (length p - 1) + - ga t * aa (length p - 1)) by ring.
    rewrite exp_plus. ring. }
  split.
  - exists tau. split; auto. rewrite E by auto. now rewrite Ev.
  - intros ta Hta. rewrite E by auto. specialize (Hb ta Hta).
    apply Rmult_le_compat_r; auto. apply Rlt_le, exp_pos.
Qed.

Lemma Gs_prod q e ta i : length ta = length q ->
  Rprod (fapp (Fs' q ++ [Gfun X alpha g e (length q)]) (ta ++ [i])) =
  word_val X (q ++ [e]) (ta ++ [i]) * exp (weight_exp alpha g (ta ++ [i])).
Proof. clear Hg HX.
  intros Hl'. rewrite fapp_snoc by (rewrite Fs_length; auto).
  rewrite Rprod_app, Fs_prod, word_val_snoc by auto. rewrite Rprod_cons, Rprod_nil.
  unfold Gfun. destruct (length q) as [|k] eqn:Ek; cbn [Nat.ltb Nat.leb inw].
  - destruct ta; [|discriminate]. cbn [app]. rewrite weight_exp_single.
    unfold weight_exp. cbn. ring.
  - rewrite weight_exp_snoc by (destruct ta; [discriminate|congruence]).
    rewrite Hl'. replace (S k - 1)%nat with k by lia.
    replace (nth k alpha 0 * (nth (last ta 0%nat) g 0 - nth i g 0))
      with (nth (last ta 0%nat) g 0 * nth k alpha 0 + - nth i g 0 * nth k alpha 0) by ring.
    rewrite !exp_plus. ring.
Qed.

Lemma brow_plain_spec p t : p <> [] -> (t < n)%nat -> ext_nonneg p ->
  is_max (nondec_upto (length p) t)
    (fun tau => word_val X p tau * exp (weight_exp alpha g tau))
    (nth t (brow_plain p) 0).
Proof.
  intros Hp Ht Hnn. destruct (snoc_cases p) as [->|(q & e & ->)]; [congruence|].
  unfold brow_plain. rewrite tab_nth by auto.
  rewrite removelast_last, last_last, app_length. cbn [length].
  replace (length q + 1 - 1)%nat with (length q) by lia.
  apply Forall_app in Hnn. destruct Hnn as [Hq He]. inversion He as [|? ? He' _]; subst.
  assert (HF : Forall (mono_fun Rmult) (Fs' q ++ [Gfun X alpha g e (length q)])).
  { apply Forall_app. split; [now apply Fs_mono|]. constructor; [|constructor].
    apply mono_mult. intros i. unfold Gfun. apply Rmult_le_pos; [apply Rlt_le, inw_pos|apply He']. }
  pose proof (chain_is_max Rmult 1 _ HF t) as HM.
  rewrite app_length, Fs_length in HM. cbn [length] in HM.
  eapply is_max_ext; [|reflexivity|exact HM].
  intros tau (Hl & _). rewrite gv_mult.
  destruct (snoc_cases tau) as [->|(ta & i & ->)]; [cbn in Hl; lia|].
  rewrite app_length in Hl. cbn in Hl. apply Gs_prod. lia.
Qed.
End Arc.

(** Row extraction for a finished loop. *)
Lemma rows_nth (w : list (list Z)) (row : list (list Z) -> list R) ext r base :
  (ext <= length w)%nat -> (r < ext)%nat ->
  nth r (save_rows (length w) ext 0 (map row (prefixes_from [] w)) (repeat base ext)) [] =
  row (firstn (length w - ext + r + 1) w).
Proof.
  intros He Hr. rewrite save_rows_nth; try lia;
    [|now rewrite map_length, prefixes_from_length, Nat.sub_0_r|now rewrite repeat_length].
  cbn [Nat.ltb Nat.leb]. rewrite Nat.sub_0_r.
  rewrite (nth_indep _ [] (row [])) by (rewrite map_length, prefixes_from_length; lia).
  rewrite map_nth, prefixes_nth by lia. now rewrite Nat.add_1_r.
Qed.

Section Kernels.
Variables (X : mts R) (n : nat) (w : list (list Z)) (alpha g : list R) (ext r t : nat).
Hypothesis HX : wf_series X n.
Hypothesis Hg : length g = n.
Hypothesis Hext : (ext <= length w)%nat.
Hypothesis Hr : (r < ext)%nat.
Hypothesis Ht : (t < n)%nat.
Let p := firstn (length w - ext + r + 1) w.

Lemma p_ne : p <> [].
Proof. subst p. rewrite Nat.add_1_r. apply firstn_S_ne. lia. Qed.
Lemma p_len : length p = (length w - ext + r + 1)%nat.
Proof. subst p. rewrite firstn_length. lia. Qed.

Lemma arctic_single_row : tables_in (length X) w ->
  is_max (nondec_upto (length p) t)
    (fun tau => word_val_plus X p tau + weight_exp alpha g tau)
    (nth t (nth r (arctic_single X w alpha g ext) []) 0).
Proof.
  intros Hw. unfold arctic_single. change 0%nat with (length (@nil (list Z))) at 1.
  rewrite (arctic_loop_rows X n HX alpha g Hg _ _ _ [] _ _ Hw).
  - cbn [length]. rewrite rows_nth by auto. apply arow_plain_spec; auto. apply p_ne.
  - reflexivity.
  - now rewrite (tlen_wf X n HX), zeros_tab.
Qed.

Lemma total_arctic_single_row : tables_in (length X) w ->
  is_max (nondec_upto (length p) t)
    (fun tau => word_val_plus X p tau + weight_exp alpha g tau + total_exp alpha g tau t)
    (nth t (nth r (total_arctic_single X w alpha g ext) []) 0).
Proof.
  intros Hw. unfold total_arctic_single. change 0%nat with (length (@nil (list Z))) at 1.
  rewrite (total_arctic_loop_rows X n HX alpha g Hg _ _ _ [] _ _ Hw).
  - cbn [length]. rewrite rows_nth by auto. apply arow_total_spec; auto. apply p_ne.
  - reflexivity.
  - rewrite (tlen_wf X n HX), zeros_tab. apply tab_ext. intros i Hi. cbn. ring.
Qed.

Lemma firstn_Forall {A} (P : A -> Prop) k l : Forall P l -> Forall P (firstn k l).
Proof. intros HF. rewrite <- (firstn_skipn k l) in HF. apply Forall_app in HF. apply HF. Qed.

Lemma bayesian_single_row : word_ok X n w -> ext_nonneg X w ->
  is_max (nondec_upto (length p) t)
    (fun tau => word_val X p tau * exp (weight_exp alpha g tau))
    (nth t (nth r (bayesian_single X w alpha g ext) []) 0).
Proof.
  intros Hw Hnn. apply word_ok_el in Hw. unfold bayesian_single. change 0%nat with (length (@nil (list Z))) at 1.
  rewrite (bayesian_loop_rows X n HX alpha g Hg _ _ _ [] _ _ Hw).
  - cbn [length]. rewrite rows_nth by auto. apply brow_plain_spec; auto; [apply p_ne|].
    now apply firstn_Forall.
  - reflexivity.
  - now rewrite (tlen_wf X n HX), ones_tab.
Qed.

Lemma total_bayesian_single_row : word_ok X n w -> ext_nonneg X w ->
  is_max (nondec_upto (length p) t)
    (fun tau => word_val X p tau * exp (weight_exp alpha g tau) * exp (total_exp alpha g tau t))
    (nth t (nth r (total_bayesian_single X w alpha g ext) []) 0).
Proof.
  intros Hw Hnn. apply word_ok_el in Hw. unfold total_bayesian_single. change 0%nat with (length (@nil (list Z))) at 1.
  rewrite (total_bayesian_loop_rows X n HX alpha g Hg _ _ _ [] _ _ Hw).
  - cbn [length]. rewrite rows_nth by auto. apply brow_total_spec; auto; [apply p_ne|].
    now apply firstn_Forall.
  - reflexivity.
  - rewrite (tlen_wf X n HX), ones_tab. apply tab_ext. intros i Hi. cbn. ring.
Qed.
End Kernels.
