(** The general path of the semirings. *)
From Coq Require Import List Arith ZArith Reals Sorting Permutation Lia Lra Bool.
From Verif Require Import Num Arr L_Arr S_ISS L_Tuples M_Semiring L_Reals L_Max.
Import ListNotations.
Open Scope R_scope.

Lemma gsum_short fs n : (n < length fs)%nat -> gsum fs n = 0.
Proof. intros Hn. unfold gsum. now rewrite itup_short. Qed.

Section Slow.
Variables (X : mts R) (n : nat).
Hypothesis HX : wf_series X n.

Lemma ext_value_tab_gen o el : Forall (fun l : bletter R => length (l X) = n) el -> forall f,
  fold_left (fun C l => map2 (sr_op o) C (l X)) el (tab n f)
  = tab n (fun i => fold_left (sr_op o) (map (fun l : bletter R => nth i (l X) 0) el) (f i)).
Proof.
  induction 1 as [|l el Hl Hel IH]; intros f; cbn [fold_left map]; [reflexivity|].
  rewrite (tab_eta' 0 n (l X) Hl) at 1. rewrite tab_map2, IH. reflexivity.
Qed.
Lemma ext_value_tab o el : Forall (fun l : bletter R => length (l X) = n) el ->
  ext_value o X el =
  tab n (fun i => fold_left (sr_op o) (map (fun l : bletter R => nth i (l X) 0) el) (sr_one o)).
Proof.
  intros Hel. unfold ext_value. rewrite (tlen_wf X n HX), tab_repeat. now apply ext_value_tab_gen.
Qed.

Lemma ext_value_mul o el : sr_op o = Rmult -> sr_one o = 1 ->
  Forall (fun l : bletter R => length (l X) = n) el ->
  ext_value o X el = tab n (gext_val X el).
Proof.
  intros Ho H1 Hel. rewrite ext_value_tab by auto. apply tab_ext. intros i Hi.
  rewrite Ho, H1, fold_left_Rmult. rewrite Rmult_1_l. reflexivity.
Qed.
Lemma ext_value_plus el :
  Forall (fun l : bletter R => length (l X) = n) el ->
  ext_value arctic_ops X el = tab n (gext_val_plus X el).
Proof.
  intros Hel. rewrite ext_value_tab by auto. apply tab_ext. intros i Hi.
  cbn [sr_op sr_one arctic_ops nadd nzero RNum]. rewrite fold_left_Rplus, Rplus_0_l. reflexivity.
Qed.

Definition Ms (p : list (list (bletter R))) : list (nat -> R) := map (gext_val X) p.
Definition Ps (p : list (list (bletter R))) : list (nat -> R) := map (gext_val_plus X) p.

Lemma Ms_prod p tau : length tau = length p -> Rprod (fapp (Ms p) tau) = gword_val X p tau.
Proof. clear HX.
  unfold gword_val, Ms, fapp. rewrite map2_map_l. revert tau.
  induction p as [|e p IH]; intros [|i tau] Hl; try discriminate; [reflexivity|].
  cbn [map2 length seq map nth]. rewrite !Rprod_cons, IH by (cbn in Hl; lia). f_equal.
  rewrite <- seq_shift, map_map. reflexivity.
Qed.
Lemma Ps_sum p tau : length tau = length p -> Rsum (fapp (Ps p) tau) = gword_val_plus X p tau.
Proof. clear HX.
  unfold gword_val_plus, Ps, fapp. rewrite map2_map_l. revert tau.
  induction p as [|e p IH]; intros [|i tau] Hl; try discriminate; [reflexivity|].
  cbn [map2 length seq map nth]. rewrite !Rsum_cons, IH by (cbn in Hl; lia). f_equal.
  rewrite <- seq_shift, map_map. reflexivity.
Qed.

Lemma gsum_Ms p t : gsum (Ms p) (S t) = giss X p t.
Proof.
  unfold gsum, giss, Ms. rewrite map_length. f_equal. apply map_ext_in. intros tau Ht.
  apply itup_In in Ht. apply Ms_prod. apply Ht.
Qed.

(** ** Reals *)
Lemma csum_split f k m : csum f (k + m) = csum f k + csum (fun i => f (k + i)%nat) m.
Proof.
  induction m as [|m IH]; [rewrite Nat.add_0_r; cbn; ring|].
  rewrite Nat.add_succ_r, !csum_S, IH. ring.
Qed.
Lemma csum_zero f k : (forall i, (i < k)%nat -> f i = 0) -> csum f k = 0.
Proof. induction k; intros E; [reflexivity|]. rewrite csum_S, IHk, E; auto. ring. Qed.

Lemma tab_split_cumsum k f h : (forall i, (i < k)%nat -> (i < n)%nat -> f i = 0 /\ h i = 0) ->
  (forall i, (i < n)%nat -> (k <= i)%nat -> h i = csum f (S i)) ->
  firstn k (tab n f) ++ cumsum (skipn k (tab n f)) = tab n h.
Proof.
  intros Hz Hs. destruct (Nat.le_gt_cases k n) as [Hk|Hk].
  - rewrite firstn_tab by auto. rewrite skipn_tab, cumsum_tab, app_tab.
    replace (k + (n - k))%nat with n by lia. apply tab_ext. intros i Hi.
    destruct (Nat.ltb_spec i k) as [Hik|Hik].
    + destruct (Hz i Hik Hi) as [-> ->]. reflexivity.
    + rewrite Hs by auto. cbn [nadd RNum]. rewrite accum_csum.
      replace (S i) with (k + (S (i - k)))%nat by lia. rewrite csum_split.
      rewrite (csum_zero f k); [ring|]. intros j Hj. apply Hz; lia.
  - rewrite firstn_all2, skipn_all2 by (rewrite tab_length; lia). cbn [cumsum accumulate].
    rewrite app_nil_r. apply tab_ext. intros i Hi. destruct (Hz i) as [-> ->]; auto. lia.
Qed.

Definition grow (p : list (list (bletter R))) : list R := tab n (giss X p).

Lemma head_tail_mul k f g :
  (forall i, (i < k)%nat -> (i < n)%nat -> f i = 0) ->
  firstn k (tab n f) ++ map2 Rmult (skipn k (tab n f)) (skipn k (tab n g)) = tab n (fun i => f i * g i).
Proof.
  intros Hz. destruct (Nat.le_gt_cases k n) as [Hk|Hk].
  - rewrite firstn_tab by auto. rewrite !skipn_tab, tab_map2, app_tab.
    replace (k + (n - k))%nat with n by lia. apply tab_ext. intros i Hi.
    destruct (Nat.ltb_spec i k) as [Hik|Hik]; [rewrite Hz by auto; ring|].
    now replace (k + (i - k))%nat with i by lia.
  - rewrite firstn_all2, skipn_all2 by (rewrite tab_length; lia). cbn [map2].
    rewrite app_nil_r. apply tab_ext. intros i Hi. rewrite Hz by lia. ring.
Qed.

Lemma slow_reals_rows len ext word : forall p tmp result,
  letters_ok X n word -> len = (length p + length word)%nat ->
  tmp = tab n (fun i => gsum (Ms p) (if (0 <? length p)%nat then S i else i)) ->
  slow_loop reals_ops X len ext (length p) word tmp result =
  save_rows len ext (length p) (map grow (prefixes_from p word)) result.
Proof.
  induction word as [|el word IH]; intros p tmp result Hok Hlen Htmp; [reflexivity|].
  pose proof (Forall_inv Hok) as Hel; pose proof (Forall_inv_tail Hok) as Hok'.
  cbn [slow_loop prefixes_from map save_rows].
  rewrite ext_value_mul by auto.
  set (tmp1 := if (0 <? length p)%nat then shift0 tmp else tmp).
  assert (E1 : tmp1 = tab n (gsum (Ms p))).
  { subst tmp1 tmp. destruct (snoc_cases p) as [->|(p' & e & ->)]; [reflexivity|].
    rewrite app_length. cbn [length]. rewrite Nat.add_1_r. cbn [Nat.ltb Nat.leb].
    unfold Ms. rewrite map_app. apply shift0_gsum. }
  rewrite E1. clear tmp1 E1. cbn [sr_op sr_cum reals_ops nmul RNum].
  rewrite head_tail_mul
    by (intros i Hi _; apply gsum_short; unfold Ms; rewrite map_length; auto).
  assert (E3 : firstn (length p) (tab n (fun i => gsum (Ms p) i * gext_val X el i)) ++
    cumsum (skipn (length p) (tab n (fun i => gsum (Ms p) i * gext_val X el i)))
    = grow (p ++ [el])).
  { apply tab_split_cumsum.
    - intros i Hi _. rewrite gsum_short by (unfold Ms; rewrite map_length; auto).
      rewrite <- gsum_Ms, gsum_short; [split; ring|].
      unfold Ms. rewrite map_length, app_length. cbn. lia.
    - intros i Hi Hk. rewrite <- gsum_Ms. unfold Ms at 1. rewrite map_app. cbn [map].
      rewrite gsum_snoc. reflexivity. }
  cbv zeta. rewrite E3.
  replace (S (length p)) with (length (p ++ [el])) by (rewrite app_length; cbn; lia).
  apply IH; auto; [rewrite app_length; cbn in *; lia|].
  rewrite app_length. cbn [length]. rewrite Nat.add_1_r. cbn [Nat.ltb Nat.leb].
  unfold grow. apply tab_ext. intros t Ht. now rewrite gsum_Ms.
Qed.

(** ** Arctic *)
Definition garow (p : list (list (bletter R))) : list R := tab n (chain Rplus 0 (Ps p)).
Lemma slow_arctic_rows len ext word : forall p tmp result,
  letters_ok X n word -> len = (length p + length word)%nat ->
  tmp = tab n (chain Rplus 0 (Ps p)) ->
  slow_arctic_loop arctic_ops X len ext (length p) word tmp result =
  save_rows len ext (length p) (map garow (prefixes_from p word)) result.
Proof.
  induction word as [|el word IH]; intros p tmp result Hok Hlen Htmp; [reflexivity|].
  pose proof (Forall_inv Hok) as Hel; pose proof (Forall_inv_tail Hok) as Hok'.
  cbn [slow_arctic_loop prefixes_from map save_rows].
  rewrite ext_value_plus by auto. subst tmp.
  cbn [sr_op sr_cum arctic_ops]. rewrite tab_map2, cummax_tab.
  assert (E : tab n (accum nmax (fun i => nadd (chain Rplus 0 (Ps p) i) (gext_val_plus X el i))) = garow (p ++ [el])).
  { unfold garow. apply tab_ext. intros t Ht. unfold Ps. rewrite map_app. cbn [map].
    rewrite chain_snoc. reflexivity. }
  cbv zeta. rewrite E.
  replace (S (length p)) with (length (p ++ [el])) by (rewrite app_length; cbn; lia).
  apply IH; auto. rewrite app_length; cbn in *; lia.
Qed.

Lemma garow_spec p t : (t < n)%nat ->
  is_max (nondec_upto (length p) t) (gword_val_plus X p) (nth t (garow p) 0).
Proof.
  intros Ht. unfold garow. rewrite tab_nth by auto.
  pose proof (chain_is_max Rplus 0 (Ps p) (proj2 (Forall_forall _ _) (fun f _ => mono_plus f)) t) as HM.
  unfold Ps in HM at 1. rewrite map_length in HM.
  eapply is_max_ext; [|reflexivity|exact HM].
  intros tau (Hl & _). rewrite gv_plus. now apply Ps_sum.
Qed.

(** ** Bayesian, general path: strict maxima, 0 before time [k-1]. *)
Definition strict_at (p : list (list (bletter R))) (t : nat) (v : R) : Prop :=
  if (t + 1 <? length p)%nat then v = 0
  else is_max (inc_upto (length p) t) (gword_val X p) v.

Lemma inc_snoc k t tau i : inc_upto k (i - 1) tau -> (0 < i)%nat -> (i <= t)%nat -> inc_upto (S k) t (tau ++ [i]).
Proof. clear HX.
  intros (Hl & Hs & Hf) H0 Hi. repeat split.
  - rewrite app_length. cbn. lia.
  - apply StronglySorted_Sorted. apply sorted_snoc.
    + apply Sorted_StronglySorted; auto. intros x y z; lia.
    + eapply Forall_impl; [|exact Hf]. cbn. intros; lia.
  - apply Forall_app. split; [|repeat constructor; auto].
    eapply Forall_impl; [|exact Hf]. cbn. intros; lia.
Qed.

Lemma inc_snoc_inv k t tau : inc_upto (S k) t tau ->
  exists tau' i, tau = tau' ++ [i] /\ (i <= t)%nat /\ length tau' = k /\ Sorted lt tau' /\
                 Forall (fun j => (j < i)%nat) tau'.
Proof. clear HX.
  intros (Hl & Hs & Hf). destruct (snoc_cases tau) as [->|(tau' & i & ->)]; [discriminate|].
  exists tau', i. split; auto. rewrite app_length in Hl. cbn in Hl.
  apply Forall_app in Hf. destruct Hf as [Hf1 Hf2]. inversion Hf2; subst.
  apply Sorted_StronglySorted in Hs; [|intros x y z; lia].
  apply sorted_snoc_inv in Hs. destruct Hs as [Hs1 Hs2].
  repeat split; auto; [lia|]. now apply StronglySorted_Sorted.
Qed.

Lemma sorted_lt_bound tau : forall i, Sorted lt tau -> Forall (fun j => (j < i)%nat) tau -> (length tau <= i)%nat.
Proof. clear HX.
  induction tau as [|x tau IH] using rev_ind; intros i Hs Hf; [cbn; lia|].
  apply Sorted_StronglySorted in Hs; [|intros a b c; lia].
  apply sorted_snoc_inv in Hs. destruct Hs as [Hs1 Hs2].
  apply Forall_app in Hf. destruct Hf as [_ Hx]. inversion Hx; subst.
  rewrite app_length. cbn. specialize (IH x). 
  assert (length tau <= x)%nat; [|lia]. apply IH; auto. now apply StronglySorted_Sorted.
Qed.

Lemma gword_val_snoc p e tau i : length tau = length p ->
  gword_val X (p ++ [e]) (tau ++ [i]) = gword_val X p tau * gext_val X e i.
Proof. clear HX.
  intros E. unfold gword_val. rewrite app_length. cbn [length].
  rewrite Nat.add_1_r, seq_S, map_app, Rprod_app. f_equal.
  - f_equal. apply map_ext_in. intros j Hj. apply in_seq in Hj. now rewrite !app_nth1 by lia.
  - cbn [map plus]. rewrite Rprod_cons, Rprod_nil. rewrite !app_nth2 by lia.
    rewrite E, Nat.sub_diag. cbn [nth]. ring.
Qed.

Lemma tab_split_cummax k f : (k <= n)%nat ->
  firstn k (tab n f) ++ cummax (skipn k (tab n f)) =
  tab n (fun i => if (i <? k)%nat then f i else rmax (fun j => f (k + j)%nat) (i - k)).
Proof.
  intros Hk. rewrite firstn_tab by auto. rewrite skipn_tab, cummax_tab, app_tab.
  now replace (k + (n - k))%nat with n by lia.
Qed.

Definition gext_nonneg (w : list (list (bletter R))) : Prop :=
  Forall (fun e => forall i, (i < n)%nat -> 0 <= gext_val X e i) w.

Lemma strict_step p el sh :
  (forall i, (i < n)%nat -> 0 <= gext_val X el i) ->
  (* sh: shifted maxima of the prefix *)
  (forall i, (i < length p)%nat -> (i < n)%nat -> sh i = 0) ->
  (forall i, (length p <= i)%nat -> (i < n)%nat ->
     (length p = 0%nat /\ sh i = 1) \/
     ((0 < length p)%nat /\ is_max (inc_upto (length p) (i - 1)) (gword_val X p) (sh i))) ->
  forall t, (t < n)%nat ->
  strict_at (p ++ [el]) t
    (if (t <? length p)%nat then 0
     else rmax (fun j => sh (length p + j)%nat * gext_val X el (length p + j)%nat) (t - length p)).
Proof. clear HX.
  intros Hnn Hz Hm t Ht. unfold strict_at. rewrite app_length. cbn [length].
  destruct (Nat.ltb_spec t (length p)) as [Hlt|Hge].
  - replace (t + 1 <? length p + 1)%nat with true by (symmetry; apply Nat.ltb_lt; lia). reflexivity.
  - replace (t + 1 <? length p + 1)%nat with false by (symmetry; apply Nat.ltb_ge; lia).
    rewrite Nat.add_1_r.
    set (f := fun j => sh (length p + j)%nat * gext_val X el (length p + j)%nat).
    split.
    + destruct (rmax_attained f (t - length p)) as (j & Hj & Ej). rewrite <- Ej. subst f. cbv beta.
      set (i := (length p + j)%nat).
      destruct (Hm i) as [[Hp Hs]|[Hp [(tau & Htau & Ev) _]]]; try lia.
      * exists [i]. destruct p; [|discriminate]. split.
        -- repeat split; repeat constructor. lia.
        -- change [i] with ([] ++ [i]). rewrite (gword_val_snoc []) by reflexivity.
           rewrite Hs. unfold gword_val. cbn. reflexivity.
      * exists (tau ++ [i]). split; [apply inc_snoc; auto; lia|].
        rewrite gword_val_snoc by apply Htau. now rewrite Ev.
    + intros tau Htau. apply inc_snoc_inv in Htau. destruct Htau as (tau' & i & -> & Hi & Hl & Hs & Hf).
      rewrite gword_val_snoc by auto.
      assert (Hpi : (length p <= i)%nat) by (rewrite <- Hl; now apply sorted_lt_bound).
      assert (Hfi : gword_val X p tau' * gext_val X el i <= f (i - length p)%nat).
      { subst f. cbv beta. replace (length p + (i - length p))%nat with i by lia.
        apply Rmult_le_compat_r; [apply Hnn; lia|].
        destruct (Hm i) as [[Hp Hs']|[Hp [_ Hb]]]; try lia.
        - destruct tau'; [|cbn in Hl; lia]. destruct p; [|discriminate]. rewrite Hs'.
          unfold gword_val. cbn. lra.
        - apply Hb. repeat split; auto. eapply Forall_impl; [|exact Hf]. cbn. intros; lia. }
      eapply Rle_trans; [exact Hfi|]. apply rmax_bound. lia.
Qed.

Lemma slow_bayesian_rows len ext word : forall p tmp result,
  letters_ok X n word -> gext_nonneg word -> len = (length p + length word)%nat ->
  (p = [] -> tmp = tab n (fun _ => 1)) ->
  (p <> [] -> length tmp = n /\ forall t, (t < n)%nat -> strict_at p t (nth t tmp 0)) ->
  exists rows, 
  slow_loop bayesian_ops X len ext (length p) word tmp result =
  save_rows len ext (length p) rows result /\ length rows = length word /\
  forall j, (j < length word)%nat -> length (nth j rows []) = n /\
    forall t, (t < n)%nat -> strict_at (p ++ firstn (S j) word) t (nth t (nth j rows []) 0).
Proof.
  induction word as [|el word IH]; intros p tmp result Hok Hnn Hlen Htmp0 Htmp.
  { exists []. repeat split; auto; intros; cbn in *; lia. }
  pose proof (Forall_inv Hok) as Hel; pose proof (Forall_inv_tail Hok) as Hok'.
  pose proof (Forall_inv Hnn) as Hnel; pose proof (Forall_inv_tail Hnn) as Hnn'.
  cbn [slow_loop].
  rewrite ext_value_mul by auto.
  set (tmp1 := if (0 <? length p)%nat then shift0 tmp else tmp).
  assert (E1 : exists sh, tmp1 = tab n sh /\
     (forall i, (i < length p)%nat -> (i < n)%nat -> sh i = 0) /\
     (forall i, (length p <= i)%nat -> (i < n)%nat ->
       (length p = 0%nat /\ sh i = 1) \/
       ((0 < length p)%nat /\ is_max (inc_upto (length p) (i - 1)) (gword_val X p) (sh i)))).
  { subst tmp1. destruct p as [|e p].
    - exists (fun _ => 1). rewrite Htmp0 by auto. cbn. repeat split; auto; intros; lia.
    - destruct (Htmp ltac:(congruence)) as [Hlt Hst]. cbn [length Nat.ltb Nat.leb].
      rewrite (tab_eta' 0 n tmp Hlt), shift0_tab. eexists. split; [reflexivity|]. split.
      + intros [|i] Hi Hin; auto. specialize (Hst i ltac:(lia)). unfold strict_at in Hst.
        cbn [length] in *. replace (i + 1 <? S (length p))%nat with true in Hst by (symmetry; apply Nat.ltb_lt; lia).
        exact Hst.
      + intros [|i] Hi Hin; [lia|]. right. split; [lia|].
        specialize (Hst i ltac:(lia)). unfold strict_at in Hst. cbn [length] in *.
        replace (i + 1 <? S (length p))%nat with false in Hst by (symmetry; apply Nat.ltb_ge; lia).
        cbn [Nat.sub]. rewrite Nat.sub_0_r. exact Hst. }
  destruct E1 as (sh & E1 & Hz & Hm). rewrite E1. clear tmp1 E1.
  cbn [sr_op sr_cum bayesian_ops nmul RNum]. rewrite head_tail_mul by auto. cbv zeta.
  pose proof (strict_step p el sh Hnel Hz Hm) as Hstep.
  set (row := firstn (length p) (tab n (fun i => sh i * gext_val X el i)) ++
              cummax (skipn (length p) (tab n (fun i => sh i * gext_val X el i)))).
  assert (Hrow : length row = n /\ forall t, (t < n)%nat -> strict_at (p ++ [el]) t (nth t row 0)).
  { subst row. destruct (Nat.le_gt_cases (length p) n) as [Hpn|Hpn].
    - rewrite tab_split_cummax by auto. rewrite tab_length. split; auto. intros t Ht.
      rewrite tab_nth by auto. specialize (Hstep t Ht).
      revert Hstep. destruct (Nat.ltb_spec t (length p)) as [Htp|Htp]; intros Hstep; auto.
      rewrite (Hz t) by auto. now rewrite Rmult_0_l.
    - rewrite firstn_all2, skipn_all2 by (rewrite tab_length; lia). cbn [cummax accumulate].
      rewrite app_nil_r, tab_length. split; auto. intros t Ht. rewrite tab_nth by auto.
      specialize (Hstep t Ht). replace (t <? length p)%nat with true in Hstep by (symmetry; apply Nat.ltb_lt; lia).
      rewrite (Hz t) by lia. now rewrite Rmult_0_l. }
  replace (S (length p)) with (length (p ++ [el])) by (rewrite app_length; cbn; lia).
  destruct (IH (p ++ [el]) row (save len (length p) ext row result)) as (rows & E & Hr & Hrows); auto.
  - rewrite app_length; cbn in *; lia.
  - intros Ep. destruct p; discriminate.
  - exists (row :: rows). split; [|split].
    + cbn [save_rows]. replace (S (length p)) with (length (p ++ [el])) by (rewrite app_length; cbn; lia).
      exact E.
    + cbn. lia.
    + intros [|j] Hj; [cbn [nth firstn]; exact Hrow|]. cbn [nth firstn length] in *.
      specialize (Hrows j ltac:(lia)). destruct Hrows as [H1 H2]. split; auto.
      intros t Ht. specialize (H2 t Ht). now rewrite <- app_assoc in H2.
Qed.
End Slow.

(** Kernel results of the general path. *)
Lemma rows_nth_gen {A} (w : list A) (row : list A -> list R) ext r base :
  (ext <= length w)%nat -> (r < ext)%nat ->
  nth r (save_rows (length w) ext 0 (map row (prefixes_from [] w)) (repeat base ext)) [] =
  row (firstn (length w - ext + r + 1) w).
Proof.
  intros He Hr. rewrite save_rows_nth; try lia;
    [|now rewrite map_length, prefixes_from_length, Nat.sub_0_r|now rewrite repeat_length].
  cbn [Nat.ltb Nat.leb]. rewrite Nat.sub_0_r.
  rewrite (nth_indep _ [] (row [])) by (rewrite map_length, prefixes_from_length; lia).
  rewrite map_nth, prefixes_nth by lia. now rewrite Nat.add_1_r.
Qed.

Lemma slow_reals_single_row X n w ext r :
  wf_series X n -> letters_ok X n w -> (ext <= length w)%nat -> (r < ext)%nat ->
  nth r (slow_single reals_ops X w ext) [] = tab n (giss X (firstn (length w - ext + r + 1) w)).
Proof.
  intros HX Hw He Hr. unfold slow_single. change 0%nat with (length (@nil (list (bletter R)))) at 1.
  rewrite (slow_reals_rows X n HX _ _ _ [] _ _ Hw).
  - cbn [length]. rewrite (rows_nth_gen w (grow X n)) by auto. reflexivity.
  - reflexivity.
  - rewrite (tlen_wf X n HX), tab_repeat. cbn [length Nat.ltb Nat.leb sr_one reals_ops].
    apply tab_ext. intros i Hi. unfold Ms. cbn [map]. now rewrite gsum_nil.
Qed.

Lemma slow_arctic_single_eq X n w ext r :
  wf_series X n -> letters_ok X n w -> (ext <= length w)%nat -> (r < ext)%nat ->
  nth r (slow_arctic_single X w ext) [] = garow X n (firstn (length w - ext + r + 1) w).
Proof.
  intros HX Hw He Hr. unfold slow_arctic_single. change 0%nat with (length (@nil (list (bletter R)))) at 1.
  rewrite (slow_arctic_rows X n HX _ _ _ [] _ _ Hw).
  - cbn [length]. rewrite (rows_nth_gen w (garow X n)) by auto. reflexivity.
  - reflexivity.
  - now rewrite (tlen_wf X n HX), zeros_tab.
Qed.

Lemma slow_arctic_single_row X n w ext r t :
  wf_series X n -> letters_ok X n w -> (ext <= length w)%nat -> (r < ext)%nat -> (t < n)%nat ->
  let p := firstn (length w - ext + r + 1) w in
  is_max (nondec_upto (length p) t) (gword_val_plus X p)
         (nth t (nth r (slow_arctic_single X w ext) []) 0).
Proof.
  intros HX Hw He Hr Ht p. rewrite (slow_arctic_single_eq X n) by auto. now apply garow_spec.
Qed.

Lemma slow_bayesian_single_row X n w ext r t :
  wf_series X n -> letters_ok X n w -> gext_nonneg X n w -> (ext <= length w)%nat -> (r < ext)%nat ->
  (t < n)%nat ->
  let p := firstn (length w - ext + r + 1) w in
  let v := nth t (nth r (slow_single bayesian_ops X w ext) []) 0 in
  ((t + 1 < length p)%nat -> v = 0) /\
  ((length p <= t + 1)%nat -> is_max (inc_upto (length p) t) (gword_val X p) v).
Proof.
  intros HX Hw Hnn He Hr Ht p v. subst v. unfold slow_single.
  destruct (slow_bayesian_rows X n HX (length w) ext w [] (repeat (sr_one bayesian_ops) (tlen X))
             (repeat (zeros (tlen X)) ext)) as (rows & E & Hl & Hrows); auto.
  - intros _. now rewrite (tlen_wf X n HX), tab_repeat.
  - congruence.
  - cbn [length] in E. rewrite E.
    rewrite save_rows_nth; try lia; [|now rewrite repeat_length].
    cbn [Nat.ltb Nat.leb]. rewrite Nat.sub_0_r.
    destruct (Hrows (length w - ext + r)%nat ltac:(lia)) as [_ Hs]. specialize (Hs t Ht).
    unfold strict_at in Hs. cbn [app] in Hs.
    replace (S (length w - ext + r)) with (length w - ext + r + 1)%nat in Hs by lia. fold p in Hs.
    revert Hs. destruct (Nat.ltb_spec (t + 1) (length p)); intros Hs; split; intros; auto; lia.
Qed.
