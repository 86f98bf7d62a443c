(** The Reals kernels compute the iterated sums of S_ISS. *)
From Coq Require Import List Arith ZArith Reals Lia Lra Bool.
From Verif Require Import Num Arr L_Arr S_ISS L_Tuples M_Semiring.
Import ListNotations.
Open Scope R_scope.

(** * Saving rows *)
Section Save.
Context {T : Type} `{Num T}.
Fixpoint save_rows (len ext k : nat) (rows : list (list T)) (result : list (list T)) :=
  match rows with
  | [] => result
  | r :: rows' => save_rows len ext (S k) rows' (save len k ext r result)
  end.

Lemma save_length len k ext (row : list T) result : length (save len k ext row result) = length result.
Proof. unfold save. destruct (_ <=? _)%nat; auto. apply upd_length. Qed.

Lemma save_rows_length len ext k rows (result : list (list T)) :
  length (save_rows len ext k rows result) = length result.
Proof.
  revert k result. induction rows as [|r rows IH]; intros k result; cbn; auto.
  now rewrite IH, save_length.
Qed.

Lemma save_rows_nth len ext rows : forall k (result : list (list T)) r d,
  length rows = (len - k)%nat -> (k <= len)%nat -> (ext <= len)%nat -> length result = ext ->
  (r < ext)%nat ->
  nth r (save_rows len ext k rows result) d =
  if (len - ext + r <? k)%nat then nth r result d else nth (len - ext + r - k) rows d.
Proof.
  induction rows as [|row rows IH]; intros k result r d Hlen Hk Hext Hres Hr; cbn [save_rows length] in *.
  - replace (len - ext + r <? k)%nat with true; auto.
    symmetry. apply Nat.ltb_lt. lia.
  - rewrite IH; try lia; [|now rewrite save_length].
    unfold save. destruct (len - k <=? ext)%nat eqn:E.
    + apply Nat.leb_le in E.
      destruct (Nat.eq_dec r (ext - (len - k))) as [->|Hne].
      * replace (len - ext + (ext - (len - k)) <? S k)%nat with true by (symmetry; apply Nat.ltb_lt; lia).
        replace (len - ext + (ext - (len - k)) <? k)%nat with false by (symmetry; apply Nat.ltb_ge; lia).
        rewrite upd_nth_eq by lia.
        replace (len - ext + (ext - (len - k)) - k)%nat with 0%nat by lia. reflexivity.
      * rewrite upd_nth_neq by lia.
        destruct (Nat.ltb_spec (len - ext + r) (S k)); destruct (Nat.ltb_spec (len - ext + r) k); try lia; auto.
        replace (len - ext + r - k)%nat with (S (len - ext + r - S k))%nat by lia. reflexivity.
    + apply Nat.leb_gt in E.
      destruct (Nat.ltb_spec (len - ext + r) (S k)); destruct (Nat.ltb_spec (len - ext + r) k); try lia; auto.
      replace (len - ext + r - k)%nat with (S (len - ext + r - S k))%nat by lia. reflexivity.
Qed.
End Save.

(** All prefixes of [word] extended on the left by [p]. *)
Fixpoint prefixes_from {A} (p word : list A) : list (list A) :=
  match word with
  | [] => []
  | e :: w => (p ++ [e]) :: prefixes_from (p ++ [e]) w
  end.
Lemma prefixes_from_length {A} (p word : list A) : length (prefixes_from p word) = length word.
Proof. revert p. induction word; intros p; cbn; auto. Qed.
Lemma prefixes_from_nth {A} (word : list A) : forall p j d,
  (j < length word)%nat -> nth j (prefixes_from p word) d = p ++ firstn (S j) word.
Proof.
  induction word as [|e w IH]; intros p j d Hj; cbn in Hj; [lia|].
  destruct j as [|j]; [reflexivity|]. cbn [prefixes_from nth].
  rewrite IH by lia. rewrite <- app_assoc. reflexivity.
Qed.

Lemma firstn_snoc_nth {A} (l : list A) k d :
  (k < length l)%nat -> firstn (S k) l = firstn k l ++ [nth k l d].
Proof.
  revert k. induction l as [|x l IH]; intros [|k] Hk; cbn in *; try lia; auto.
  f_equal. apply IH. lia.
Qed.

(** * Extended letters *)
Section Ext.
Variables (X : mts R) (n : nat).
Hypothesis HX : wf_series X n.

Lemma row_tab d : (d < length X)%nat -> nth d X [] = tab n (at_ X d).
Proof.
  intros Hd. destruct HX as [_ Hf]. rewrite Forall_forall in Hf.
  rewrite (tab_eta' 0 n (nth d X [])) at 1; [reflexivity|].
  apply Hf. now apply nth_In.
Qed.

Lemma tlen_wf : tlen X = n.
Proof. destruct HX as [Hne Hf]. destruct X; [congruence|]. inversion Hf; subst. auto. Qed.

Lemma iter_mul_tab m f d : (d < length X)%nat ->
  Nat.iter m (fun t => vmul t (nth d X [])) (tab n f) = tab n (fun i => f i * at_ X d i ^ m).
Proof.
  intros Hd. rewrite (row_tab d Hd). induction m as [|m IH]; cbn [Nat.iter nat_rect].
  - apply tab_ext. intros. cbn. lra.
  - unfold Nat.iter in IH. rewrite IH, vmul_tab. apply tab_ext. intros. cbn. lra.
Qed.

Lemma iter_div_tab m f d : (d < length X)%nat -> (forall i, (i < n)%nat -> at_ X d i <> 0) ->
  Nat.iter m (fun t => vdiv t (nth d X [])) (tab n f) = tab n (fun i => f i * / (at_ X d i ^ m)).
Proof.
  intros Hd Hnz. rewrite (row_tab d Hd). induction m as [|m IH]; cbn [Nat.iter nat_rect].
  - apply tab_ext. intros. cbn. field.
  - unfold Nat.iter in IH. rewrite IH, vdiv_tab. apply tab_ext. intros i Hi. cbn. field.
    split; [now apply pow_nonzero; apply Hnz|now apply Hnz].
Qed.

Lemma apply_letter_tab d o f :
  (o <> 0%Z -> (d < length X)%nat) ->
  ((o < 0)%Z -> forall i, (i < n)%nat -> at_ X d i <> 0) ->
  apply_letter (nth d X []) o (tab n f) = tab n (fun i => f i * powerRZ (at_ X d i) o).
Proof.
  intros Hd Hnz. unfold apply_letter.
  destruct (Z.ltb_spec 0 o) as [Ho|Ho].
  - rewrite iter_mul_tab by (apply Hd; lia). apply tab_ext. intros i Hi.
    f_equal. destruct o as [|q|q]; try lia. reflexivity.
  - destruct (Z.ltb_spec o 0) as [Ho'|Ho'].
    + rewrite iter_div_tab; [|apply Hd; lia|now apply Hnz]. apply tab_ext. intros i Hi.
      f_equal. destruct o as [|q|q]; try lia. reflexivity.
    + replace o with 0%Z by lia. apply tab_ext. intros. cbn. lra.
Qed.

Lemma apply_ext_tab_gen el : forall d f,
  (forall j, (j < length el)%nat -> nth j el 0%Z <> 0%Z -> (d + j < length X)%nat) ->
  (forall j i, (j < length el)%nat -> (nth j el 0 < 0)%Z -> (i < n)%nat -> at_ X (d + j) i <> 0) ->
  apply_ext X d el (tab n f) =
  tab n (fun i => f i * Rprod (map (fun j => powerRZ (at_ X (d + j) i) (nth j el 0%Z)) (seq 0 (length el)))).
Proof.
  induction el as [|o el IH]; intros d f Hd Hnz; cbn [apply_ext].
  - apply tab_ext. intros. cbn. lra.
  - rewrite apply_letter_tab.
    + rewrite IH.
      * apply tab_ext. intros i Hi. cbn [length seq map nth]. rewrite Rprod_cons, Nat.add_0_r.
        rewrite <- seq_shift, map_map. rewrite Rmult_assoc. do 2 f_equal. f_equal.
        apply map_ext. intros j. now rewrite Nat.add_succ_r.
      * intros j Hj Hne. specialize (Hd (S j)). cbn in Hd. rewrite Nat.add_succ_r in Hd. apply Hd; auto; lia.
      * intros j i Hj Hne Hi. specialize (Hnz (S j) i). cbn in Hnz. rewrite Nat.add_succ_r in Hnz. apply Hnz; auto; lia.
    + intros Ho. specialize (Hd 0%nat). cbn in Hd. rewrite Nat.add_0_r in Hd. apply Hd; auto; lia.
    + intros Ho i Hi. specialize (Hnz 0%nat i). cbn in Hnz. rewrite Nat.add_0_r in Hnz. apply Hnz; auto; lia.
Qed.

Definition el_ok (el : list Z) : Prop :=
  (forall j, (j < length el)%nat -> nth j el 0%Z <> 0%Z -> (j < length X)%nat) /\
  (forall j i, (j < length el)%nat -> (nth j el 0 < 0)%Z -> (i < n)%nat -> at_ X j i <> 0).

Lemma apply_ext_tab el f : el_ok el ->
  apply_ext X 0 el (tab n f) = tab n (fun i => f i * ext_val X el i).
Proof. intros [H1 H2]. now rewrite apply_ext_tab_gen. Qed.

(** * Weighted kernels *)
Variables (alpha g : list R).
Hypothesis Hg : length g = n.
Let ga (i : nat) := nth i g 0.
Let aa (j : nat) := nth j alpha 0.

Lemma g_tab : g = tab n ga.
Proof. apply tab_eta'; auto. Qed.
Lemma expw_tab a : expw g a = tab n (fun i => exp (ga i * a)).
Proof. unfold expw. rewrite g_tab at 1. now rewrite vscale_tab, vexp_tab. Qed.
Lemma expwn_tab a : expwn g a = tab n (fun i => exp (- ga i * a)).
Proof. unfold expwn. rewrite g_tab at 1. now rewrite vneg_tab, vscale_tab, vexp_tab. Qed.

Definition inw (k i : nat) : R := match k with O => 1 | S j => exp (- ga i * aa j) end.
Definition Ffun (e : list Z) (k i : nat) : R := inw k i * ext_val X e i * exp (ga i * aa k).
Definition Gfun (e : list Z) (k i : nat) : R := inw k i * ext_val X e i.
Definition Fs (p : list (list Z)) : list (nat -> R) :=
  map (fun j => Ffun (nth j p []) j) (seq 0 (length p)).

Lemma Fs_snoc p e : Fs (p ++ [e]) = Fs p ++ [Ffun e (length p)].
Proof. clear Hg HX.
  unfold Fs. rewrite app_length. cbn [length]. rewrite Nat.add_1_r, seq_S, map_app. f_equal.
  - apply map_ext_in. intros j Hj. apply in_seq in Hj. now rewrite app_nth1 by lia.
  - cbn. now rewrite app_nth2, Nat.sub_diag by lia.
Qed.
Lemma Fs_length p : length (Fs p) = length p.
Proof. unfold Fs. now rewrite map_length, seq_length. Qed.

Definition row_total (p : list (list Z)) : list R :=
  tab n (fun t => gsum (Fs p) (S t) * exp (- ga t * aa (length p - 1))).
Definition row_plain (p : list (list Z)) : list R :=
  tab n (fun t => gsum (Fs (removelast p) ++ [Gfun (last p []) (length p - 1)]) (S t)).

Lemma shift0_tab f : shift0 (tab n f) = tab n (fun i => match i with O => 0 | S j => f j end).
Proof.
  unfold shift0. rewrite roll1_tab, upd_tab. apply tab_ext. intros [|i] Hi; reflexivity.
Qed.

Lemma shift0_gsum fs f :
  shift0 (tab n (fun t => gsum (fs ++ [f]) (S t))) = tab n (gsum (fs ++ [f])).
Proof.
  rewrite shift0_tab. apply tab_ext. intros [|i] Hi; auto. symmetry. apply gsum_snoc_0.
Qed.

Lemma total_reals_loop_rows len ext word : forall p tmp result,
  Forall el_ok word -> len = (length p + length word)%nat ->
  tmp = tab n (fun i => gsum (Fs p) i * inw (length p) i) ->
  total_reals_loop X alpha g len ext (length p) word tmp result =
  save_rows len ext (length p) (map row_total (prefixes_from p word)) result.
Proof.
  induction word as [|el word IH]; intros p tmp result Hok Hlen Htmp; [reflexivity|].
  pose proof (Forall_inv Hok) as Hel; pose proof (Forall_inv_tail Hok) as Hok'.
  cbn [total_reals_loop prefixes_from map save_rows].
  subst tmp. rewrite apply_ext_tab by auto.
  rewrite expw_tab, expwn_tab, vmul_tab, cumsum_tab.
  assert (Ec : tab n (accum nadd (fun i => nmul (gsum (Fs p) i * inw (length p) i * ext_val X el i)
                                       (exp (ga i * nth (length p) alpha nzero))))
               = tab n (fun t => gsum (Fs (p ++ [el])) (S t))).
  { apply tab_ext. intros t Ht. cbn [nadd nmul RNum nzero]. rewrite accum_csum, Fs_snoc, gsum_snoc.
    apply csum_ext. intros i Hi. unfold Ffun, aa. ring. }
  rewrite Ec. rewrite vmul_tab. cbn [length] in Hlen.
  assert (Er : tab n (fun i => nmul (gsum (Fs (p ++ [el])) (S i)) (exp (- ga i * nth (length p) alpha nzero)))
               = row_total (p ++ [el])).
  { unfold row_total. apply tab_ext. intros t Ht. rewrite app_length. cbn [length].
    replace (length p + 1 - 1)%nat with (length p) by lia. reflexivity. }
  rewrite Er.
  replace (S (length p)) with (length (p ++ [el])) by (rewrite app_length; cbn; lia).
  destruct word as [|el2 word].
  - reflexivity.
  - apply IH; auto; [rewrite app_length; cbn in *; lia|].
    replace (length p <? len - 1)%nat with true by (symmetry; apply Nat.ltb_lt; cbn in *; lia).
    rewrite Fs_snoc, shift0_gsum, vmul_tab. apply tab_ext. intros i Hi.
    rewrite app_length. cbn [length]. rewrite Nat.add_1_r. reflexivity.
Qed.

Lemma reals_loop_rows len ext word : forall p tmp result,
  Forall el_ok word -> len = (length p + length word)%nat ->
  tmp = tab n (fun i => gsum (Fs p) (if (0 <? length p)%nat then S i else i)) ->
  reals_loop X alpha g len ext (length p) word tmp result =
  save_rows len ext (length p) (map row_plain (prefixes_from p word)) result.
Proof.
  induction word as [|el word IH]; intros p tmp result Hok Hlen Htmp; [reflexivity|].
  pose proof (Forall_inv Hok) as Hel; pose proof (Forall_inv_tail Hok) as Hok'.
  cbn [reals_loop prefixes_from map save_rows].
  set (tmp1 := if (0 <? length p)%nat then shift0 tmp else tmp).
  assert (E1 : tmp1 = tab n (gsum (Fs p))).
  { subst tmp1 tmp. destruct (snoc_cases p) as [->|(p' & e & ->)]; [reflexivity|].
    rewrite app_length. cbn [length]. rewrite Nat.add_1_r. cbn [Nat.ltb Nat.leb].
    rewrite Fs_snoc. apply shift0_gsum. }
  rewrite E1. clear tmp1 E1. rewrite apply_ext_tab by auto.
  set (tmp2 := if (0 <? length p)%nat then _ else _).
  assert (E2 : tmp2 = tab n (fun i => gsum (Fs p) i * Gfun el (length p) i)).
  { subst tmp2. destruct (length p) as [|k] eqn:Ek; cbn [Nat.ltb Nat.leb].
    - apply tab_ext. intros. unfold Gfun. cbn. ring.
    - rewrite expwn_tab, vmul_tab. apply tab_ext. intros i Hi. unfold Gfun. cbn [inw].
      cbn [Nat.sub]. rewrite Nat.sub_0_r. cbn [nmul RNum nzero]. unfold aa. ring. }
  rewrite E2. clear tmp2 E2. clear Htmp.
  rewrite cumsum_tab.
  assert (Er : tab n (accum nadd (fun i => gsum (Fs p) i * Gfun el (length p) i)) = row_plain (p ++ [el])).
  { unfold row_plain. apply tab_ext. intros t Ht.
    rewrite removelast_last, last_last, app_length. cbn [length].
    replace (length p + 1 - 1)%nat with (length p) by lia.
    cbn [nadd RNum]. rewrite accum_csum, gsum_snoc. reflexivity. }
  rewrite Er.
  rewrite expw_tab, vmul_tab, cumsum_tab.
  replace (S (length p)) with (length (p ++ [el])) by (rewrite app_length; cbn; lia).
  destruct word as [|el2 word]; [reflexivity|].
  apply IH; auto; [rewrite app_length; cbn in *; lia|].
  replace (length p <? len - 1)%nat with true by (symmetry; apply Nat.ltb_lt; cbn in *; lia).
  rewrite app_length. cbn [length]. rewrite Nat.add_1_r. cbn [Nat.ltb Nat.leb].
  apply tab_ext. intros t Ht. cbn [nadd nmul RNum nzero].
  rewrite accum_csum, Fs_snoc, gsum_snoc. apply csum_ext. intros i Hi.
  unfold Ffun, Gfun, aa. ring.
Qed.

(** * Algebra: the rows are the specified sums *)
Lemma word_val_snoc p e tau i : length tau = length p ->
  word_val X (p ++ [e]) (tau ++ [i]) = word_val X p tau * ext_val X e i.
Proof. clear Hg HX.
  intros E. unfold word_val. rewrite app_length. cbn [length].
  rewrite Nat.add_1_r, seq_S, map_app, Rprod_app. f_equal.
  - f_equal. apply map_ext_in. intros j Hj. apply in_seq in Hj. now rewrite !app_nth1 by lia.
  - cbn [map plus]. rewrite Rprod_cons, Rprod_nil. rewrite !app_nth2 by lia.
    rewrite E, Nat.sub_diag. cbn [nth]. ring.
Qed.

Lemma weight_exp_single i : weight_exp alpha g [i] = 0.
Proof. reflexivity. Qed.

Lemma last_nth {A} (l : list A) d : last l d = nth (length l - 1) l d.
Proof. clear Hg HX.
  destruct (snoc_cases l) as [->|(l' & x & ->)]; [reflexivity|].
  rewrite last_last, app_length. cbn [length].
  replace (length l' + 1 - 1)%nat with (length l') by lia.
  now rewrite app_nth2, Nat.sub_diag by lia.
Qed.

Lemma weight_exp_snoc tau i : tau <> [] ->
  weight_exp alpha g (tau ++ [i]) =
  weight_exp alpha g tau + aa (length tau - 1) * (ga (last tau 0%nat) - ga i).
Proof. clear Hg HX.
  intros Hne. unfold weight_exp. rewrite app_length. cbn [length].
  assert (Hl : (0 < length tau)%nat) by (destruct tau; [congruence|cbn; lia]).
  replace (length tau + 1 - 1)%nat with (S (length tau - 1)) by lia.
  rewrite seq_S, map_app, Rsum_app. f_equal.
  - f_equal. apply map_ext_in. intros j Hj. apply in_seq in Hj. now rewrite !app_nth1 by lia.
  - cbn [map plus]. rewrite Rsum_cons, Rsum_nil.
    rewrite app_nth1 by lia. rewrite app_nth2 by lia.
    replace (S (length tau - 1) - length tau)%nat with 0%nat by lia. cbn [nth].
    rewrite <- last_nth. unfold aa, ga. ring.
Qed.

Lemma Fs_prod p : forall tau, length tau = length p ->
  Rprod (fapp (Fs p) tau) =
  word_val X p tau * exp (weight_exp alpha g tau)
  * (if (0 <? length p)%nat then exp (ga (last tau 0%nat) * aa (length p - 1)) else 1).
Proof. clear Hg HX.
  induction p as [|e p IH] using rev_ind; intros tau Hl.
  - destruct tau; [|discriminate]. cbn. unfold weight_exp, word_val. cbn. rewrite exp_0. ring.
  - destruct (snoc_cases tau) as [->|(t & i & ->)]; [rewrite app_length in Hl; cbn in Hl; lia|].
    rewrite !app_length in Hl. cbn in Hl. assert (Hl' : length t = length p) by lia.
    rewrite Fs_snoc, fapp_snoc by (rewrite Fs_length; auto).
    rewrite Rprod_app, IH, word_val_snoc by auto. rewrite Rprod_cons, Rprod_nil.
    rewrite app_length. cbn [length]. rewrite Nat.add_1_r. cbn [Nat.ltb Nat.leb].
    replace (S (length p) - 1)%nat with (length p) by lia. rewrite last_last.
    unfold Ffun. destruct (length p) as [|k] eqn:Ek; cbn [Nat.ltb Nat.leb inw].
    + destruct t; [|discriminate]. cbn [app]. rewrite weight_exp_single.
      unfold weight_exp. cbn. ring.
    + rewrite weight_exp_snoc by (destruct t; [discriminate|congruence]).
      rewrite Hl'. replace (S k - 1)%nat with k by lia.
      replace (aa k * (ga (last t 0%nat) - ga i)) with (ga (last t 0%nat) * aa k + - ga i * aa k) by ring.
      rewrite !exp_plus. ring.
Qed.

Lemma row_total_spec p : p <> [] ->
  row_total p = tab n (iss_weighted X p alpha g true).
Proof.
  intros Hp. assert (Hl : (0 < length p)%nat) by (destruct p; [congruence|cbn; lia]).
  unfold row_total. apply tab_ext. intros t Ht. unfold gsum, iss_weighted.
  rewrite Fs_length, <- Rsum_map_scal_r. f_equal. apply map_ext_in. intros tau Htau.
  apply itup_In in Htau. destruct Htau as (Hlt & _ & _).
  rewrite Fs_prod by auto. replace (0 <? length p)%nat with true by (symmetry; now apply Nat.ltb_lt).
  unfold total_exp. rewrite Hlt. fold (ga (last tau 0%nat)) (aa (length p - 1)) (ga t).
  replace (aa (length p - 1) * (ga (last tau 0%nat) - ga t))
    with (ga (last tau 0%nat) * aa (length p - 1) + - ga t * aa (length p - 1)) by ring.
  rewrite exp_plus. ring.
Qed.

Lemma row_plain_spec p : p <> [] ->
  row_plain p = tab n (iss_weighted X p alpha g false).
Proof.
  intros Hp. destruct (snoc_cases p) as [->|(q & e & ->)]; [congruence|].
  unfold row_plain. rewrite removelast_last, last_last, app_length. cbn [length].
  replace (length q + 1 - 1)%nat with (length q) by lia.
  apply tab_ext. intros t Ht. unfold gsum, iss_weighted.
  rewrite !app_length, Fs_length. cbn [length]. f_equal. apply map_ext_in. intros tau Htau.
  apply itup_In in Htau. destruct Htau as (Hlt & _ & _).
  destruct (snoc_cases tau) as [->|(ta & i & ->)]; [cbn in Hlt; lia|].
  rewrite app_length in Hlt. cbn in Hlt. assert (Hl' : length ta = length q) by lia.
  rewrite fapp_snoc by (rewrite Fs_length; auto).
  rewrite Rprod_app, Fs_prod, word_val_snoc by auto. rewrite Rprod_cons, Rprod_nil.
  unfold Gfun. destruct (length q) as [|k] eqn:Ek; cbn [Nat.ltb Nat.leb inw].
  - destruct ta; [|discriminate]. cbn [app]. rewrite weight_exp_single.
    unfold weight_exp. cbn. ring.
  - rewrite weight_exp_snoc by (destruct ta; [discriminate|congruence]).
    rewrite Hl'. replace (S k - 1)%nat with k by lia.
    replace (aa k * (ga (last ta 0%nat) - ga i)) with (ga (last ta 0%nat) * aa k + - ga i * aa k) by ring.
    rewrite !exp_plus. ring.
Qed.
End Ext.

(** * Kernel theorems *)
Definition word_ok (X : mts R) (n : nat) (w : list (list Z)) : Prop :=
  letters_in (length X) w /\ nonzero_where_neg X n w.

Lemma word_ok_el X n w : word_ok X n w -> Forall (el_ok X n) w.
Proof.
  intros [H1 H2]. unfold letters_in, nonzero_where_neg in *.
  rewrite Forall_forall in *. intros e He. split; [now apply H1|now apply H2].
Qed.

Lemma prefixes_nth {A} (w : list A) j : (j < length w)%nat ->
  nth j (prefixes_from [] w) [] = firstn (S j) w.
Proof. intros Hj. now rewrite prefixes_from_nth. Qed.

Lemma firstn_S_ne {A} (w : list A) j : (j < length w)%nat -> firstn (S j) w <> [].
Proof. destruct w; cbn; [lia|congruence]. Qed.

Lemma total_reals_single_row X n w alpha g ext r :
  wf_series X n -> word_ok X n w -> length g = n -> (ext <= length w)%nat -> (r < ext)%nat ->
  nth r (total_reals_single X w alpha g ext) [] =
  tab n (iss_weighted X (firstn (length w - ext + r + 1) w) alpha g true).
Proof.
  intros HX Hw Hg He Hr. unfold total_reals_single.
  change 0%nat with (length (@nil (list Z))) at 1.
  rewrite (total_reals_loop_rows X n HX alpha g Hg).
  - cbn [length]. rewrite save_rows_nth; try lia;
      [|now rewrite map_length, prefixes_from_length, Nat.sub_0_r|now rewrite repeat_length].
    cbn [Nat.ltb Nat.leb]. rewrite Nat.sub_0_r.
    assert (Hj : (length w - ext + r < length w)%nat) by lia.
    rewrite (nth_indep _ [] (row_total X n alpha g [])) by (now rewrite map_length, prefixes_from_length).
    rewrite map_nth, prefixes_nth by lia. rewrite row_total_spec; auto.
    + now rewrite Nat.add_1_r.
    + now apply firstn_S_ne.
  - now apply word_ok_el.
  - reflexivity.
  - rewrite (tlen_wf X n HX), ones_tab. apply tab_ext. intros i Hi. unfold Fs. cbn [length seq map]. rewrite gsum_nil. cbn. ring.
Qed.

Lemma reals_single_row X n w alpha g ext r :
  wf_series X n -> word_ok X n w -> length g = n -> (ext <= length w)%nat -> (r < ext)%nat ->
  nth r (reals_single X w alpha g ext) [] =
  tab n (iss_weighted X (firstn (length w - ext + r + 1) w) alpha g false).
Proof.
  intros HX Hw Hg He Hr. unfold reals_single.
  change 0%nat with (length (@nil (list Z))) at 1.
  rewrite (reals_loop_rows X n HX alpha g Hg).
  - cbn [length]. rewrite save_rows_nth; try lia;
      [|now rewrite map_length, prefixes_from_length, Nat.sub_0_r|now rewrite repeat_length].
    cbn [Nat.ltb Nat.leb]. rewrite Nat.sub_0_r.
    rewrite (nth_indep _ [] (row_plain X n alpha g [])) by (rewrite map_length, prefixes_from_length; lia).
    rewrite map_nth, prefixes_nth by lia. rewrite row_plain_spec; auto.
    + now rewrite Nat.add_1_r.
    + apply firstn_S_ne. lia.
  - now apply word_ok_el.
  - reflexivity.
  - rewrite (tlen_wf X n HX), ones_tab. apply tab_ext. intros i Hi. unfold Fs. cbn [length seq map]. now rewrite gsum_nil.
Qed.

Lemma total_reals_single_length X n w alpha g ext :
  wf_series X n -> word_ok X n w -> length g = n -> length (total_reals_single X w alpha g ext) = ext.
Proof.
  intros HX Hw Hg. unfold total_reals_single.
  change 0%nat with (length (@nil (list Z))) at 1.
  rewrite (total_reals_loop_rows X n HX alpha g Hg).
  - now rewrite save_rows_length, repeat_length.
  - now apply word_ok_el.
  - reflexivity.
  - rewrite (tlen_wf X n HX), ones_tab. apply tab_ext. intros i Hi. unfold Fs. cbn [length seq map]. rewrite gsum_nil. cbn. ring.
Qed.

Lemma iss_weighted_zero X w t total m k :
  iss_weighted X w (zeros m) (zeros k) total t = iss X w t.
Proof.
  assert (Z0 : forall i q, nth i (zeros q) 0 = 0).
  { intros i q. unfold zeros. cbn [nzero RNum]. revert i. induction q; intros [|i]; cbn; auto. }
  unfold iss_weighted, iss. f_equal. apply map_ext. intros tau.
  assert (E : weight_exp (zeros m) (zeros k) tau = 0).
  { unfold weight_exp. apply Rsum_zero. intros j _. rewrite Z0. ring. }
  rewrite E, exp_0. unfold total_exp. rewrite !Z0.
  destruct total; [replace (0 * (0 - 0)) with 0 by ring; rewrite exp_0|]; ring.
Qed.
