(** Lemmas about CosWISS (M_Cos.v). *)
From Coq Require Import Ascii String List Arith ZArith Bool Lia Reals Lra.
From Verif Require Import Num Arr M_Str M_Semiring M_Words M_Np M_Prep M_Cos S_ISS S_Cos
  L_Arr L_Tuples L_Reals L_Prep L_Str.
Import ListNotations.
Open Scope R_scope.

(** * The table of exponents *)
(** Value of a row for sines [a] and cosines [b] at the positions 0..p-1. *)
Definition tval (a b : nat -> R) (p : nat) (row : list nat) : R :=
  Rprod (map (fun i => a i ^ nth (2 * i + 1) row 0%nat * b i ^ nth (2 * i + 2) row 0%nat) (seq 0 p)).
Definition rval (a b : nat -> R) (p : nat) (row : list nat) : R := INR (nth 0 row 0%nat) * tval a b p row.

Lemma incr_length i v row : length (incr i v row) = length row.
Proof. unfold incr. apply upd_length. Qed.
Lemma nth_incr i v row j : (i < length row)%nat ->
  nth j (incr i v row) 0%nat = if (j =? i)%nat then (nth i row 0 + v)%nat else nth j row 0%nat.
Proof.
  intros Hi. unfold incr. destruct (Nat.eqb_spec j i) as [->|Hne].
  - now rewrite upd_nth_eq.
  - now rewrite upd_nth_neq by auto.
Qed.
Lemma Rprod_one (f g : nat -> R) c i l : NoDup l -> In i l ->
  g i = f i * c -> (forall j, j <> i -> g j = f j) -> Rprod (map g l) = Rprod (map f l) * c.
Proof.
  intros Hnd Hi Hgi Hg. induction Hnd as [|x l Hx Hnd IH]; [destruct Hi|].
  cbn [map]. rewrite !Rprod_cons. destruct Hi as [->|Hi].
  - rewrite Hgi. replace (map g l) with (map f l); [ring|].
    apply map_ext_in. intros j Hj. symmetry. apply Hg. intros ->. contradiction.
  - rewrite IH by auto. rewrite Hg; [ring|]. intros ->. contradiction.
Qed.
Lemma tval_incr_sin a b p i v row : (i < p)%nat -> length row = (2 * p + 1)%nat ->
  tval a b p (incr (2 * i + 1) v row) = tval a b p row * a i ^ v.
Proof.
  intros Hi Hl. unfold tval. apply (Rprod_one _ _ _ i); [apply seq_NoDup|apply in_seq; lia| |].
  - rewrite !nth_incr by lia. rewrite Nat.eqb_refl.
    replace (2 * i + 2 =? 2 * i + 1)%nat with false by (symmetry; apply Nat.eqb_neq; lia).
    rewrite pow_add. ring.
  - intros j Hj. rewrite !nth_incr by lia.
    replace (2 * j + 1 =? 2 * i + 1)%nat with false by (symmetry; apply Nat.eqb_neq; lia).
    replace (2 * j + 2 =? 2 * i + 1)%nat with false by (symmetry; apply Nat.eqb_neq; lia).
    reflexivity.
Qed.
Lemma tval_incr_cos a b p i v row : (i < p)%nat -> length row = (2 * p + 1)%nat ->
  tval a b p (incr (2 * i + 2) v row) = tval a b p row * b i ^ v.
Proof.
  intros Hi Hl. unfold tval. apply (Rprod_one _ _ _ i); [apply seq_NoDup|apply in_seq; lia| |].
  - rewrite !nth_incr by lia. rewrite Nat.eqb_refl.
    replace (2 * i + 1 =? 2 * i + 2)%nat with false by (symmetry; apply Nat.eqb_neq; lia).
    rewrite pow_add. ring.
  - intros j Hj. rewrite !nth_incr by lia.
    replace (2 * j + 1 =? 2 * i + 2)%nat with false by (symmetry; apply Nat.eqb_neq; lia).
    replace (2 * j + 2 =? 2 * i + 2)%nat with false by (symmetry; apply Nat.eqb_neq; lia).
    reflexivity.
Qed.
Lemma tval_head a b p v row : tval a b p (upd 0 v row) = tval a b p row.
Proof.
  unfold tval. f_equal. apply map_ext. intros i. rewrite !upd_nth_neq by lia. reflexivity.
Qed.
(** What one gap contributes. *)
Definition gapv (a b : nat -> R) (i : nat) (t : pystr) : R :=
  INR (digit_at 0 t) * ((a i * a (S i)) ^ digit_at 1 t * (b i * b (S i)) ^ digit_at 2 t).
Fixpoint gapsv (a b : nat -> R) (i : nat) (comb : list pystr) : R :=
  match comb with [] => 1 | t :: r => gapv a b i t * gapsv a b (S i) r end.
Lemma weighting_step_length row i t : length (weighting_step row i t) = length row.
Proof. unfold weighting_step. rewrite !incr_length. apply upd_length. Qed.
Lemma weighting_step_val a b p row i t : (S i < p)%nat -> length row = (2 * p + 1)%nat ->
  rval a b p (weighting_step row i t) = rval a b p row * gapv a b i t.
Proof.
  intros Hi Hl. unfold rval.
  assert (Hn : nth 0 (weighting_step row i t) 0%nat = (nth 0 row 0 * digit_at 0 t)%nat).
  { unfold weighting_step. rewrite !nth_incr by (rewrite ?incr_length, ?upd_length; lia).
    replace (0 =? 2 * i + 4)%nat with false by (symmetry; apply Nat.eqb_neq; lia).
    replace (0 =? 2 * i + 2)%nat with false by (symmetry; apply Nat.eqb_neq; lia).
    replace (0 =? 2 * i + 3)%nat with false by (symmetry; apply Nat.eqb_neq; lia).
    replace (0 =? 2 * i + 1)%nat with false by (symmetry; apply Nat.eqb_neq; lia).
    apply upd_nth_eq. lia. }
  rewrite Hn. unfold weighting_step.
  replace (2 * i + 4)%nat with (2 * S i + 2)%nat by lia.
  replace (2 * i + 3)%nat with (2 * S i + 1)%nat by lia.
  rewrite tval_incr_cos, tval_incr_cos, tval_incr_sin, tval_incr_sin, tval_head
    by (rewrite ?incr_length, ?upd_length; lia).
  unfold gapv. rewrite mult_INR, !Rpow_mult_distr. ring.
Qed.
Lemma weighting_row_length comb : forall i row, length (weighting_row i comb row) = length row.
Proof. induction comb as [|t r IH]; intros; [reflexivity|]. cbn [weighting_row]. now rewrite IH, weighting_step_length. Qed.
Lemma weighting_row_val a b p comb : forall i row, (i + length comb < p)%nat -> length row = (2 * p + 1)%nat ->
  rval a b p (weighting_row i comb row) = rval a b p row * gapsv a b i comb.
Proof.
  induction comb as [|t r IH]; intros i row Hi Hl; cbn [weighting_row gapsv]; [ring|].
  cbn [length] in Hi. rewrite IH by (rewrite ?weighting_step_length; lia).
  rewrite weighting_step_val by lia. ring.
Qed.
Lemma rval_init a b p : rval a b p (upd 0 1%nat (repeat 0%nat (2 * p + 1))) = 1.
Proof.
  unfold rval. rewrite upd_nth_eq by (rewrite repeat_length; lia). rewrite tval_head. unfold tval.
  assert (E : forall l, Rprod (map (fun i => a i ^ nth (2 * i + 1) (repeat 0%nat (2 * p + 1)) 0%nat
                                  * b i ^ nth (2 * i + 2) (repeat 0%nat (2 * p + 1)) 0%nat) l) = 1).
  { induction l as [|x l IH]; [reflexivity|]. cbn [map]. rewrite Rprod_cons, IH, !nth_repeat. cbn. ring. }
  rewrite E. cbn. ring.
Qed.

(** A product of sums is the sum over all combinations. *)
Lemma Rsum_concat l : Rsum (concat l) = Rsum (map Rsum l).
Proof. induction l as [|x l IH]; [reflexivity|]. cbn [concat map]. now rewrite Rsum_app, Rsum_cons, IH. Qed.
Lemma Rsum_flat_map {A} (f : A -> list R) l : Rsum (flat_map f l) = Rsum (map (fun x => Rsum (f x)) l).
Proof. rewrite flat_map_concat_map, Rsum_concat, map_map. reflexivity. Qed.
Lemma map_flat_map {A B C} (h : B -> C) (f : A -> list B) l : map h (flat_map f l) = flat_map (fun x => map h (f x)) l.
Proof. induction l as [|x l IH]; [reflexivity|]. cbn [flat_map]. now rewrite map_app, IH. Qed.
Lemma product_length {A} (l : list A) m c : In c (product l m) -> length c = m.
Proof.
  revert c. induction m as [|m IH]; intros c Hc; cbn [product] in Hc.
  - destruct Hc as [<-|[]]. reflexivity.
  - apply in_flat_map in Hc. destruct Hc as (x & _ & Hc). apply in_map_iff in Hc.
    destruct Hc as (r & <- & Hr). cbn. f_equal. auto.
Qed.
Lemma product_gapsv a b l m : forall i,
  Rsum (map (gapsv a b i) (product l m)) = Rprod (map (fun j => Rsum (map (gapv a b j) l)) (seq i m)).
Proof.
  induction m as [|m IH]; intros i; cbn [product seq map]; [cbn; ring|].
  rewrite map_flat_map, Rsum_flat_map, Rprod_cons, <- (IH (S i)), <- Rsum_map_scal_r. f_equal.
  apply map_ext. intros t. rewrite map_map. cbn [gapsv]. now rewrite Rsum_map_scal.
Qed.
(** The sum over the table. *)
Lemma table_sum a b s (total : bool) len : (0 < len)%nat ->
  let p := if total then (len + 1)%nat else len in
  Rsum (map (rval a b p) (get_weightings s total len))
  = Rprod (map (fun j => Rsum (map (gapv a b j) (trig_id s))) (seq 0 (p - 1))).
Proof.
  intros Hlen p. unfold get_weightings. fold p. rewrite map_map, <- product_gapsv. f_equal.
  apply map_ext_in. intros c Hc. apply product_length in Hc.
  assert (0 < p)%nat by (subst p; destruct total; lia).
  rewrite weighting_row_val by (rewrite ?upd_length, ?repeat_length; lia).
  rewrite rval_init. ring.
Qed.
Lemma table_row_length s (total : bool) len row : In row (get_weightings s total len) ->
  length row = (if total then 2 * len + 3 else 2 * len + 1)%nat.
Proof.
  intros Hr. unfold get_weightings in Hr. apply in_map_iff in Hr. destruct Hr as (c & <- & _).
  rewrite weighting_row_length, upd_length, repeat_length. destruct total; lia.
Qed.
(** Exponents up to 4: the binomial theorem. *)
Lemma trig_small a b j s : (s <= 4)%nat ->
  Rsum (map (gapv a b j) (trig_id s)) = (a j * a (S j) + b j * b (S j)) ^ s.
Proof.
  intros Hs. unfold gapv.
  destruct s as [|[|[|[|[|s]]]]]; try lia;
    cbv [trig_id trig_loop Nat.add Nat.sub Nat.mul Nat.div Nat.divmod fst snd];
    cbv [str_nat str_nat_aux Nat.ltb Nat.leb app digit_char Nat.add]; cbn [map];
    repeat match goal with |- context [digit_at ?i ?t] =>
      let v := eval vm_compute in (digit_at i t) in change (digit_at i t) with v end;
    cbn [INR Rsum fold_right pow]; ring.
Qed.

(** * The kernel *)
Lemma mul_times_tab n f g m : mul_times m (tab n g) (tab n f) = tab n (fun i => f i * g i ^ m).
Proof.
  unfold mul_times. induction m as [|m IH]; cbn [Nat.iter nat_rect].
  - apply tab_ext. intros. cbn. ring.
  - unfold Nat.iter in IH. rewrite IH. unfold vmul. rewrite tab_map2. apply tab_ext. intros. cbn. ring.
Qed.
Lemma drop_at_tab n idx : forall f,
  drop_at idx (tab n f) = tab n (fun i => if existsb (Nat.eqb i) idx then 0 else f i).
Proof.
  unfold drop_at. induction idx as [|j idx IH]; intros f; cbn [fold_left existsb].
  - apply tab_ext. reflexivity.
  - rewrite upd_tab, IH. apply tab_ext. intros i _. destruct (Nat.eqb_spec i j); cbn [orb];
      destruct (existsb _ _); reflexivity.
Qed.

Section Kernel.
Variables (X : mts R) (n : nat).
Hypothesis HX : wf_series X n.
Variables (sn cs : nat -> R) (drop : nat -> list nat) (row : list nat).

(** Factor of letter [e] at position [k] of the word and time [i]. *)
Definition cfac (k : nat) (e : list Z) (i : nat) : R :=
  if existsb (Nat.eqb i) (drop k) then 0
  else ext_val X e i * sn i ^ nth (2 * k + 1) row 0%nat * cs i ^ nth (2 * k + 2) row 0%nat.
Definition cfs (p : list (list Z)) : list (nat -> R) :=
  map (fun j => cfac j (nth j p [])) (seq 0 (length p)).
Lemma cfs_snoc p e : cfs (p ++ [e]) = cfs p ++ [cfac (length p) e].
Proof. clear HX.
  unfold cfs. rewrite app_length. cbn [length]. rewrite Nat.add_1_r, seq_S, map_app. f_equal.
  - apply map_ext_in. intros j Hj. apply in_seq in Hj. now rewrite app_nth1 by lia.
  - cbn. now rewrite app_nth2, Nat.sub_diag by lia.
Qed.
Lemma cos_loop_rows word : forall p tmp, Forall (el_ok X n) word ->
  tmp = tab n (fun i => gsum (cfs p) (if (0 <? length p)%nat then S i else i)) ->
  (p <> [] \/ word <> []) ->
  cos_loop X (tab n sn) (tab n cs) drop row (length p) word tmp
  = tab n (fun t => gsum (cfs (p ++ word)) (S t)).
Proof.
  induction word as [|el word IH]; intros p tmp Hok Htmp Hne.
  - cbn [cos_loop]. rewrite app_nil_r, Htmp. destruct p; [destruct Hne; congruence|]. reflexivity.
  - pose proof (Forall_inv Hok) as Hel; pose proof (Forall_inv_tail Hok) as Hok'.
    cbn [cos_loop].
    assert (E1 : (if (0 <? length p)%nat then shift0 tmp else tmp) = tab n (gsum (cfs p))).
    { subst tmp. destruct (snoc_cases p) as [->|(p' & e & ->)]; [reflexivity|].
      rewrite app_length. cbn [length]. rewrite Nat.add_1_r. cbn [Nat.ltb Nat.leb].
      rewrite cfs_snoc. apply shift0_gsum. }
    rewrite E1, (apply_ext_tab X n HX) by auto. rewrite !mul_times_tab, drop_at_tab, cumsum_tab.
    replace (S (length p)) with (length (p ++ [el])) by (rewrite app_length; cbn; lia).
    replace (p ++ el :: word) with ((p ++ [el]) ++ word) by (now rewrite <- app_assoc).
    apply IH; auto; [|left; now destruct p].
    replace (0 <? length (p ++ [el]))%nat with true by (symmetry; apply Nat.ltb_lt; rewrite app_length; cbn; lia).
    apply tab_ext. intros t Ht. rewrite cfs_snoc, gsum_snoc. cbn [nadd RNum]. rewrite accum_csum.
    apply csum_ext. intros i Hi. unfold cfac. destruct (existsb _ _); ring.
Qed.
End Kernel.

Lemma nth_tuple_Rprod (fs : list (nat -> R)) tau : length tau = length fs ->
  Rprod (fapp fs tau) = Rprod (map (fun j => nth j fs (fun _ => 1) (nth j tau 0%nat)) (seq 0 (length fs))).
Proof.
  revert tau. induction fs as [|f fs IH]; intros [|i tau] Hl; try discriminate; [reflexivity|].
  cbn [fapp map2 length seq map nth]. unfold fapp in IH. rewrite !Rprod_cons, <- seq_shift, map_map.
  f_equal. apply IH. now injection Hl.
Qed.

(** Positions of a tuple, continued by [t]. *)
Definition pos (tau : list nat) (t j : nat) : nat := if (j <? length tau)%nat then nth j tau 0%nat else t.

Lemma Rprod_zero l : In 0 l -> Rprod l = 0.
Proof.
  induction l as [|x l IH]; intros Hi; [destruct Hi|]. rewrite Rprod_cons. destruct Hi as [->|Hi]; [ring|].
  rewrite IH by auto. ring.
Qed.
Lemma cfs_prod X sn cs drop row w tau t : length tau = length w ->
  Rprod (fapp (cfs X sn cs drop row w) tau)
  = if avoids drop tau then word_val X w tau * tval (fun j => sn (pos tau t j)) (fun j => cs (pos tau t j)) (length w) row
    else 0.
Proof.
  intros Hl. rewrite nth_tuple_Rprod by (unfold cfs; now rewrite map_length, seq_length).
  assert (E : map (fun j => nth j (cfs X sn cs drop row w) (fun _ => 1) (nth j tau 0%nat)) (seq 0 (length (cfs X sn cs drop row w)))
              = map (fun j => cfac X sn cs drop row j (nth j w []) (nth j tau 0%nat)) (seq 0 (length w))).
  { unfold cfs at 2. rewrite map_length, seq_length. apply map_ext_in. intros j Hj. apply in_seq in Hj.
    unfold cfs. rewrite (nth_indep _ (fun _ => 1) (cfac X sn cs drop row 0%nat (nth 0 w []))) by (rewrite map_length, seq_length; lia).
    rewrite (map_nth (fun j => cfac X sn cs drop row j (nth j w []))), seq_nth by lia. reflexivity. }
  rewrite E. clear E. unfold avoids. rewrite Hl.
  destruct (forallb _ _) eqn:Ea.
  - unfold word_val, tval. rewrite <- Rprod_map_mult. f_equal. apply map_ext_in. intros j Hj.
    rewrite forallb_forall in Ea. specialize (Ea j Hj). apply in_seq in Hj. unfold cfac.
    apply Bool.negb_true_iff in Ea. rewrite Ea. unfold pos. rewrite Hl.
    replace (j <? length w)%nat with true by (symmetry; apply Nat.ltb_lt; lia). ring.
  - apply Rprod_zero. apply in_map_iff.
    assert (Hex : exists j, In j (seq 0 (length w)) /\ existsb (Nat.eqb (nth j tau 0%nat)) (drop j) = true).
    { clear -Ea. induction (seq 0 (length w)) as [|x l IH]; [discriminate|]. cbn [forallb] in Ea.
      destruct (existsb _ (drop x)) eqn:Ex; [exists x; split; [now left|auto]|].
      cbn in Ea. destruct (IH Ea) as (j & Hj & He). exists j. split; [now right|auto]. }
    destruct Hex as (j & Hj & He). exists j. split; auto. unfold cfac. now rewrite He.
Qed.

Lemma Rsum_exchange {A B} (F : A -> B -> R) (L : list A) (M : list B) :
  Rsum (map (fun x => Rsum (map (F x) M)) L) = Rsum (map (fun y => Rsum (map (fun x => F x y) L)) M).
Proof.
  induction L as [|x L IH]; cbn [map].
  - cbn [Rsum fold_right]. symmetry. apply Rsum_zero. auto.
  - rewrite Rsum_cons, IH, <- Rsum_map_plus. f_equal.
Qed.
Lemma Rsum_filter {A} (q : A -> bool) (f : A -> R) l :
  Rsum (map f (filter q l)) = Rsum (map (fun x => if q x then f x else 0) l).
Proof.
  induction l as [|x l IH]; [reflexivity|]. cbn [filter map]. rewrite Rsum_cons, <- IH.
  destruct (q x); cbn [map]; rewrite ?Rsum_cons; ring.
Qed.
Lemma nofnat_INR m : nofnat (T := R) m = INR m.
Proof. unfold nofnat. cbn. symmetry. apply INR_IZR_INZ. Qed.

Section Single.
Variables (X : mts R) (n : nat) (w : list (list Z)).
Hypothesis HX : wf_series X n.
Hypothesis Hw : Forall (el_ok X n) w.
Hypothesis Hne : w <> [].
Variables (sn cs : nat -> R) (drop : nat -> list nat) (total : bool).
Let p := if total then (length w + 1)%nat else length w.
Let av (tau : list nat) (t j : nat) := sn (pos tau t j).
Let bv (tau : list nat) (t j : nat) := cs (pos tau t j).

Lemma cos_term_tab row : length row = (2 * p + 1)%nat ->
  cos_term X w (tab n sn) (tab n cs) drop row
  = tab n (fun t => Rsum (map (fun tau => if avoids drop tau then word_val X w tau * rval (av tau t) (bv tau t) p row else 0)
                              (itup (length w) (S t)))).
Proof.
  intros Hl. unfold cos_term.
  assert (E0 : ones (tlen X) = tab n (fun i => gsum (cfs X sn cs drop row []) (if (0 <? length (@nil (list Z)))%nat then S i else i))).
  { rewrite (tlen_wf X n HX). unfold ones. rewrite tab_repeat. apply tab_ext. intros.
    change (cfs X sn cs drop row []) with (@nil (nat -> R)). now rewrite gsum_nil. }
  pose proof (cos_loop_rows X n HX sn cs drop row w [] _ Hw E0 (or_intror Hne)) as EL.
  cbn [app length] in EL. rewrite EL. clear EL E0.
  assert (Eg : forall t, gsum (cfs X sn cs drop row w) (S t)
            = Rsum (map (fun tau => if avoids drop tau then word_val X w tau * tval (av tau t) (bv tau t) (length w) row else 0)
                        (itup (length w) (S t)))).
  { intros t. unfold gsum. replace (length (cfs X sn cs drop row w)) with (length w) by (unfold cfs; now rewrite map_length, seq_length).
    f_equal. apply map_ext_in. intros tau Ht. apply itup_In in Ht. destruct Ht as (Ht & _).
    now apply cfs_prod. }
  assert (Hlen : (0 < length w)%nat) by (destruct w; [congruence|cbn; lia]).
  subst p. destruct total.
  - replace (length row =? 2 * length w + 3)%nat with true by (symmetry; apply Nat.eqb_eq; lia).
    rewrite !mul_times_tab. unfold vscale. rewrite tab_map. apply tab_ext. intros t Ht.
    cbn [nmul RNum]. rewrite nofnat_INR, Eg, <- !Rsum_map_scal_r. f_equal. apply map_ext_in. intros tau Htau.
    apply itup_In in Htau. destruct Htau as (Htau & _).
    destruct (avoids drop tau); [|ring]. unfold rval. rewrite !Rmult_assoc. f_equal.
    unfold tval. replace (length w + 1)%nat with (S (length w)) by lia. rewrite seq_S, map_app, Rprod_app. cbn [map Rprod fold_right].
    rewrite Nat.add_0_l. unfold av at 3. unfold bv at 3. unfold pos.
    rewrite Htau, Nat.ltb_irrefl. ring.
  - replace (length row =? 2 * length w + 3)%nat with false by (symmetry; apply Nat.eqb_neq; lia).
    unfold vscale. rewrite tab_map. apply tab_ext. intros t Ht.
    cbn [nmul RNum]. rewrite nofnat_INR, Eg, <- !Rsum_map_scal_r. f_equal. apply map_ext. intros tau.
    destruct (avoids drop tau); [|ring]. unfold rval. ring.
Qed.
Lemma fold_vadd_tab {A} (h : A -> list R) (g : A -> nat -> R) rows : forall f,
  (forall r, In r rows -> h r = tab n (g r)) ->
  fold_left (fun res r => vadd res (h r)) rows (tab n f) = tab n (fun t => f t + Rsum (map (fun r => g r t) rows)).
Proof. clear HX Hw.
  induction rows as [|r rows IH]; intros f Hh; cbn [fold_left map].
  - apply tab_ext. intros. cbn. ring.
  - rewrite (Hh r) by (now left). unfold vadd at 2. rewrite tab_map2, IH by (intros; apply Hh; now right).
    apply tab_ext. intros. rewrite Rsum_cons. cbn [nadd RNum]. ring.
Qed.
End Single.

Lemma nth_last_pos tau t : tau <> [] -> pos tau t (length tau - 1) = last tau 0%nat.
Proof.
  intros Hne. unfold pos. assert (0 < length tau)%nat by (destruct tau; [congruence|cbn; lia]).
  replace (length tau - 1 <? length tau)%nat with true by (symmetry; apply Nat.ltb_lt; lia).
  symmetry. apply last_nth.
Qed.

Lemma angles_tab f n : angles (T := R) f n = tab n (theta f n).
Proof.
  unfold angles, tab. apply map_ext. intros t. cbn [ndiv nmul npi nofZ RNum]. rewrite nofnat_INR.
  unfold theta. rewrite minus_IZR, <- INR_IZR_INZ. reflexivity.
Qed.

(** One row of the result, before the binomial theorem is used. *)
Lemma cos_single_table X n w f s total drop :
  wf_series X n -> Forall (el_ok X n) w -> w <> [] ->
  cos_single X w f (get_weightings s total (length w)) drop
  = tab n (fun t => Rsum (map (fun tau => word_val X w tau
        * Rprod (map (fun j => Rsum (map (gapv (fun j => sin (theta f n (pos tau t j))) (fun j => cos (theta f n (pos tau t j))) j)
                                         (trig_id s)))
                     (seq 0 ((if total then length w + 1 else length w) - 1))))
                  (filter (avoids drop) (itup (length w) (S t))))).
Proof.
  intros HX Hw Hne. unfold cos_single. rewrite (tlen_wf X n HX), angles_tab, !tab_map.
  change (nsin (T := R)) with sin. change (ncos (T := R)) with cos.
  unfold zeros. rewrite tab_repeat.
  rewrite (fold_vadd_tab n _ (fun row t => Rsum (map (fun tau => if avoids drop tau
      then word_val X w tau * rval (fun j => sin (theta f n (pos tau t j))) (fun j => cos (theta f n (pos tau t j)))
                                   (if total then length w + 1 else length w)%nat row else 0)
                              (itup (length w) (S t))))).
  - apply tab_ext. intros t Ht. cbn [nzero RNum]. rewrite Rplus_0_l, Rsum_exchange, Rsum_filter. f_equal.
    apply map_ext. intros tau. destruct (avoids drop tau).
    + rewrite Rsum_map_scal. f_equal. apply table_sum. destruct w; [congruence|cbn; lia].
    + apply Rsum_zero. auto.
  - intros row Hrow. apply table_row_length in Hrow.
    apply (cos_term_tab X n w HX Hw Hne (fun i => sin (theta f n i)) (fun i => cos (theta f n i)) drop total).
    destruct total; lia.
Qed.

Lemma cos_single_spec X n w f s total drop : (s <= 4)%nat ->
  wf_series X n -> Forall (el_ok X n) w -> w <> [] ->
  cos_single X w f (get_weightings s total (length w)) drop
  = map (cos_sum X w s total (theta f n) drop) (seq 0 n).
Proof.
  intros Hs HX Hw Hne. rewrite (cos_single_table X n w f s total drop HX Hw Hne). apply tab_ext.
  intros t Ht. unfold cos_sum. f_equal. apply map_ext_in. intros tau Htau.
  apply filter_In in Htau. destruct Htau as [Htau _]. apply itup_In in Htau. destruct Htau as (Htau & _).
  rewrite Rmult_assoc. f_equal.
  assert (Hlen : (0 < length w)%nat) by (destruct w; [congruence|cbn; lia]).
  assert (Eg : forall j, Rsum (map (gapv (fun j => sin (theta f n (pos tau t j))) (fun j => cos (theta f n (pos tau t j))) j) (trig_id s))
             = cos (theta f n (pos tau t (S j)) - theta f n (pos tau t j)) ^ s).
  { intros j. rewrite trig_small by auto. f_equal. rewrite cos_minus. ring. }
  assert (Ein : Rprod (map (fun j => cos (theta f n (pos tau t (S j)) - theta f n (pos tau t j)) ^ s) (seq 0 (length w - 1)))
                = cos_gaps s (theta f n) tau).
  { unfold cos_gaps. rewrite Htau. f_equal. apply map_ext_in. intros j Hj. apply in_seq in Hj.
    unfold pos. rewrite Htau.
    replace (j <? length w)%nat with true by (symmetry; apply Nat.ltb_lt; lia).
    replace (S j <? length w)%nat with true by (symmetry; apply Nat.ltb_lt; lia). reflexivity. }
  rewrite (map_ext _ _ Eg). destruct total.
  - replace (length w + 1 - 1)%nat with (S (length w - 1)) by lia.
    rewrite seq_S, map_app, Rprod_app, Ein. cbn [map Rprod fold_right]. rewrite Rmult_1_r. f_equal.
    f_equal. rewrite Nat.add_0_l, <- Htau, nth_last_pos by (intros ->; cbn in Htau; lia).
    f_equal. f_equal. unfold pos. replace (S (length tau - 1) <? length tau)%nat with false; [reflexivity|].
    symmetry. apply Nat.ltb_ge. lia.
  - rewrite Ein. ring.
Qed.

(** * Rows and batches *)
Section Gen.
Context {T : Type} `{Num T}.
Variables (c : cos_cfg T) (st : cos_state T) (X : dataset T).

(** The rows of all words, in order. *)
Definition blocks_from (w : nat) (words : list (sword T)) : res (list (list (mts T))) :=
  mapM (fun iw => cos_word c st X (fst iw) (snd iw)) (combine (seq w (length words)) words).
Lemma cos_gen_first bs words : forall w acc, (bs = 0 \/ bs >= length acc + length words)%nat -> (words <> [] \/ acc <> [] /\ bs <> length acc) ->
  cos_gen c st X bs w words acc
  = match blocks_from w words with Ok blocks => [Ok (concat (acc ++ blocks))] | Err e => [Err e] end.
Proof.
  unfold blocks_from.
  induction words as [|word words IH]; intros w acc Hbs Hne; cbn [cos_gen length seq combine mapM].
  - rewrite app_nil_r. destruct acc; [destruct Hne as [?|[? _]]; congruence|]. reflexivity.
  - cbn [fst snd]. destruct (cos_word c st X w word) as [rows|e]; cbn [bind]; [|reflexivity].
    cbn [length] in Hbs. destruct (Nat.eqb_spec (length (acc ++ [rows])) bs) as [Eb|Eb].
    + rewrite app_length in Eb. cbn [length] in Eb.
      destruct words; [|cbn [length] in Hbs; lia]. cbn. now rewrite app_nil_r || idtac.
    + rewrite app_length in Eb. cbn [length] in Eb.
      rewrite IH; [|rewrite app_length; cbn [length]; lia|].
      * destruct (mapM _ _); cbn [bind]; [|reflexivity]. now rewrite <- app_assoc.
      * right. split; [now destruct acc|]. rewrite app_length. cbn [length]. lia.
Qed.
Lemma cos_gen_ok bs words : forall w acc blocks, blocks_from w words = Ok blocks ->
  exists Ls, cos_gen c st X bs w words acc = map Ok Ls /\ concat Ls = concat (acc ++ blocks).
Proof.
  unfold blocks_from.
  induction words as [|word words IH]; intros w acc blocks Hb; cbn [cos_gen length seq combine mapM] in *.
  - injection Hb as <-. rewrite app_nil_r. destruct acc as [|a acc]; [exists []; auto|].
    exists [concat (a :: acc)]. split; [reflexivity|]. cbn [concat]. now rewrite app_nil_r.
  - cbn [fst snd] in Hb. destruct (cos_word c st X w word) as [rows|e]; cbn [bind] in Hb; [|discriminate].
    destruct (mapM _ _) as [bl|e] eqn:Em; cbn [bind] in Hb; [|discriminate]. injection Hb as <-.
    destruct (length (acc ++ [rows]) =? bs)%nat.
    + destruct (IH (S w) [] bl Em) as (Ls & E1 & E2). exists (concat (acc ++ [rows]) :: Ls).
      rewrite E1. split; [reflexivity|]. cbn [concat app] in *. rewrite E2, <- concat_app, <- app_assoc. reflexivity.
    + destruct (IH (S w) (acc ++ [rows]) bl Em) as (Ls & E1 & E2). exists Ls. split; auto.
      rewrite E2, <- app_assoc. reflexivity.
Qed.
Lemma cos_transform_blocks : cw_words c <> [] ->
  cos_transform c st X = match blocks_from 0 (cw_words c) with Ok blocks => Ok (concat blocks) | Err e => Err e end.
Proof.
  intros Hne. unfold cos_transform, cos_batches.
  assert (Hbs : (cos_n c = 0 \/ cos_n c >= length (@nil (list (mts T))) + length (cw_words c))%nat).
  { unfold cos_n. cbn [length]. destruct (length (cw_freqs c)); [now left|right; lia]. }
  rewrite cos_gen_first by auto. destruct (blocks_from _ _); reflexivity.
Qed.
End Gen.

Lemma mapM_total {A B} (f : A -> res B) (g : A -> B) l : (forall x, In x l -> f x = Ok (g x)) -> mapM f l = Ok (map g l).
Proof.
  induction l as [|x l IH]; intros Hf; [reflexivity|]. cbn [mapM map]. rewrite Hf by (now left). cbn [bind].
  rewrite IH by (intros; apply Hf; now right). reflexivity.
Qed.
Lemma nth_error_concat_uniform {A} (rows : list (list A)) m : forall i j b,
  Forall (fun r => length r = m) rows -> nth_error rows i = Some b -> (j < m)%nat ->
  nth_error (concat rows) (i * m + j) = nth_error b j.
Proof.
  induction rows as [|r rows IH]; intros [|i] j b Hf Hb Hj; try discriminate; inversion Hf; subst; cbn [concat nth_error] in *.
  - injection Hb as ->. cbn [Nat.mul Nat.add]. now rewrite nth_error_app1.
  - rewrite nth_error_app2 by lia. rewrite <- (IH i j b) by auto. f_equal. lia.
Qed.
Lemma nth_error_combine_seq {A} (l : list A) : forall a i x, nth_error l i = Some x ->
  nth_error (combine (seq a (length l)) l) i = Some ((a + i)%nat, x).
Proof.
  induction l as [|y l IH]; intros a [|i] x Hx; try discriminate; cbn [length seq combine nth_error] in *.
  - injection Hx as ->. now rewrite Nat.add_0_r.
  - rewrite (IH (S a) i x Hx). now rewrite Nat.add_succ_r.
Qed.
Lemma combine_seq_length {A} (l : list A) a : length (combine (seq a (length l)) l) = length l.
Proof. rewrite combine_length, seq_length. lia. Qed.

Section Rows.
Context {T : Type} `{Num T}.
Variables (c : cos_cfg T) (st : cos_state T) (X : dataset T).
Let nf := length (cw_freqs c).
Lemma cos_rows_generic (cell : nat -> nat -> T -> sword T -> mts T -> series T) :
  (forall i word, In word (cw_words c) -> cos_word c st X i word
      = Ok (map (fun jf => map (cell i (fst jf) (snd jf) word) X) (combine (seq 0 nf) (cw_freqs c)))) ->
  cw_words c <> [] ->
  exists rows, cos_transform c st X = Ok rows /\ length rows = (nf * length (cw_words c))%nat /\
    forall i j word f, nth_error (cw_words c) i = Some word -> nth_error (cw_freqs c) j = Some f ->
      nth_error rows (i * nf + j) = Some (map (cell i j f word) X).
Proof.
  intros Hc Hne. rewrite (cos_transform_blocks c st X Hne). unfold blocks_from.
  set (g := fun iw : nat * sword T => map (fun jf => map (cell (fst iw) (fst jf) (snd jf) (snd iw)) X) (combine (seq 0 nf) (cw_freqs c))).
  rewrite (mapM_total _ g); [|intros [i word] Hin; apply in_combine_r in Hin; now apply Hc].
  assert (Hf : Forall (fun r => length r = nf) (map g (combine (seq 0 (length (cw_words c))) (cw_words c)))).
  { apply Forall_forall. intros r Hr. apply in_map_iff in Hr. destruct Hr as (iw & <- & _).
    unfold g. rewrite map_length. apply combine_seq_length. }
  eexists. split; [reflexivity|]. split.
  - clear Hc. rewrite Forall_forall in Hf.
    assert (E : forall (l : list (list (mts T))), (forall x, In x l -> length x = nf) -> length (concat l) = (nf * length l)%nat).
    { induction l as [|x l IH]; intros Hl; [cbn; lia|]. cbn [concat length]. rewrite app_length, (Hl x) by (now left).
      rewrite IH by (intros; apply Hl; now right). lia. }
    rewrite E by auto. now rewrite map_length, combine_seq_length.
  - intros i j word f Hi Hj.
    rewrite (nth_error_concat_uniform _ nf i j (g (i, word))); auto.
    + unfold g, nf. cbn [fst snd]. rewrite nth_error_map, (nth_error_combine_seq _ 0 j f Hj). reflexivity.
    + rewrite nth_error_map, (nth_error_combine_seq _ 0 i word Hi). reflexivity.
    + apply nth_error_Some. fold nf. congruence.
Qed.
End Rows.

(** * The network *)
Lemma map2_seq {A B C} (h : A -> B -> C) (da : A) (db : B) l : forall m, length l = length m ->
  map2 h l m = map (fun i => h (nth i l da) (nth i m db)) (seq 0 (length l)).
Proof.
  induction l as [|x l IH]; intros [|y m] Hl; try discriminate; [reflexivity|].
  cbn [map2 length seq map nth]. f_equal. rewrite <- seq_shift, map_map. apply IH. now injection Hl.
Qed.
Lemma dotv_Rsum (a v : list R) : length a = length v ->
  dotv a v = Rsum (map (fun e => nth e a 0 * nth e v 0) (seq 0 (length a))).
Proof. intros Hl. unfold dotv. rewrite vsum_Rsum, (map2_seq _ 0 0) by auto. reflexivity. Qed.
Lemma relu_max v : relu (T := R) v = Rmax 0 v.
Proof.
  unfold relu, nltb. cbn [nmul nleb neqb nzero nunit RNum]. unfold Rleb, Reqb'.
  destruct (Rle_dec 0 v); destruct (Req_EM_T 0 v); cbn [andb negb].
  - subst. rewrite Rmax_left; lra.
  - rewrite Rmax_right; lra.
  - rewrite Rmax_left; lra.
  - rewrite Rmax_left; lra.
Qed.
(** Shapes of the network's weights for d input dimensions. *)
Definition net_shaped (d : nat) (st : ffn_state (T := R)) : Prop :=
  Forall (fun r => length r = d) (ffn_w1 st) /\ length (ffn_b st) = length (ffn_w1 st) /\
  Forall (fun r => length r = length (ffn_w1 st)) (ffn_w2 st).
Lemma ffn_point_net st v d : net_shaped (length v) st -> (d < length (ffn_w2 st))%nat ->
  nth d (ffn_point {| ffn_center := false; ffn_relu_out := false |} st v) 0
  = Rsum (map (fun h => nth h (nth d (ffn_w2 st) []) 0
       * Rmax 0 (Rsum (map (fun e => nth e (nth h (ffn_w1 st) []) 0 * nth e v 0) (seq 0 (length v))) + nth h (ffn_b st) 0))
        (seq 0 (length (ffn_w1 st)))).
Proof.
  intros (H1 & H2 & H3) Hd. unfold ffn_point. cbn [ffn_relu_out].
  rewrite (nth_indep _ 0 (dotv [] (map relu (map2 (fun w b => nadd (dotv w v) b) (ffn_w1 st) (ffn_b st))))) by (now rewrite map_length).
  rewrite (map_nth (fun w => dotv w (map relu (map2 (fun w b => nadd (dotv w v) b) (ffn_w1 st) (ffn_b st))))).
  rewrite (map2_seq _ [] 0) by auto. rewrite Forall_forall in H1, H3.
  rewrite dotv_Rsum; rewrite (H3 (nth d (ffn_w2 st) [])) by (now apply nth_In).
  - f_equal. apply map_ext_in. intros h Hh. apply in_seq in Hh. f_equal.
    rewrite map_map, (nth_indep _ 0 (relu (nadd (dotv (nth 0 (ffn_w1 st) []) v) (nth 0 (ffn_b st) 0)))) by (rewrite map_length, seq_length; lia).
    rewrite (map_nth (fun i => relu (nadd (dotv (nth i (ffn_w1 st) []) v) (nth i (ffn_b st) 0)))), seq_nth by lia.
    rewrite relu_max, Nat.add_0_l. f_equal. cbn [nadd RNum]. f_equal.
    rewrite dotv_Rsum; rewrite (H1 (nth h (ffn_w1 st) [])) by (apply nth_In; lia); reflexivity.
  - now rewrite !map_length, seq_length.
Qed.
Lemma cos_ffn_net st x n : wf_series x n -> net_shaped (length x) st ->
  cos_ffn st x = map (fun d => map (net_at (ffn_w1 st) (ffn_b st) (ffn_w2 st) x d) (seq 0 n)) (seq 0 (length (ffn_w2 st))).
Proof.
  intros HX Hst. unfold cos_ffn, ffn_sample. cbn [ffn_center].
  rewrite (tlen_wf x n HX). apply map_ext_in. intros d Hd. apply in_seq in Hd. apply map_ext. intros t.
  rewrite ffn_point_net by (unfold column; rewrite ?map_length; auto; lia).
  unfold net_at. cbn [nzero RNum]. f_equal. apply map_ext. intros h. f_equal. f_equal. f_equal.
  unfold column. rewrite map_length. f_equal. apply map_ext_in. intros e He. apply in_seq in He. f_equal.
  rewrite (nth_indep _ 0 (nth t [] 0)) by (rewrite map_length; lia).
  now rewrite (map_nth (fun r => nth t r 0)).
Qed.

(** * Larger exponents *)
Lemma digit_val_le ch : is_digit ch = true -> (digit_val ch <= 9)%nat.
Proof. unfold is_digit, digit_val. intros Hd. apply andb_prop in Hd. destruct Hd as [_ Hd]. apply Nat.leb_le in Hd. lia. Qed.
Lemma digit_at_le i t : Forall (fun ch => is_digit ch = true) t -> (digit_at i t <= 9)%nat.
Proof.
  intros Ht. unfold digit_at. apply digit_val_le. destruct (Nat.lt_ge_cases i (length t)) as [Hi|Hi].
  - rewrite Forall_forall in Ht. apply Ht. now apply nth_In.
  - rewrite nth_overflow by auto. reflexivity.
Qed.
Lemma trig_loop_digits s m : forall k co e0 e1, Forall (Forall (fun ch => is_digit ch = true)) (trig_loop s m k co e0 e1).
Proof.
  induction m as [|m IH]; intros; cbn [trig_loop]; [constructor|]. constructor; [|apply IH].
  rewrite !Forall_app. repeat split; apply str_nat_digits.
Qed.
Lemma trig_id_digits s t i : In t (trig_id s) -> (digit_at i t <= 9)%nat.
Proof.
  intros Ht. apply digit_at_le. unfold trig_id in Ht. pose proof (trig_loop_digits s (s + 1) 0 1 s 0) as Hf.
  rewrite Forall_forall in Hf. now apply Hf.
Qed.
Lemma trig_loop_length s m : forall k co e0 e1, length (trig_loop s m k co e0 e1) = m.
Proof. induction m; intros; cbn [trig_loop length]; auto. Qed.
(** The table of a word of length two. *)
Lemma table_two s : get_weightings s false 2
  = map (fun t => [digit_at 0 t; digit_at 1 t; digit_at 2 t; digit_at 1 t; digit_at 2 t]) (trig_id s).
Proof.
  unfold get_weightings. cbn [Nat.sub product]. rewrite flat_map_concat_map.
  rewrite concat_map, map_map. cbn [map]. induction (trig_id s) as [|t l IH]; [reflexivity|].
  cbn [map concat app]. f_equal; [|exact IH].
  cbn [weighting_row]. unfold weighting_step, incr. cbn [Nat.mul Nat.add repeat upd nth]. now rewrite !Nat.add_0_r.
Qed.
Lemma binom_1 n : binom n 1 = n.
Proof. induction n as [|n IH]; [reflexivity|]. cbn [binom]. rewrite IH. destruct n; reflexivity. Qed.
Lemma binom_2 n : (5 <= n)%nat -> (10 <= binom n 2)%nat.
Proof.
  intros Hn. induction Hn as [|n Hn IH]; [cbn; lia|]. change (binom (S n) 2) with (binom n 1 + binom n 2)%nat. lia.
Qed.

(** With sine 0 and cosine 1 at the first and cosine 1/2 at the second position. *)
Lemma half_pow_le m : (m <= 9)%nat -> (1 / 2) ^ 9 <= (1 / 2) ^ m.
Proof.
  intros Hm. replace 9%nat with (m + (9 - m))%nat by lia. rewrite pow_add.
  assert (0 < (1/2) ^ m) by (apply pow_lt; lra).
  assert ((1/2) ^ (9 - m) <= 1).
  { generalize (9 - m)%nat. induction n as [|n IH]; [cbn; lra|]. cbn [pow]. assert (0 < (1/2)^n) by (apply pow_lt; lra). lra. }
  nra.
Qed.
Lemma gap_half a b t : a 0%nat = 0 -> b 0%nat = 1 -> b 1%nat = 1 / 2 -> (digit_at 2 t <= 9)%nat ->
  gapv a b 0 t = 0 \/ (1 / 2) ^ 9 <= gapv a b 0 t.
Proof.
  intros Ha Hb0 Hb1 Hd. unfold gapv. rewrite Ha, Hb0, Hb1, Rmult_0_l, Rmult_1_l.
  destruct (digit_at 1 t) as [|m]; [|left; cbn [pow]; ring].
  destruct (digit_at 0 t) as [|d]; [left; cbn; ring|]. right. cbn [pow]. rewrite Rmult_1_l, S_INR.
  pose proof (half_pow_le _ Hd). pose proof (pos_INR d). assert (0 < (1/2) ^ 9) by (apply pow_lt; lra). nra.
Qed.
Lemma sum_half a b l : a 0%nat = 0 -> b 0%nat = 1 -> b 1%nat = 1 / 2 -> (forall t, In t l -> (digit_at 2 t <= 9)%nat) ->
  Rsum (map (gapv a b 0) l) = 0 \/ (1 / 2) ^ 9 <= Rsum (map (gapv a b 0) l).
Proof.
  intros Ha Hb0 Hb1. assert (0 < (1/2) ^ 9) by (apply pow_lt; lra).
  induction l as [|t l IH]; intros Hl; [now left|]. cbn [map]. rewrite Rsum_cons.
  destruct (gap_half a b t Ha Hb0 Hb1 (Hl t (or_introl eq_refl))) as [E|E];
    (destruct IH as [E2|E2]; [intros; apply Hl; now right| |]);
    [left; rewrite E, E2; ring|right; lra|right; lra|right; lra].
Qed.
Lemma half_pow_lt m : (9 < m)%nat -> 0 < (1 / 2) ^ m < (1 / 2) ^ 9.
Proof.
  intros Hm. split; [apply pow_lt; lra|]. replace m with (9 + (m - 9))%nat by lia. rewrite pow_add.
  assert (0 < (1/2) ^ 9) by (apply pow_lt; lra).
  assert ((1/2) ^ (m - 9) < 1).
  { destruct (m - 9)%nat as [|k] eqn:E; [lia|]. clear. induction k as [|k IH]; [cbn; lra|].
    cbn [pow] in *. assert (0 < (1/2)^k) by (apply pow_lt; lra). lra. }
  nra.
Qed.
