(** C58: Arctic(argmax=True). *)
From Coq Require Import Ascii String List Arith ZArith Bool Lia Reals Lra Sorting.
From Verif Require Import Num Arr L_Arr S_ISS M_Str M_Semiring M_Words M_ISS
  L_Tuples L_Reals L_Max L_Words L_Gen L_Rows L_ISS L_Single.
Import ListNotations.
Local Open Scope R_scope.

(** First position of the running maximum as the loop tracks it. *)
Fixpoint amax (f : nat -> R) (t : nat) : nat :=
  match t with
  | O => 0%nat
  | S t' => if nleb (f t) (rmax f t') then amax f t' else t
  end.
Lemma amax_spec f t : (amax f t <= t)%nat /\ f (amax f t) = rmax f t.
Proof.
  induction t as [|t [H1 H2]]; [split; [apply le_n|reflexivity]|]. cbn [amax]. unfold rmax in *. cbn [accum nleb RNum]. rewrite nmax_Rmax.
  cbn. unfold Rleb. destruct (Rle_dec (f (S t)) (accum nmax f t)) as [Hle|Hnle].
  - split; [lia|]. rewrite H2. symmetry. apply Rmax_left. lra.
  - split; [lia|]. symmetry. apply Rmax_right. lra.
Qed.

Lemma argmax_scan_tab f m : forall s, argmax_scan (S s) (rmax f s) (amax f s) (tab m (fun i => f (S s + i)%nat))
  = tab m (fun i => (rmax f (S s + i), amax f (S s + i)%nat)).
Proof.
  induction m as [|m IH]; intros s; [reflexivity|]. rewrite !tab_S. cbn [argmax_scan].
  rewrite Nat.add_0_r.
  assert (Er : rmax f (S s) = Rmax (rmax f s) (f (S s))) by (unfold rmax; cbn [accum]; now rewrite nmax_Rmax).
  assert (Etab : forall A (F : nat -> A), tab m (fun i => F (S s + S i)%nat) = tab m (fun i => F (S (S s) + i)%nat)).
  { intros A F. apply tab_ext. intros i _. f_equal. lia. }
  destruct (nleb (f (S s)) (rmax f s)) eqn:E.
  - assert (Ea : amax f (S s) = amax f s) by (cbn [amax]; now rewrite E).
    assert (Er' : rmax f (S s) = rmax f s). { rewrite Er. apply Rmax_left. cbn in E. unfold Rleb in E. destruct (Rle_dec _ _); [lra|discriminate]. }
    rewrite Er', Ea. f_equal. rewrite (Etab _ f), (Etab _ (fun i => (rmax f i, amax f i))). rewrite <- IH, Er', Ea. reflexivity.
  - assert (Ea : amax f (S s) = S s) by (cbn [amax]; now rewrite E).
    assert (Er' : rmax f (S s) = f (S s)). { rewrite Er. apply Rmax_right. cbn in E. unfold Rleb in E. destruct (Rle_dec _ _); [discriminate|lra]. }
    rewrite Er', Ea. f_equal. rewrite (Etab _ f), (Etab _ (fun i => (rmax f i, amax f i))). rewrite <- IH, Er', Ea. reflexivity.
Qed.
Lemma argmax_row_tab f m : argmax_row (tab m f) = tab m (fun i => (rmax f i, amax f i)).
Proof.
  destruct m as [|m]; [reflexivity|]. rewrite !tab_S. cbn [argmax_row]. f_equal.
  exact (argmax_scan_tab f m 0).
Qed.

Definition off (k : nat) : nat := (k + k * (k + 1) / 2)%nat.
Lemma off_S k : off (S k) = (off k + (k + 2))%nat.
Proof.
  unfold off. replace (S k * (S k + 1))%nat with (k * (k + 1) + (k + 1) * 2)%nat by ring.
  rewrite Nat.div_add by lia. lia.
Qed.

Section OneSample.
Variables (X : mts R) (n : nat).
Hypothesis HX : wf_series X n.
Definition cs (p : list (list Z)) : list (nat -> R) := map (fun e => ext_val_plus X e) p.
Definition V (p : list (list Z)) : nat -> R := chain Rplus 0 (cs p).
Definition B (q : list (list Z)) (e : list Z) (i : nat) : R := V q i + ext_val_plus X e i.
Lemma V_snoc q e t : V (q ++ [e]) t = rmax (B q e) t.
Proof. unfold V, cs. rewrite map_app. cbn [map]. now rewrite chain_snoc. Qed.

Definition prow (pq : list (list Z)) : list (R * nat) :=
  tab n (fun i => (V pq i, amax (B (removelast pq) (last pq [])) i)).

Lemma zeros_nth k m : nth k (@zeros R _ m) 0 = 0.
Proof. apply nth_repeat. Qed.

Lemma argmax_loop_rows len word : forall p tmp a,
  tables_in (length X) word -> Forall (fun e => forallb (Z.eqb 0) e = false) word ->
  len = (length p + length word)%nat -> tmp = tab n (V p) ->
  argmax_loop X (zeros a) (@zeros R _ n) len (length p) word tmp = map prow (prefixes_from p word).
Proof.
  induction word as [|e word IH]; intros p tmp a Ht Hz Hlen ->; [reflexivity|].
  inversion Ht as [|? ? He Ht']; subst. inversion Hz as [|? ? Hze Hz']; subst. clear Ht Hz.
  cbn [argmax_loop prefixes_from map]. rewrite Hze.
  assert (Evs : forall x, vscale (@zeros R _ n) x = tab n (fun _ => 0)).
  { intros x. rewrite zeros_tab, vscale_tab. apply tab_ext. intros i _. cbn. ring. }
  assert (E1 : vadd (tab n (V p)) (arctic_ext X 0 e (zeros (length (tab n (V p))))) = tab n (B p e)).
  { rewrite tab_length, zeros_tab, (arctic_ext_tab X n HX e) by assumption. rewrite vadd_tab. apply tab_ext. intros i _. cbn. unfold B. ring. }
  rewrite E1.
  assert (E2 : (if (0 <? length p)%nat then vsub (tab n (B p e)) (vscale (zeros n) (nth (length p - 1) (zeros a) nzero)) else tab n (B p e)) = tab n (B p e)).
  { destruct (0 <? length p)%nat; [|reflexivity]. rewrite Evs, vsub_tab. apply tab_ext. intros i _. cbn. ring. }
  rewrite E2. f_equal.
  - rewrite argmax_row_tab. unfold prow. apply tab_ext. intros i _. now rewrite removelast_last, last_last, V_snoc.
  - replace (S (length p)) with (length (p ++ [e])) by (rewrite app_length; cbn; lia).
    destruct word as [|e' word]; [reflexivity|].
    destruct (Nat.ltb_spec (length p) (length p + length (e :: e' :: word) - 1)) as [_|Hno]; [|cbn in Hno; lia].
    apply (IH (p ++ [e]) _ a); auto; [rewrite app_length; cbn; lia|].
    rewrite Evs, vadd_tab, cummax_tab. apply tab_ext. intros i _. rewrite V_snoc. unfold rmax.
    apply accum_ext. intros j _. cbn. ring.
Qed.

Variable w : list (list Z).
Hypothesis Htab : tables_in (length X) w.
Hypothesis Hnz : Forall (fun e => forallb (Z.eqb 0) e = false) w.
Hypothesis Hn : (0 < n)%nat.

Definition arg (k i : nat) : nat := amax (B (firstn k w) (nth k w [])) i.
Definition wrows : list (list (R * nat)) := argmax_loop X (zeros (length w)) (@zeros R _ n) (length w) 0 w (zeros (tlen X)).
Lemma wrows_length : length wrows = length w.
Proof.
  unfold wrows. change 0%nat with (length (@nil (list Z))).
  rewrite argmax_loop_rows; auto; [|rewrite (tlen_wf X n HX), zeros_tab; reflexivity].
  now rewrite map_length, prefixes_from_length.
Qed.
Lemma wrows_nth k : (k < length w)%nat -> nth k wrows [] = tab n (fun i => (V (firstn (S k) w) i, arg k i)).
Proof.
  intros Hk. unfold wrows. change 0%nat with (length (@nil (list Z))).
  rewrite argmax_loop_rows; auto; [|rewrite (tlen_wf X n HX), zeros_tab; reflexivity].
  rewrite (nth_indep _ _ (prow [])) by (now rewrite map_length, prefixes_from_length).
  rewrite map_nth, prefixes_from_nth by assumption. cbn [app]. unfold prow, arg.
  rewrite (firstn_snoc_nth w k []) by assumption. now rewrite removelast_last, last_last.
Qed.
Lemma args_nth k : (k < length w)%nat -> nth k (map (map snd) wrows) [] = tab n (arg k).
Proof.
  intros Hk. change (@nil nat) with (map (@snd R nat) []). rewrite map_nth, wrows_nth by assumption. unfold tab. rewrite map_map. reflexivity.
Qed.
Lemma arg_le k i : (arg k i <= i)%nat.
Proof. apply amax_spec. Qed.

(** positions found by following the index rows back *)
Fixpoint back (s v : nat) : list nat :=
  match s with O => [] | S s' => back s' (arg s' v) ++ [arg s' v] end.
Lemma back_length s : forall v, length (back s v) = s.
Proof. induction s; intros v; [reflexivity|]. cbn [back]. rewrite app_length, IHs. cbn. lia. Qed.

Lemma last_app_repeat {A} (l : list A) x m d : (0 < m)%nat -> last (l ++ repeat x m) d = x.
Proof.
  intros Hm. destruct m as [|m]; [lia|]. replace (S m) with (m + 1)%nat by lia. rewrite repeat_app, app_assoc. apply last_last.
Qed.
Lemma last_tab {A} m (f : nat -> A) d : last (tab (S m) f) d = f m.
Proof. rewrite tab_snoc. apply last_last. Qed.
Lemma clip_last f v : (v < n)%nat -> last (clip_row (tab n f) (v + 1)) 0%nat = f v /\ length (clip_row (tab n f) (v + 1)) = n.
Proof.
  intros Hv. unfold clip_row. rewrite tab_length. rewrite firstn_tab by lia. rewrite tab_nth by lia. replace (v + 1 - 1)%nat with v by lia. split.
  - destruct (Nat.eq_dec (n - (v + 1)) 0) as [E|E].
    + rewrite E. cbn [repeat]. rewrite app_nil_r. replace (v + 1)%nat with (S v) by lia. apply last_tab.
    + apply last_app_repeat. lia.
  - rewrite app_length, tab_length, repeat_length. lia.
Qed.
Lemma trans_idx_last s : forall next, (s <= length w)%nat -> (last next 0%nat < n)%nat ->
  map (fun row => last row 0%nat) (trans_idx (map (map snd) wrows) s next) = back s (last next 0%nat) /\
  Forall (fun row => length row = n) (trans_idx (map (map snd) wrows) s next).
Proof.
  induction s as [|s IH]; intros next Hs Hl; [split; constructor|].
  cbn [trans_idx]. cbv zeta. rewrite args_nth by lia.
  destruct (clip_last (arg s) _ Hl) as [E1 E2].
  assert (Hv : (arg s (last next 0%nat) < n)%nat) by (eapply Nat.le_lt_trans; [apply arg_le|assumption]).
  destruct (IH (clip_row (tab n (arg s)) (last next 0%nat + 1)) ltac:(lia)) as [F1 F2].
  { rewrite E1. assumption. }
  split.
  - rewrite map_app. cbn [map back]. rewrite F1, E1. reflexivity.
  - apply Forall_app. split; [assumption|]. constructor; auto.
Qed.

Lemma word_val_plus_app_ q e tau i : length tau = length q ->
  word_val_plus X (q ++ [e]) (tau ++ [i]) = word_val_plus X q tau + ext_val_plus X e i.
Proof. exact (word_val_plus_snoc X q e tau i). Qed.

Lemma back_spec k : (k < length w)%nat -> forall t,
  nondec_upto (S k) t (back k (arg k t) ++ [arg k t]) /\
  word_val_plus X (firstn (S k) w) (back k (arg k t) ++ [arg k t]) = V (firstn (S k) w) t.
Proof.
  induction k as [|k IH]; intros Hk t.
  - destruct (amax_spec (B (firstn 0 w) (nth 0 w [])) t) as [H1 H2].
    cbn [back app]. split.
    + apply (nondec_snoc 0 t [] (arg 0 t)); [|exact H1]. repeat split; constructor.
    + rewrite (firstn_snoc_nth w 0 []) by assumption. change [arg 0 t] with ([] ++ [arg 0 t]).
      rewrite word_val_plus_app_ by reflexivity. rewrite V_snoc. fold (arg 0 t) in H2. rewrite <- H2. unfold B. f_equal.
  - destruct (amax_spec (B (firstn (S k) w) (nth (S k) w [])) t) as [H1 H2]. fold (arg (S k) t) in H1, H2.
    destruct (IH ltac:(lia) (arg (S k) t)) as [J1 J2]. cbn [back]. split.
    + apply nondec_snoc; assumption.
    + rewrite (firstn_snoc_nth w (S k) []) by assumption. rewrite word_val_plus_app_.
      * rewrite V_snoc, <- H2, J2. reflexivity.
      * rewrite app_length, back_length, firstn_length. cbn [length]. lia.
Qed.
Lemma V_is_max p t : is_max (nondec_upto (length p) t) (word_val_plus X p) (V p t).
Proof.
  clear Hn Htab Hnz w HX.
  assert (Hc := chain_is_max Rplus 0 (cs p)). unfold cs in Hc at 2. rewrite map_length in Hc.
  eapply is_max_ext; [|reflexivity|apply Hc].
  - intros tau (Hl & _). rewrite gv_plus. clear Hc. revert tau Hl. unfold cs.
    induction p as [|e p IH] using rev_ind; intros tau Hl.
    + destruct tau; [reflexivity|discriminate].
    + destruct (snoc_cases tau) as [->|(t' & i & ->)]; [rewrite app_length in Hl; cbn in Hl; lia|].
      rewrite !app_length in Hl. cbn in Hl. assert (length t' = length p) by lia.
      rewrite map_app. cbn [map]. rewrite fapp_snoc by (now rewrite map_length). rewrite Rsum_app.
      rewrite (word_val_plus_snoc X) by assumption. rewrite IH by assumption. cbn. lra.
  - apply Forall_forall. intros f _. apply mono_plus.
Qed.

(** Blocks. *)
Lemma block_length k : (k < length w)%nat -> length (argmax_block wrows k) = (k + 2)%nat.
Proof.
  intros Hk. unfold argmax_block. cbn [length]. rewrite map_length, app_length. cbn [length].
  assert (L : forall s next, length (trans_idx (map (map snd) wrows) s next) = s).
  { induction s as [|s IH]; intros next; [reflexivity|]. cbn [trans_idx]. rewrite app_length, IH. cbn. lia. }
  rewrite L. lia.
Qed.
Lemma blocks_length k : (k <= length w)%nat -> length (flat_map (argmax_block wrows) (seq 0 k)) = off k.
Proof.
  induction k as [|k IH]; intros Hk; [reflexivity|].
  rewrite seq_S, flat_map_app, app_length, IH by lia. cbn [flat_map plus]. rewrite app_nil_r, block_length, off_S by lia. reflexivity.
Qed.
Lemma blocks_nth k r d : (k < length w)%nat -> (r < k + 2)%nat ->
  nth (off k + r) (flat_map (argmax_block wrows) (seq 0 (length w))) d = nth r (argmax_block wrows k) d.
Proof.
  intros Hk Hr.
  replace (length w) with (k + (length w - k))%nat by lia. rewrite seq_app, flat_map_app. rewrite app_nth2 by (rewrite blocks_length by lia; lia).
  rewrite blocks_length by lia. replace (off k + r - off k)%nat with r by lia. destruct (length w - k)%nat as [|m] eqn:E; [lia|].
  cbn [seq flat_map plus]. rewrite app_nth1 by (rewrite block_length by lia; lia). reflexivity.
Qed.
Lemma argmax_single_spec g : g = @zeros R _ n ->
  let R_ := arctic_argmax_single X w (zeros (length w)) g in
  length R_ = off (length w) /\
  forall k, (k < length w)%nat ->
    (forall t, (t < n)%nat -> nth t (nth (off k) R_ []) 0 = V (firstn (S k) w) t) /\
    (exists tau, nondec_upto (S k) (n - 1) tau /\ word_val_plus X (firstn (S k) w) tau = V (firstn (S k) w) (n - 1)
      /\ forall s, (s <= k)%nat -> nth (n - 1) (nth (off k + 1 + s) R_ []) 0 = INR (nth s tau 0%nat)).
Proof.
  intros ->. cbv zeta. unfold arctic_argmax_single. fold wrows. split; [now apply blocks_length|]. intros k Hk. split.
  - intros t Ht. rewrite <- (Nat.add_0_r (off k)), blocks_nth by lia. unfold argmax_block. cbn [nth].
    rewrite wrows_nth by assumption. unfold tab. rewrite map_map. change (map (fun x => V (firstn (S k) w) x) (seq 0 n)) with (tab n (V (firstn (S k) w))).
    now apply tab_nth.
  - exists (back k (arg k (n - 1)) ++ [arg k (n - 1)]). destruct (back_spec k Hk (n - 1)) as [H1 H2].
    split; [assumption|]. split; [assumption|]. intros s Hs. rewrite <- Nat.add_assoc, blocks_nth by lia.
    unfold argmax_block. rewrite args_nth by assumption. cbn [nth plus].
    assert (Etop : last (tab n (arg k)) 0%nat = arg k (n - 1)).
    { destruct n as [|m]; [lia|]. rewrite last_tab. f_equal. lia. }
    assert (Hlt : (arg k (n - 1) < n)%nat) by (eapply Nat.le_lt_trans; [apply arg_le|lia]).
    destruct (trans_idx_last k (tab n (arg k)) ltac:(lia)) as [L1 L2]; [now rewrite Etop|]. rewrite Etop in L1.
    set (rows := trans_idx _ k _ ++ [tab n (arg k)]) in *.
    assert (M1 : map (fun row => last row 0%nat) rows = back k (arg k (n - 1)) ++ [arg k (n - 1)]).
    { unfold rows. rewrite map_app, L1. cbn [map]. now rewrite Etop. }
    assert (M2 : Forall (fun row => length row = n) rows).
    { apply Forall_app. split; [assumption|]. constructor; [apply tab_length|constructor]. }
    assert (M3 : length rows = S k).
    { rewrite <- (map_length (fun row => last row 0%nat)), M1, app_length, back_length. cbn. lia. }
    rewrite <- M1.
    change (@nil R) with (map (@nofnat R _) []). rewrite map_nth.
    rewrite Forall_forall in M2. assert (M4 := M2 _ (nth_In rows [] (n := s) ltac:(lia))).
    rewrite (nth_indep _ _ (@nofnat R _ 0)) by (rewrite map_length; lia). rewrite map_nth.
    rewrite (nth_indep (map _ rows) 0%nat (last [] 0%nat)) by (rewrite map_length; lia).
    rewrite (map_nth (fun row => last row 0%nat)).
    unfold nofnat. cbn [nofZ RNum]. rewrite <- INR_IZR_INZ. f_equal.
    rewrite last_nth, M4. reflexivity.
Qed.
End OneSample.

Lemma argmax_rows_off k : argmax_rows k = off k.
Proof. reflexivity. Qed.

Lemma swap01_nth {T} ext (A : list (list (list T))) r i : (r < ext)%nat -> nth i (nth r (swap01 ext A) []) [] = nth r (nth i A []) [].
Proof.
  intros Hr. unfold swap01. rewrite (nth_indep _ _ (map (fun sample => nth 0 sample []) A)) by (now rewrite map_length, seq_length).
  rewrite (map_nth (fun r => map (fun sample : list (list T) => nth r sample []) A)). rewrite seq_nth by assumption. cbn [plus].
  destruct (Nat.ltb_spec i (length A)) as [Hi|Hi].
  - rewrite (nth_indep _ _ (nth r [] [])) by (now rewrite map_length). now rewrite (map_nth (fun sample => nth r sample [])).
  - rewrite (nth_overflow A) by assumption. rewrite nth_overflow by (now rewrite map_length). destruct r; reflexivity.
Qed.

Lemma argmax_api (c : iss_cfg R) (words : list (sword R)) X n :
  is_words c = map simple_iword words -> is_mode c = EXTENDED -> is_sr c = Arctic true -> is_wt c = None ->
  words <> [] -> wf_dataset X n -> (0 < n)%nat ->
  Forall (fun w => Forall (fun e => ~ Forall (fun z => z = 0%Z) e) (sw_exts w)
                   /\ Forall (fun x => tables_in (length x) (sw_exts w)) X) words ->
  exists blocks, iss_transform c X = Ok (concat blocks) /\ length blocks = length words /\
    n_iterated_sums c = Ok (length (concat blocks)) /\
    forall j w, nth_error words j = Some w ->
      let at_row r i t := nth t (nth i (nth r (nth j blocks []) []) []) 0 in
      length (nth j blocks []) = argmax_rows (length (sw_exts w)) /\
      forall k i x, (k < length (sw_exts w))%nat -> nth_error X i = Some x ->
        let first := (k + k * (k + 1) / 2)%nat in
        (forall t, (t < n)%nat -> is_max (nondec_upto (S k) t) (word_val_plus x (firstn (S k) (sw_exts w))) (at_row first i t)) /\
        exists tau, nondec_upto (S k) (n - 1) tau
          /\ (forall s, (s <= k)%nat -> at_row (first + 1 + s)%nat i (n - 1)%nat = INR (nth s tau 0%nat))
          /\ word_val_plus x (firstn (S k) (sw_exts w)) tau = at_row first i (n - 1)%nat.
Proof.
  intros Ew Hm Hs Hwt Hne HX Hn HW.
  assert (Hne' : is_words c <> []) by (eapply words_ne; eauto).
  rewrite iss_transform_eq by assumption. unfold cfg_guard, argmax_guard, is_plan_opt. rewrite Hm, Hs, Hwt.
  set (blk := fun w : sword R => swap01 (argmax_rows (length (sw_exts w)))
     (map (fun x => arctic_argmax_single x (sw_exts w) (zeros (length (sw_exts w))) (zeros (tlen x))) X)).
  assert (HB : forall ws i, batch_rows (Arctic true) X None (Some (is_plan c)) i (map iw_val (map simple_iword ws)) = Ok (concat (map blk ws))).
  { induction ws as [|w ws IH]; intros i; [reflexivity|]. cbn [map batch_rows simple_iword iw_val]. unfold word_rows. cbn [is_argmax wlen sr_rows].
    unfold assign_rows. rewrite swap01_length, Nat.eqb_refl. cbn [bind]. rewrite IH. cbn [bind concat]. f_equal. f_equal.
    unfold blk. f_equal. cbn [iterated_sums fast_single]. generalize X. clear.
    induction X as [|x X IH]; [reflexivity|]. cbn [map map2]. f_equal. exact IH. }
  rewrite Ew, HB. exists (map blk words). split; [reflexivity|]. split; [apply map_length|]. split.
  { unfold n_iterated_sums. rewrite Hm, Hs, Ew. cbn [is_argmax]. f_equal. rewrite map_map. cbn [simple_iword iw_val wlen].
    clear. induction words as [|w ws IH]; [reflexivity|]. cbn [map concat list_sum fold_right]. rewrite app_length.
    unfold blk at 1. rewrite swap01_length. unfold list_sum in IH. now rewrite IH. }
  intros j w Hj. cbv zeta. rewrite (nth_error_nth_ (map blk words) j (blk w) [] (map_nth_error _ _ _ Hj)). unfold blk.
  split; [apply swap01_length|]. intros k i x Hk Hx.
  apply nth_error_In in Hj as Hin. rewrite Forall_forall in HW. destruct (HW w Hin) as [Hz Ht].
  apply nth_error_In in Hx as Hxin. rewrite Forall_forall in Ht. unfold wf_dataset in HX. rewrite Forall_forall in HX.
  assert (Hz' : Forall (fun e => forallb (Z.eqb 0) e = false) (sw_exts w)).
  { eapply Forall_impl; [|exact Hz]. intros e He. destruct (forallb (Z.eqb 0) e) eqn:E; [|reflexivity]. exfalso. apply He.
    rewrite forallb_forall in E. apply Forall_forall. intros z Hzz. apply E in Hzz. apply Z.eqb_eq in Hzz. auto. }
  destruct (argmax_single_spec x n (HX x Hxin) (sw_exts w) (Ht x Hxin) Hz' Hn (zeros n) eq_refl) as [L S].
  destruct (S k Hk) as [S1 (tau & T1 & T2 & T3)].
  assert (Etl : tlen x = n) by (apply (tlen_wf x n); auto).
  assert (Eoff : forall r t, (r < off (length (sw_exts w)))%nat -> nth t (nth i (nth r (swap01 (argmax_rows (length (sw_exts w)))
       (map (fun x0 => arctic_argmax_single x0 (sw_exts w) (zeros (length (sw_exts w))) (zeros (tlen x0))) X)) []) []) 0
     = nth t (nth r (arctic_argmax_single x (sw_exts w) (zeros (length (sw_exts w))) (zeros n)) []) 0).
  { intros r t Hr. rewrite swap01_nth by exact Hr. f_equal. f_equal.
    rewrite (nth_error_nth_ (map _ X) i _ [] (map_nth_error _ _ _ Hx)). now rewrite Etl. }
  fold (off k).
  assert (Hoff : (off k + 1 + k < off (length (sw_exts w)))%nat).
  { assert (Hmono : forall a b, (a <= b)%nat -> (off a <= off b)%nat).
    { intros a b. induction 1; [lia|]. rewrite off_S. lia. }
    specialize (Hmono (Datatypes.S k) (length (sw_exts w)) Hk). rewrite off_S in Hmono. lia. }
  assert (Efl : length (firstn (Datatypes.S k) (sw_exts w)) = Datatypes.S k) by (rewrite firstn_length; lia).
  split.
  - intros t Htn. rewrite Eoff by lia. rewrite S1 by assumption. assert (VM := V_is_max x (firstn (Datatypes.S k) (sw_exts w)) t).
    rewrite Efl in VM. exact VM.
  - exists tau. split; [assumption|]. split.
    + intros s Hs'. rewrite Eoff by lia. now apply T3.
    + rewrite Eoff by lia. rewrite S1 by lia. exact T2.
Qed.
