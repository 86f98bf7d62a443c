(** Lemmas for FFN, RDW and SPE (C67-C69). *)
From Coq Require Import Ascii String List Arith ZArith Lia Bool Reals Lra.
From Verif Require Import Num Arr M_Str M_Np M_Prep M_Cache M_PrepObj S_ISS S_Prep L_Arr L_Np L_Tuples L_Prep L_Prep2 L_Prep3 L_Cos.
Import ListNotations.
Open Scope R_scope.

(** The array with the entries [g i j t]. *)
Definition built (n d l : nat) (g : nat -> nat -> nat -> R) : list (list (list R)) :=
  tab n (fun i => tab d (fun j => tab l (g i j))).
Lemma built_shape n d l g : has_shape (built n d l g) n d l.
Proof.
  unfold built. split; [apply tab_length|]. apply Forall_forall. intros x Hx. unfold tab in Hx. apply in_map_iff in Hx. destruct Hx as (i & <- & _).
  split; [apply tab_length|]. apply Forall_forall. intros r Hr. apply in_map_iff in Hr. destruct Hr as (j & <- & _). apply tab_length.
Qed.
Lemma built_entry n d l g i j t : (i < n)%nat -> (j < d)%nat -> (t < l)%nat -> entry (built n d l g) i j t = g i j t.
Proof. intros. unfold entry, row, built. now rewrite !tab_nth. Qed.
Lemma sample_tab X n d l i : has_shape X n d l -> (i < n)%nat -> nth i X [] = tab d (fun j => tab l (entry X i j)).
Proof.
  intros HX Hi. apply (list_ext []); [rewrite tab_length; eapply sample_length; eauto|]. intros j Hj.
  rewrite (sample_length X n d l i HX Hi) in Hj. rewrite tab_nth by exact Hj. apply (row_tab X n d l i j HX Hi Hj).
Qed.
Lemma map_samples {B} X n d l (g : list (list R) -> B) : has_shape X n d l ->
  map g X = tab n (fun i => g (tab d (fun j => tab l (entry X i j)))).
Proof.
  intros HX. destruct HX as [Hn HF] eqn:E. clear E. subst n.
  assert (K : X = tab (length X) (fun i => tab d (fun j => tab l (entry X i j)))).
  { apply (list_ext []); [now rewrite tab_length|]. intros i Hi. rewrite tab_nth by exact Hi.
    apply (sample_tab X (length X) d l i); [split; [reflexivity|exact HF]|exact Hi]. }
  rewrite K at 1. unfold tab at 1. now rewrite map_map.
Qed.

Lemma map_tab {A B} (f : A -> B) n g : map f (tab n g) = tab n (fun i => f (g i)).
Proof. unfold tab. apply map_map. Qed.

(** * FFN *)
Lemma column_tab d l (f : nat -> nat -> R) t : (t < l)%nat -> column (tab d (fun j => tab l (f j))) t = tab d (fun j => f j t).
Proof. intros Ht. unfold column, tab at 1. rewrite map_map. apply map_ext. intros j. cbn [nzero RNum]. now apply tab_nth. Qed.
Lemma center_tab d l (f : nat -> nat -> R) : map center_row (tab d (fun j => tab l (f j))) = tab d (fun j => tab l (fun t => f j t - mean_of (f j) l)).
Proof.
  unfold tab at 1. rewrite map_map. apply map_ext. intros j. unfold center_row. rewrite vmean_tab. unfold tab at 1. rewrite map_map. reflexivity.
Qed.
Lemma Rsum_seq n f : Rsum (map f (seq 0 n)) = Rsum_upto f n.
Proof. exact (Rsum_tab n f). Qed.
Lemma ffn_point_two c st d (x : nat -> R) o : net_shaped d st -> (o < length (ffn_w2 st))%nat ->
  nth o (ffn_point c st (tab d x)) 0 = two_layer (ffn_relu_out c) (ffn_w1 st) (ffn_b st) (ffn_w2 st) d (length (ffn_w1 st)) x o.
Proof.
  intros HS Ho. pose proof (ffn_point_net st (tab d x) o) as K. rewrite tab_length in K. specialize (K HS Ho).
  set (v := Rsum_upto (fun h => nth h (nth o (ffn_w2 st) []) 0
             * Rmax 0 (Rsum_upto (fun e => nth e (nth h (ffn_w1 st) []) 0 * x e) d + nth h (ffn_b st) 0)) (length (ffn_w1 st))).
  assert (E : nth o (ffn_point {| ffn_center := false; ffn_relu_out := false |} st (tab d x)) 0 = v).
  { rewrite K, Rsum_seq. unfold v. apply Rsum_upto_ext. intros h Hh. f_equal. f_equal. f_equal. rewrite Rsum_seq.
    apply Rsum_upto_ext. intros e He. now rewrite tab_nth. }
  unfold two_layer. fold v. unfold ffn_point in *. cbn [ffn_relu_out] in E. destruct (ffn_relu_out c); [|exact E].
  rewrite (nth_indep _ 0 (relu 0)) by (rewrite !map_length; exact Ho). rewrite (map_nth relu), relu_max. now rewrite E.
Qed.
Lemma ffn_spec c st X n d l : has_shape X n d l -> (1 <= d)%nat -> net_shaped d st ->
  ffn_transform c (Some st) X = Ok (built n (length (ffn_w2 st)) l (fun i o t =>
    two_layer (ffn_relu_out c) (ffn_w1 st) (ffn_b st) (ffn_w2 st) d (length (ffn_w1 st))
      (fun j => entry X i j t - (if ffn_center c then mean_of (entry X i j) l else 0)) o)).
Proof.
  intros HX Hd HS. unfold ffn_transform.
  replace (forallb _ X) with true.
  2:{ symmetry. apply forallb_forall. intros x Hx. apply forallb_forall. intros w Hw. apply Nat.eqb_eq.
      destruct HX as [_ HF]. rewrite Forall_forall in HF. destruct (HF x Hx) as [-> _]. destruct HS as [HS _]. rewrite Forall_forall in HS. auto. }
  f_equal. rewrite (map_samples X n d l _ HX). unfold built. apply map_ext_in. intros i Hi. apply in_seq in Hi.
  unfold ffn_sample.
  assert (E : (if ffn_center c then map center_row (tab d (fun j => tab l (entry X i j))) else tab d (fun j => tab l (entry X i j)))
    = tab d (fun j => tab l (fun t => entry X i j t - (if ffn_center c then mean_of (entry X i j) l else 0)))).
  { destruct (ffn_center c); [apply center_tab|]. apply map_ext. intros j. apply map_ext. intros t. ring. }
  rewrite E.
  assert (TL : tlen (tab d (fun j => tab l (fun t => entry X i j t - (if ffn_center c then mean_of (entry X i j) l else 0)))) = l).
  { destruct d as [|d]; [lia|]. apply tab_length. }
  rewrite TL. apply map_ext_in. intros o Ho. apply in_seq in Ho. apply map_ext_in. intros t Ht. apply in_seq in Ht.
  rewrite column_tab by lia. apply ffn_point_two; [exact HS|lia].
Qed.
Lemma two_layer_ext r W1 b W2 d hid x y o : (forall e, (e < d)%nat -> x e = y e) -> two_layer r W1 b W2 d hid x o = two_layer r W1 b W2 d hid y o.
Proof.
  intros E. unfold two_layer. cbv zeta. rewrite (Rsum_upto_ext _ (fun h => nth h (nth o W2 []) 0
             * Rmax 0 (Rsum_upto (fun e => nth e (nth h W1 []) 0 * y e) d + nth h b 0)) hid); [reflexivity|].
  intros h _. f_equal. f_equal. f_equal. apply Rsum_upto_ext. intros e He. now rewrite E.
Qed.
(** * SPE *)
Lemma map2_tab {A B C} (f : A -> B -> C) n g h : map2 f (tab n g) (tab n h) = tab n (fun i => f (g i) (h i)).
Proof.
  unfold tab. generalize 0%nat. induction n as [|n IH]; intros s; cbn [seq map map2]; [reflexivity|]. now rewrite IH.
Qed.
Lemma bcast_same {A B} (a : list A) (b : list B) : length a = length b -> bcast a b = Ok (a, b).
Proof. intros E. unfold bcast. now rewrite E, Nat.eqb_refl. Qed.
Lemma bcast_one {A B} (a : list A) (b : B) : bcast a [b] = Ok (a, repeat b (length a)).
Proof. destruct a as [|x [|y a]]; reflexivity. Qed.
Lemma repeat_tab {A} (a : A) n : repeat a n = tab n (fun _ => a).
Proof. unfold tab. generalize 0%nat. induction n as [|n IH]; intros s; cbn [repeat seq map]; [reflexivity|]. f_equal. apply IH. Qed.
Lemma mapM_okf {A B} (f : A -> res B) (g : A -> B) l : (forall x, In x l -> f x = Ok (g x)) -> mapM f l = Ok (map g l).
Proof.
  induction l as [|x l IH]; intros E; [reflexivity|]. cbn [mapM map]. rewrite E by (now left). cbn [bind].
  rewrite IH by (intros; apply E; now right). reflexivity.
Qed.
Lemma map2M_tab {A B C} (f : A -> B -> res C) n g h k : (forall i, (i < n)%nat -> f (g i) (h i) = Ok (k i)) ->
  map2M f (tab n g) (tab n h) = Ok (tab n k).
Proof.
  intros E. unfold tab.
  assert (G : forall m s, (s + m <= n)%nat -> map2M f (map g (seq s m)) (map h (seq s m)) = Ok (map k (seq s m))).
  { induction m as [|m IH]; intros s Hs; [reflexivity|]. cbn [seq map map2M]. rewrite E by lia. cbn [bind]. rewrite IH by lia. reflexivity. }
  apply (G n 0%nat). lia.
Qed.
Lemma wave_one op X n d l (w : nat -> R) : has_shape X n d l -> 
  wave_apply op X [tab l w] = Ok (built n d l (fun i j t => op (entry X i j t) (w t))).
Proof.
  intros HX. unfold wave_apply. rewrite bcast_one. cbn [bind].
  assert (E : X = tab n (fun i => tab d (fun j => tab l (entry X i j)))).
  { rewrite <- (map_id X) at 1. apply (map_samples X n d l (fun x => x) HX). }
  rewrite E at 1. destruct HX as [Hn _]. rewrite Hn, repeat_tab. unfold built. apply map2M_tab. intros i Hi.
  rewrite (mapM_okf _ (fun r => map2 op r (tab l w))).
  - f_equal. rewrite map_tab. apply map_ext. intros j. apply map2_tab.
  - intros r Hr. apply in_map_iff in Hr. destruct Hr as (j & <- & _). rewrite bcast_same by (now rewrite !tab_length). reflexivity.
Qed.
Lemma wave_rows op X n d l (w : nat -> nat -> R) : has_shape X n d l -> 
  wave_apply op X (tab n (fun i => tab l (w i))) = Ok (built n d l (fun i j t => op (entry X i j t) (w i t))).
Proof.
  intros HX. unfold wave_apply. destruct HX as [Hn HF] eqn:EH. clear EH. rewrite bcast_same by (rewrite tab_length; exact Hn). cbn [bind].
  assert (E : X = tab n (fun i => tab d (fun j => tab l (entry X i j)))).
  { rewrite <- (map_id X) at 1. apply (map_samples X n d l (fun x => x)). now split. }
  rewrite E at 1. unfold built. apply map2M_tab. intros i Hi.
  rewrite (mapM_okf _ (fun r => map2 op r (tab l (w i)))).
  - f_equal. rewrite map_tab. apply map_ext. intros j. apply map2_tab.
  - intros r Hr. apply in_map_iff in Hr. destruct Hr as (j & <- & _). rewrite bcast_same by (now rewrite !tab_length). reflexivity.
Qed.
Definition spe_wave (fn : option (R -> R)) : R -> R := match fn with None => sin | Some g => g end.
Lemma spe_plain parse powf inp freq (mult : bool) fn ml X n d l : has_shape X n d l -> (1 <= n)%nat -> (1 <= d)%nat ->
  spe_run (T := R) parse powf inp freq (str (if mult then "multiplicative" else "additive")%string) fn None ml X
  = Ok (built n d l (fun i j t => (if mult then Rmult else Rplus) (entry X i j t)
          (spe_wave fn (INR t / powf (INR (match ml with None => l | Some m => m end)) freq)))).
Proof.
  intros HX Hn Hd. unfold spe_run. rewrite (lenX_shape X n d l HX Hn Hd).
  set (w := fun t => spe_wave fn (INR t / powf (INR (match ml with None => l | Some m => m end)) freq)).
  assert (E : map (fun i => (match fn with None => nsin | Some g => g end)
        (ndiv (nofnat i) (powf (nofnat (match ml with None => l | Some m => m end)) freq))) (seq 0 l) = tab l w).
  { apply map_ext. intros t. unfold w, spe_wave, nofnat. cbn [nofZ ndiv nsin RNum]. rewrite !INR_IZR_INZ. destruct fn; reflexivity. }
  cbn [bind]. rewrite E. destruct mult; exact (wave_one _ X n d l w HX).
Qed.
Definition norm_of (two : bool) (v : R) : R := if two then v * v else Rabs v.
Lemma sums_tab (two : bool) C n dC l : has_shape C n dC l -> (1 <= dC)%nat ->
  (if two then L2_sum C else L1_sum C) = tab n (fun i => tab l (variation (norm_of two) (entry C i 0))).
Proof.
  intros HC HdC.
  assert (K : length (if two then L2_sum C else L1_sum C) = n /\ forall i, (i < n)%nat ->
     nth i (if two then L2_sum C else L1_sum C) [] = tab l (variation (norm_of two) (entry C i 0))).
  { destruct two; [exact (L2_sum_spec C n dC l HC HdC)|exact (L1_sum_spec C n dC l HC HdC)]. }
  destruct K as [K1 K2]. apply (list_ext []); [now rewrite tab_length|]. intros i Hi. rewrite K1 in Hi. rewrite tab_nth by exact Hi. now apply K2.
Qed.
Lemma spe_steps parse powf inp freq (mult two : bool) fn ml X n d dC l : has_shape X n d l -> has_shape inp n dC l -> (1 <= dC)%nat -> (1 <= l)%nat ->
  spe_run (T := R) parse powf inp freq (str (if mult then "multiplicative" else "additive")%string) fn
    (Some (str (if two then "L2" else "L1")%string)) ml X
  = Ok (built n d l (fun i j t => (if mult then Rmult else Rplus) (entry X i j t)
          (let y := variation (norm_of two) (entry inp i 0) in
           spe_wave fn (y t / powf (match ml with None => y (l - 1)%nat | Some m => INR m end) freq)))).
Proof.
  intros HX HC HdC Hl. unfold spe_run.
  assert (F : cache_fresh parse inp CISS (str (if two then "L2" else "L1")%string) = Ok (VSum (if two then L2_sum inp else L1_sum inp))).
  { destruct two; reflexivity. }
  rewrite F. cbn [bind]. rewrite (sums_tab two inp n dC l HC HdC), map_tab.
  set (w := fun i t => let y := variation (norm_of two) (entry inp i 0) in
           spe_wave fn (y t / powf (match ml with None => y (l - 1)%nat | Some m => INR m end) freq)).
  match goal with |- context [tab n ?h] => replace (tab n h) with (tab n (fun i => tab l (w i))) end.
  - destruct mult; exact (wave_rows _ X n d l w HX).
  - apply map_ext. intros i. rewrite map_tab. rewrite last_tab by exact Hl. apply map_ext. intros t. unfold w, spe_wave, nofnat. cbn [nofZ ndiv nsin RNum].
    destruct ml; [rewrite INR_IZR_INZ|]; destruct fn; reflexivity.
Qed.

(** * RDW *)
Lemma rdw_apply (powf : R -> R -> R) w X n d l : has_shape X n d l -> length w = d ->
  mapM (fun x => let! (rows, es) := bcast x w in Ok (map2 (fun row e => map (fun v => powf v e) row) rows es)) X
  = Ok (built n d l (fun i j t => powf (entry X i j t) (nth j w 0))).
Proof.
  intros HX Hw. rewrite (mapM_okf _ (fun x => map2 (fun row e => map (fun v => powf v e) row) x w)).
  - f_equal. rewrite (map_samples X n d l _ HX). unfold built. apply map_ext. intros i.
    assert (E : w = tab d (fun j => nth j w 0)) by (now apply tab_eta').
    rewrite E at 1. rewrite map2_tab. apply map_ext. intros j. apply map_tab.
  - intros x Hx. destruct HX as [_ HF]. rewrite Forall_forall in HF. destruct (HF x Hx) as [Hd _]. rewrite bcast_same by (now rewrite Hd). reflexivity.
Qed.
Lemma map_nth_tab {A B} (f : A -> B) (dA : A) X n : length X = n -> map f X = tab n (fun i => f (nth i X dA)).
Proof. intros <-. transitivity (map f (tab (length X) (fun i => nth i X dA))); [f_equal; now apply tab_eta'|apply map_tab]. Qed.
Lemma mean_abs X n d l j t : has_shape X n d l -> vmean (map (fun x => nabs (at3 x j t)) X) = mean_of (fun i => Rabs (entry X i j t)) n.
Proof.
  intros [Hn _]. rewrite (map_nth_tab _ [] X n Hn). rewrite vmean_tab. apply mean_ext. intros i _. apply nabs_Rabs.
Qed.
Definition size_at (X : list (list (list R))) (n l j : nat) : R :=
  match vmax (tab l (fun t => mean_of (fun i => Rabs (entry X i j t)) n)) with Ok v => v | Err _ => 0 end.
Lemma size_at_is X n l j : (1 <= l)%nat -> size_is (fun i t => entry X i j t) n l (size_at X n l j).
Proof. intros Hl. unfold size_is, size_at. destruct (vmax_tab l (fun t => mean_of (fun i => Rabs (entry X i j t)) n) Hl) as (m & -> & Hm). exact Hm. Qed.
Lemma mean_nonneg f n : (1 <= n)%nat -> (forall i, (i < n)%nat -> 0 <= f i) -> 0 <= mean_of f n.
Proof.
  intros Hn Hf. unfold mean_of. apply Rmult_le_pos; [now apply Rsum_upto_nonneg|]. apply Rlt_le, Rinv_0_lt_compat. apply lt_0_INR. lia.
Qed.
Lemma Rsum_upto_zero f n : (forall i, (i < n)%nat -> 0 <= f i) -> Rsum_upto f n = 0 -> forall i, (i < n)%nat -> f i = 0.
Proof.
  induction n as [|n IH]; intros Hf E i Hi; [lia|]. cbn [Rsum_upto] in E.
  assert (0 <= Rsum_upto f n) by (apply Rsum_upto_nonneg; intros; apply Hf; lia). assert (0 <= f n) by (apply Hf; lia).
  destruct (Nat.eq_dec i n) as [->|]; [lra|]. apply IH; [intros; apply Hf; lia|lra|lia].
Qed.
Lemma size_nonneg X n l j : (1 <= n)%nat -> (1 <= l)%nat -> 0 <= size_at X n l j.
Proof.
  intros Hn Hl. destruct (size_at_is X n l j Hl) as [(t & _ & <-) _]. apply mean_nonneg; [exact Hn|]. intros. apply Rabs_pos.
Qed.
Lemma size_zero X n l j : (1 <= n)%nat -> (1 <= l)%nat ->
  size_at X n l j = 0 <-> forall i t, (i < n)%nat -> (t < l)%nat -> entry X i j t = 0.
Proof.
  intros Hn Hl. destruct (size_at_is X n l j Hl) as [(t0 & Ht0 & E) Hm]. split; intros H0.
  - intros i t Hi Ht. specialize (Hm t Ht). rewrite H0 in Hm.
    assert (Hz : mean_of (fun i => Rabs (entry X i j t)) n = 0).
    { apply Rle_antisym; [exact Hm|]. apply mean_nonneg; [exact Hn|intros; apply Rabs_pos]. }
    unfold mean_of in Hz. assert (Hi0 : INR n <> 0) by (apply not_0_INR; lia).
    assert (Hs : Rsum_upto (fun i => Rabs (entry X i j t)) n = 0).
    { apply Rmult_integral in Hz. destruct Hz as [Hz|Hz]; [exact Hz|]. exfalso. now apply (Rinv_neq_0_compat _ Hi0). }
    pose proof (Rsum_upto_zero _ n (fun i _ => Rabs_pos _) Hs i Hi) as K. cbn beta in K.
    destruct (Req_dec (entry X i j t) 0) as [|Hne]; [assumption|]. now apply Rabs_no_R0 in Hne.
  - rewrite <- E. unfold mean_of. rewrite (Rsum_upto_ext _ (fun _ => 0) n), Rsum_upto_const; [field; apply not_0_INR; lia|].
    intros i Hi. rewrite H0 by assumption. apply Rabs_R0.
Qed.
Lemma rdw_raw X n d l : has_shape X n d l -> (1 <= n)%nat -> (1 <= d)%nat -> (1 <= l)%nat ->
  mapM (fun j => vmax (map (fun t => vmean (map (fun x => nabs (at3 x j t)) X)) (seq 0 (lenX X)))) (seq 0 (dimX X)) = Ok (tab d (size_at X n l)).
Proof.
  intros HX Hn Hd Hl. rewrite (lenX_shape X n d l HX Hn Hd), (dimX_shape X n d l HX Hn). apply mapM_okf. intros j _.
  rewrite (map_ext _ (fun t => mean_of (fun i => Rabs (entry X i j t)) n)) by (intros t; now apply (mean_abs X n d l)).
  unfold size_at. change (map ?f (seq 0 l)) with (tab l f).
  destruct (vmax_tab l (fun t => mean_of (fun i => Rabs (entry X i j t)) n) Hl) as (m & -> & _). reflexivity.
Qed.
Lemma neqb_zero (a : R) : neqb a nzero = true <-> a = 0.
Proof. cbn [neqb nzero RNum]. unfold Reqb'. destruct (Req_EM_T a 0); split; congruence. Qed.
Lemma rdw_all_zero eps X n d l : has_shape X n d l -> (1 <= n)%nat -> (1 <= d)%nat -> (1 <= l)%nat ->
  (forall i j t, (i < n)%nat -> (j < d)%nat -> (t < l)%nat -> entry X i j t = 0) -> rdw_alphas eps X = Err ValueError.
Proof.
  intros HX Hn Hd Hl H0. unfold rdw_alphas. rewrite (rdw_raw X n d l HX Hn Hd Hl). cbn [bind].
  replace (filter _ _) with (@nil R); [reflexivity|]. symmetry.
  assert (G : forall js, (forall j, In j js -> (j < d)%nat) -> filter (fun a => negb (neqb a nzero)) (map (size_at X n l) js) = []).
  { induction js as [|j js IH]; intros Hj; [reflexivity|]. cbn [map filter].
    replace (neqb (size_at X n l j) nzero) with true; [cbn [negb]; apply IH; intros; apply Hj; now right|].
    symmetry. apply neqb_zero. apply size_zero; auto. intros i t Hi Ht. apply H0; auto. apply Hj. now left. }
  apply G. intros j Hj. apply in_seq in Hj. lia.
Qed.
Lemma rdw_some eps X n d l : has_shape X n d l -> (1 <= n)%nat -> (1 <= d)%nat -> (1 <= l)%nat ->
  (exists i j t, (i < n)%nat /\ (j < d)%nat /\ (t < l)%nat /\ entry X i j t <> 0) ->
  exists M, max_on (size_at X n l) d M /\ 0 < M /\
  rdw_alphas eps X = Ok (tab d (fun j => size_at X n l j / M +
      (if existsb (fun a => neqb a nzero) (tab d (size_at X n l)) then eps else 0))).
Proof.
  intros HX Hn Hd Hl (i0 & j0 & t0 & Hi0 & Hj0 & Ht0 & Hne). unfold rdw_alphas. rewrite (rdw_raw X n d l HX Hn Hd Hl). cbn [bind].
  set (nz := filter (fun a => negb (neqb a nzero)) (tab d (size_at X n l))).
  assert (Hin : forall v, In v nz <-> exists j, (j < d)%nat /\ size_at X n l j = v /\ v <> 0).
  { intros v. unfold nz. rewrite filter_In, In_tab. split.
    - intros [(j & Hj & E) Hv]. exists j. repeat split; auto. intros ->. destruct (proj2 (neqb_zero 0) eq_refl). now rewrite (proj2 (neqb_zero 0) eq_refl) in Hv.
    - intros (j & Hj & E & Hv). split; [now exists j|]. destruct (neqb v nzero) eqn:Q; [apply neqb_zero in Q; congruence|reflexivity]. }
  assert (Hs0 : size_at X n l j0 <> 0).
  { intros E. rewrite size_zero in E by auto. apply Hne. now apply E. }
  assert (Hnn : nz <> []). { intros E. assert (Hi : In (size_at X n l j0) nz) by (apply Hin; now exists j0). rewrite E in Hi. destruct Hi. }
  destruct (vmax_spec nz Hnn) as (M & EM & HM1 & HM2). rewrite EM. cbn [bind]. exists M.
  apply Hin in HM1. destruct HM1 as (jm & Hjm & EjM & HM0).
  assert (HMp : 0 < M). { pose proof (size_nonneg X n l jm Hn Hl). lra. }
  split; [|split; [exact HMp|]].
  - split; [now exists jm|]. intros j Hj. destruct (Req_dec (size_at X n l j) 0) as [->|Hz]; [lra|]. apply HM2. apply Hin. now exists j.
  - f_equal.
    assert (E1 : map (fun a => if neqb a nzero then a else ndiv a M) (tab d (size_at X n l)) = tab d (fun j => size_at X n l j / M)).
    { rewrite map_tab. apply map_ext. intros j. destruct (neqb (size_at X n l j) nzero) eqn:Q; [|reflexivity]. apply neqb_zero in Q. rewrite Q. cbn. unfold Rdiv. ring. }
    rewrite E1.
    assert (E2 : existsb (fun a => neqb a nzero) (tab d (fun j => size_at X n l j / M)) = existsb (fun a => neqb a nzero) (tab d (size_at X n l))).
    { apply eq_true_iff_eq. rewrite !existsb_exists. setoid_rewrite In_tab. setoid_rewrite neqb_zero. split.
      - intros (x & (j & Hj & E) & Hx). exists (size_at X n l j). split; [now exists j|]. rewrite <- E in Hx. unfold Rdiv in Hx. apply Rmult_integral in Hx.
        destruct Hx as [|Hx]; [assumption|]. assert (/ M <> 0) by (apply Rinv_neq_0_compat; lra). contradiction.
      - intros (x & (j & Hj & E) & Hx). exists (size_at X n l j / M). split; [now exists j|]. rewrite E, Hx. unfold Rdiv. ring. }
    rewrite E2. destruct (existsb _ (tab d (size_at X n l))).
    + rewrite map_tab. reflexivity.
    + apply map_ext. intros j. ring.
Qed.
