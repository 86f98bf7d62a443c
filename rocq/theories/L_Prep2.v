(** NRM, STD, QTC, coquantiles and weighting lookups. *)
From Coq Require Import List Arith ZArith Lia Bool Reals Lra.
From Verif Require Import Num Arr M_Str M_Np M_Prep S_ISS S_Prep L_Arr L_Np L_Tuples L_Prep.
Import ListNotations.
Open Scope R_scope.

(** * Comparisons *)
Lemma Rleb_spec x y : reflect (x <= y) (@nleb R RNum x y).
Proof. cbn. unfold Rleb. destruct (Rle_dec x y); constructor; assumption. Qed.
Lemma Reqb_spec' x y : reflect (x = y) (@neqb R RNum x y).
Proof. cbn. unfold Reqb'. destruct (Req_EM_T x y); constructor; assumption. Qed.
Lemma Rltb_spec' x y : reflect (x < y) (@nltb R RNum x y).
Proof.
  unfold nltb. destruct (Rleb_spec x y), (Reqb_spec' x y); cbn [andb negb]; constructor; lra.
Qed.

(** * Minimum and maximum *)
Lemma fold_nmin_spec (r : list R) x :
  (fold_left nmin r x = x \/ In (fold_left nmin r x) r) /\
  fold_left nmin r x <= x /\ (forall y, In y r -> fold_left nmin r x <= y).
Proof.
  revert x. induction r as [|y r IH]; intros x; cbn [fold_left].
  - repeat split; [now left|lra|contradiction].
  - destruct (IH (nmin x y)) as [H1 [H2 H3]]. set (m := fold_left nmin r (nmin x y)) in *.
    unfold nmin in H1, H2. destruct (Rleb_spec x y).
    + split; [destruct H1; [now left|right; now right]|]. split; [lra|].
      intros z [<-|Hz]; [lra|auto].
    + split; [destruct H1 as [H1|H1]; [right; left; congruence|right; now right]|]. split; [lra|].
      intros z [<-|Hz]; [lra|auto].
Qed.
Lemma fold_nmax_spec (r : list R) x :
  (fold_left nmax r x = x \/ In (fold_left nmax r x) r) /\
  x <= fold_left nmax r x /\ (forall y, In y r -> y <= fold_left nmax r x).
Proof.
  revert x. induction r as [|y r IH]; intros x; cbn [fold_left].
  - repeat split; [now left|lra|contradiction].
  - destruct (IH (nmax x y)) as [H1 [H2 H3]]. set (m := fold_left nmax r (nmax x y)) in *.
    unfold nmax in H1, H2. destruct (Rleb_spec x y).
    + split; [destruct H1 as [H1|H1]; [right; left; congruence|right; now right]|]. split; [lra|].
      intros z [<-|Hz]; [lra|auto].
    + split; [destruct H1; [now left|right; now right]|]. split; [lra|].
      intros z [<-|Hz]; [lra|auto].
Qed.
Lemma vmin_spec (l : list R) : l <> [] -> exists m, vmin l = Ok m /\ In m l /\ forall y, In y l -> m <= y.
Proof.
  destruct l as [|x r]; [congruence|]. intros _. cbn [vmin].
  destruct (fold_nmin_spec r x) as [H1 [H2 H3]]. eexists. split; [reflexivity|].
  split; [destruct H1 as [H1|H1]; [left; congruence|now right]|]. intros y [<-|Hy]; auto.
Qed.
Lemma vmax_spec (l : list R) : l <> [] -> exists m, vmax l = Ok m /\ In m l /\ forall y, In y l -> y <= m.
Proof.
  destruct l as [|x r]; [congruence|]. intros _. cbn [vmax].
  destruct (fold_nmax_spec r x) as [H1 [H2 H3]]. eexists. split; [reflexivity|].
  split; [destruct H1 as [H1|H1]; [left; congruence|now right]|]. intros y [<-|Hy]; auto.
Qed.
Lemma In_tab {A} n (f : nat -> A) y : In y (tab n f) <-> exists t, (t < n)%nat /\ f t = y.
Proof.
  unfold tab. rewrite in_map_iff. split.
  - intros [t [E Ht]]. apply in_seq in Ht. exists t. split; [lia|exact E].
  - intros [t [Ht E]]. exists t. split; [exact E|]. apply in_seq. lia.
Qed.
Lemma tab_ne {A} n (f : nat -> A) : (1 <= n)%nat -> tab n f <> [].
Proof. destruct n; [lia|]. rewrite tab_S. discriminate. Qed.

Lemma vmin_tab n (f : nat -> R) : (1 <= n)%nat -> exists m, vmin (tab n f) = Ok m /\ min_on f n m.
Proof.
  intros Hn. destruct (vmin_spec (tab n f)) as [m [E [H1 H2]]]; [now apply tab_ne|].
  exists m. split; [exact E|]. apply In_tab in H1. split; [exact H1|].
  intros t Ht. apply H2. apply In_tab. eauto.
Qed.
Lemma vmax_tab n (f : nat -> R) : (1 <= n)%nat -> exists m, vmax (tab n f) = Ok m /\ max_on f n m.
Proof.
  intros Hn. destruct (vmax_spec (tab n f)) as [m [E [H1 H2]]]; [now apply tab_ne|].
  exists m. split; [exact E|]. apply In_tab in H1. split; [exact H1|].
  intros t Ht. apply H2. apply In_tab. eauto.
Qed.
Lemma min_on_unique f n m m' : min_on f n m -> min_on f n m' -> m = m'.
Proof.
  intros [[t [Ht E]] H] [[t' [Ht' E']] H']. pose proof (H t' Ht'). pose proof (H' t Ht). lra.
Qed.
Lemma max_on_unique f n m m' : max_on f n m -> max_on f n m' -> m = m'.
Proof.
  intros [[t [Ht E]] H] [[t' [Ht' E']] H']. pose proof (H t' Ht'). pose proof (H' t Ht). lra.
Qed.

Lemma nrm_row_tab m M l (f : nat -> R) : nrm_row m M (tab l f) = tab l (fun t => rescale m M (f t)).
Proof.
  unfold nrm_row, rescale. destruct (Reqb_spec' m M).
  - rewrite tab_length, zeros_tab. apply tab_ext. intros t _. destruct (Req_EM_T m M); [reflexivity|contradiction].
  - rewrite tab_map. apply tab_ext. intros t _. destruct (Req_EM_T m M); [contradiction|reflexivity].
Qed.
Lemma nrm_sample_false x d l : length x = d -> Forall (fun r => length r = l) x -> (1 <= l)%nat ->
  exists y, nrm_sample false x = Ok y /\ length y = d /\ Forall (fun r => length r = l) y /\
  forall j, (j < d)%nat -> exists m M, min_on (fun t => nth t (nth j x []) 0) l m /\
     max_on (fun t => nth t (nth j x []) 0) l M /\
     nth j y [] = tab l (fun t => rescale m M (nth t (nth j x []) 0)).
Proof.
  intros <- Hx Hl.
  induction Hx as [|r x Hr Hx IH].
  - exists []. repeat split; [constructor|]. cbn. intros j Hj. lia.
  - destruct IH as [y [E [Ly [Fy Sy]]]].
    destruct (vmin_tab l (fun t => nth t r 0) Hl) as [m [Em Hm]].
    destruct (vmax_tab l (fun t => nth t r 0) Hl) as [M [EM HM]].
    rewrite <- (tab_eta' 0 l r Hr) in Em, EM.
    unfold nrm_sample in *. cbn [mapM]. rewrite Em, EM.
    destruct (mapM vmin x) as [mns|] eqn:E1; cbn [bind] in E; [|discriminate].
    destruct (mapM vmax x) as [mxs|] eqn:E2; cbn [bind] in E; [|discriminate].
    injection E as <-.
    cbn [bind]. eexists. split; [reflexivity|]. cbn [combine map]. split.
    + cbn [length]. f_equal. exact Ly.
    + cbn [fst snd]. assert (Er : nrm_row m M r = tab l (fun t => rescale m M (nth t r 0))).
      { rewrite (tab_eta' 0 l r Hr) at 1. apply nrm_row_tab. }
      split; [constructor; [rewrite Er; apply tab_length|exact Fy]|].
      intros [|j] Hj; cbn [nth].
      * exists m, M. auto.
      * apply Sy. cbn [length] in Hj. lia.
Qed.
Lemma mapM_exists {A B} (f : A -> res B) (P : A -> B -> Prop) l :
  (forall x, In x l -> exists y, f x = Ok y /\ P x y) ->
  exists r, mapM f l = Ok r /\ Forall2 P l r.
Proof.
  induction l as [|x l IH]; intros E; [exists []; split; [reflexivity|constructor]|].
  destruct (E x (or_introl eq_refl)) as [y [E1 P1]].
  destruct IH as [r [E2 P2]]; [intros z Hz; apply E; now right|].
  exists (y :: r). cbn [mapM]. rewrite E1, E2. split; [reflexivity|now constructor].
Qed.
Lemma Forall2_nth' {A B} (P : A -> B -> Prop) l r i a b : Forall2 P l r -> (i < length l)%nat ->
  P (nth i l a) (nth i r b).
Proof.
  intros F. revert i. induction F; intros i Hi; cbn in Hi; [lia|].
  destruct i; cbn; [assumption|]. apply IHF. lia.
Qed.
(** A sample-wise operation that succeeds on every sample. *)
Lemma samplewiseM X n d l d' l' (f : list (list R) -> res (list (list R))) (P : list (list R) -> list (list R) -> Prop) :
  has_shape X n d l ->
  (forall x, length x = d -> Forall (fun r => length r = l) x ->
     exists y, f x = Ok y /\ length y = d' /\ Forall (fun r => length r = l') y /\ P x y) ->
  exists Y, mapM f X = Ok Y /\ has_shape Y n d' l' /\
    forall i, (i < n)%nat -> P (nth i X []) (nth i Y []).
Proof.
  intros [Hn HX] Hf.
  destruct (mapM_exists f (fun x y => length y = d' /\ Forall (fun r => length r = l') y /\ P x y) X) as [Y [E F]].
  { intros x Hx. rewrite Forall_forall in HX. destruct (HX x Hx) as [H1 H2].
    destruct (Hf x H1 H2) as [y [E Q]]. eauto. }
  exists Y. split; [exact E|]. pose proof (mapM_length _ _ _ E) as LY. split.
  - split; [lia|]. apply Forall_forall. intros y Hy. apply (In_nth _ _ []) in Hy as [i [Hi <-]].
    destruct (Forall2_nth' _ _ _ i [] [] F) as [Q1 [Q2 _]]; [lia|]. auto.
  - intros i Hi. apply (Forall2_nth' _ _ _ i [] [] F). lia.
Qed.

Lemma nrm_spec X n d l : has_shape X n d l -> (1 <= l)%nat ->
  exists Y, nrm_transform false X = Ok Y /\ has_shape Y n d l /\
  forall i j, (i < n)%nat -> (j < d)%nat -> exists m M,
    min_on (entry X i j) l m /\ max_on (entry X i j) l M /\
    forall t, (t < l)%nat -> entry Y i j t = rescale m M (entry X i j t).
Proof.
  intros HX Hl. unfold nrm_transform.
  destruct (samplewiseM X n d l d l (nrm_sample false)
    (fun x y => forall j, (j < d)%nat -> exists m M, min_on (fun t => nth t (nth j x []) 0) l m /\
     max_on (fun t => nth t (nth j x []) 0) l M /\
     nth j y [] = tab l (fun t => rescale m M (nth t (nth j x []) 0))) HX) as [Y [E [HY S]]].
  { intros x H1 H2. exact (nrm_sample_false x d l H1 H2 Hl). }
  exists Y. split; [exact E|]. split; [exact HY|]. intros i j Hi Hj.
  destruct (S i Hi j Hj) as [m [M [Hm [HM Er]]]]. exists m, M. split; [exact Hm|]. split; [exact HM|].
  intros t Ht. unfold entry at 1, row. rewrite Er, tab_nth by exact Ht. reflexivity.
Qed.

Lemma nrm_sample_true x d l : length x = d -> Forall (fun r => length r = l) x -> (1 <= l)%nat -> (1 <= d)%nat ->
  exists y, nrm_sample true x = Ok y /\ length y = d /\ Forall (fun r => length r = l) y /\
  exists m M, min_on2 (fun j t => nth t (nth j x []) 0) d l m /\
     max_on2 (fun j t => nth t (nth j x []) 0) d l M /\
  forall j, (j < d)%nat -> nth j y [] = tab l (fun t => rescale m M (nth t (nth j x []) 0)).
Proof.
  intros Hd Hx Hl Hd1. unfold nrm_sample.
  destruct (mapM_exists vmin (fun (r : list R) m => In m r /\ forall y, In y r -> m <= y) x) as [mns [E1 F1]].
  { intros r Hr. rewrite Forall_forall in Hx. apply vmin_spec. intros ->. specialize (Hx [] Hr). cbn in Hx. lia. }
  destruct (mapM_exists vmax (fun (r : list R) m => In m r /\ forall y, In y r -> y <= m) x) as [mxs [E2 F2]].
  { intros r Hr. rewrite Forall_forall in Hx. apply vmax_spec. intros ->. specialize (Hx [] Hr). cbn in Hx. lia. }
  rewrite E1, E2. cbn [bind].
  pose proof (mapM_length _ _ _ E1) as L1. pose proof (mapM_length _ _ _ E2) as L2.
  destruct (vmin_spec mns) as [m [Em [Im Bm]]]; [intros ->; cbn in L1; lia|].
  destruct (vmax_spec mxs) as [M [EM [IM BM]]]; [intros ->; cbn in L2; lia|].
  rewrite Em, EM. cbn [bind]. eexists. split; [reflexivity|].
  assert (Er : forall r, length r = l -> nrm_row m M r = tab l (fun t => rescale m M (nth t r 0))).
  { intros r Hr. rewrite (tab_eta' 0 l r Hr) at 1. apply nrm_row_tab. }
  rewrite Forall_forall in Hx.
  assert (Lr : forall j, (j < d)%nat -> length (nth j x []) = l).
  { intros j Hj. apply Hx. apply nth_In. lia. }
  split; [now rewrite map_length|]. split.
  { apply Forall_forall. intros r Hr. apply in_map_iff in Hr as [q [<- Hq]]. rewrite Er by auto. apply tab_length. }
  exists m, M. split; [|split].
  - split.
    + apply (In_nth _ _ 0) in Im as [j [Hj Ej]]. destruct (Forall2_nth' _ _ _ j [] 0 F1) as [Q _]; [lia|].
      rewrite Ej in Q. apply (In_nth _ _ 0) in Q as [t [Ht Et]]. rewrite Lr in Ht by lia.
      exists j, t. repeat split; [lia|lia|exact Et].
    + intros j t Hj Ht. destruct (Forall2_nth' _ _ _ j [] 0 F1) as [_ Q]; [lia|].
      apply Rle_trans with (nth j mns 0).
      * apply Bm. apply nth_In. lia.
      * apply Q. apply nth_In. rewrite Lr; lia.
  - split.
    + apply (In_nth _ _ 0) in IM as [j [Hj Ej]]. destruct (Forall2_nth' _ _ _ j [] 0 F2) as [Q _]; [lia|].
      rewrite Ej in Q. apply (In_nth _ _ 0) in Q as [t [Ht Et]]. rewrite Lr in Ht by lia.
      exists j, t. repeat split; [lia|lia|exact Et].
    + intros j t Hj Ht. destruct (Forall2_nth' _ _ _ j [] 0 F2) as [_ Q]; [lia|].
      apply Rle_trans with (nth j mxs 0).
      * apply Q. apply nth_In. rewrite Lr; lia.
      * apply BM. apply nth_In. lia.
  - intros j Hj. rewrite (nth_indep _ [] (nrm_row m M [])) by (rewrite map_length; lia).
    rewrite map_nth. apply Er. now apply Lr.
Qed.
Lemma nrm_joint_spec X n d l : has_shape X n d l -> (1 <= l)%nat -> (1 <= d)%nat ->
  exists Y, nrm_transform true X = Ok Y /\ has_shape Y n d l /\
  forall i, (i < n)%nat -> exists m M,
    min_on2 (entry X i) d l m /\ max_on2 (entry X i) d l M /\
    forall j t, (j < d)%nat -> (t < l)%nat -> entry Y i j t = rescale m M (entry X i j t).
Proof.
  intros HX Hl Hd. unfold nrm_transform.
  destruct (samplewiseM X n d l d l (nrm_sample true)
    (fun x y => exists m M, min_on2 (fun j t => nth t (nth j x []) 0) d l m /\
     max_on2 (fun j t => nth t (nth j x []) 0) d l M /\
     forall j, (j < d)%nat -> nth j y [] = tab l (fun t => rescale m M (nth t (nth j x []) 0))) HX) as [Y [E [HY S]]].
  { intros x H1 H2. exact (nrm_sample_true x d l H1 H2 Hl Hd). }
  exists Y. split; [exact E|]. split; [exact HY|]. intros i Hi.
  destruct (S i Hi) as [m [M [Hm [HM Er]]]]. exists m, M. split; [exact Hm|]. split; [exact HM|].
  intros j t Hj Ht. unfold entry at 1, row. rewrite Er, tab_nth by assumption. reflexivity.
Qed.

(** Consequences for [rescale]. *)
Lemma rescale_range m M v : m <= v -> v <= M -> 0 <= rescale m M v <= 1.
Proof.
  intros H1 H2. unfold rescale. destruct (Req_EM_T m M) as [|N]; [lra|].
  assert (0 < M - m) by lra. split.
  - apply Rmult_le_pos; [lra|]. left. now apply Rinv_0_lt_compat.
  - apply (Rmult_le_reg_r (M - m)); [assumption|]. unfold Rdiv. rewrite Rmult_assoc, Rinv_l; lra.
Qed.
Lemma rescale_mono m M v w : m <= M -> v <= w -> rescale m M v <= rescale m M w.
Proof.
  intros H0 H1. unfold rescale. destruct (Req_EM_T m M) as [|N]; [lra|].
  assert (0 < M - m) by lra. apply Rmult_le_compat_r; [|lra]. left. now apply Rinv_0_lt_compat.
Qed.
Lemma rescale_min m M : rescale m M m = 0.
Proof. unfold rescale. destruct (Req_EM_T m M); [reflexivity|]. unfold Rdiv. ring_simplify. lra. Qed.
Lemma rescale_max m M : m <> M -> rescale m M M = 1.
Proof. intros N. unfold rescale. destruct (Req_EM_T m M); [contradiction|]. field. lra. Qed.
Lemma rescale_affine a b m M v : 0 < a -> rescale (a * m + b) (a * M + b) (a * v + b) = rescale m M v.
Proof.
  intros Ha. unfold rescale. destruct (Req_EM_T m M), (Req_EM_T (a * m + b) (a * M + b)); try reflexivity.
  - subst. contradiction.
  - exfalso. apply n. apply (Rmult_eq_reg_l a); lra.
  - field. split; [lra|]. intros E. apply n0. nra.
Qed.
Lemma rescale_01 v : rescale 0 1 v = v.
Proof. unfold rescale. destruct (Req_EM_T 0 1); [lra|]. field. Qed.

(** * STD *)
Lemma Rsum_upto_plus f g n : Rsum_upto (fun t => f t + g t) n = Rsum_upto f n + Rsum_upto g n.
Proof. induction n as [|n IH]; cbn [Rsum_upto]; [lra|]. rewrite IH. lra. Qed.
Lemma Rsum_upto_scal c f n : Rsum_upto (fun t => c * f t) n = c * Rsum_upto f n.
Proof. induction n as [|n IH]; cbn [Rsum_upto]; [lra|]. rewrite IH. lra. Qed.
Lemma Rsum_upto_const c n : Rsum_upto (fun _ => c) n = INR n * c.
Proof. induction n as [|n IH]; [cbn; lra|]. cbn [Rsum_upto]. rewrite IH, S_INR. lra. Qed.
Lemma Rsum_upto_nonneg f n : (forall t, (t < n)%nat -> 0 <= f t) -> 0 <= Rsum_upto f n.
Proof.
  induction n as [|n IH]; intros E; cbn [Rsum_upto]; [lra|].
  pose proof (E n ltac:(lia)). pose proof (IH ltac:(intros; apply E; lia)). lra.
Qed.
Lemma vmean_tab n (f : nat -> R) : vmean (tab n f) = mean_of f n.
Proof. unfold vmean, mean_of. now rewrite vsum_tab, tab_length, nofnat_INR. Qed.
Lemma vstd_tab n (f : nat -> R) : vstd (tab n f) = sqrt (var_of f n).
Proof. unfold vstd, var_of. rewrite tab_map, !vmean_tab. reflexivity. Qed.
Definition std_div (c : std_cfg (T := R)) (f : nat -> R) (l : nat) : R :=
  (if std_var c then sqrt (var_of f l) else 1) + std_eps c.
Lemma std_row_tab (c : std_cfg) l (f : nat -> R) :
  std_row c (tab l f) = tab l (fun t => (f t - mean_of f l) / std_div c f l).
Proof.
  unfold std_row, std_div. rewrite tab_map, vmean_tab, vstd_tab. apply tab_ext. intros t _.
  destruct (std_var c); reflexivity.
Qed.
Lemma std_separate_spec (c : std_cfg) s X n d l : has_shape X n d l -> std_separately c = true ->
  exists Y, std_transform c s X = Ok Y /\ has_shape Y n d l /\
  forall i j t, (i < n)%nat -> (j < d)%nat -> (t < l)%nat ->
    entry Y i j t = (entry X i j t - mean_of (entry X i j) l) / std_div c (entry X i j) l.
Proof.
  intros HX Hs. unfold std_transform. rewrite Hs. eexists. split; [reflexivity|].
  apply (rowwise X n d l l (std_row c) (fun f t => (f t - mean_of f l) / std_div c f l) HX).
  intros f. apply std_row_tab.
Qed.
Lemma mean_centered f l k : (1 <= l)%nat -> mean_of (fun t => (f t - mean_of f l) / k) l = 0.
Proof.
  intros Hl. unfold mean_of at 1.
  rewrite (Rsum_upto_ext _ (fun t => / k * (f t + - mean_of f l))) by (intros; unfold Rdiv; ring).
  rewrite Rsum_upto_scal, Rsum_upto_plus, Rsum_upto_const. unfold mean_of.
  assert (INR l <> 0) by (apply not_0_INR; lia).
  replace (Rsum_upto f l + INR l * - (Rsum_upto f l / INR l)) with 0 by (field; assumption).
  unfold Rdiv. ring.
Qed.
Lemma var_centered f l k : (1 <= l)%nat ->
  var_of (fun t => (f t - mean_of f l) / k) l = var_of f l * (/ k * / k).
Proof.
  intros Hl. unfold var_of at 1. rewrite mean_centered by exact Hl.
  rewrite (Rsum_upto_ext _ (fun t => (/ k * / k) * ((f t - mean_of f l) * (f t - mean_of f l)))) by (intros; unfold Rdiv; ring).
  rewrite Rsum_upto_scal. unfold var_of, Rdiv. ring.
Qed.
Lemma mean_ext f g l : (forall t, (t < l)%nat -> f t = g t) -> mean_of f l = mean_of g l.
Proof. intros E. unfold mean_of. now rewrite (Rsum_upto_ext f g l E). Qed.
Lemma var_ext f g l : (forall t, (t < l)%nat -> f t = g t) -> var_of f l = var_of g l.
Proof.
  intros E. unfold var_of. rewrite (mean_ext f g l E). f_equal. apply Rsum_upto_ext.
  intros t Ht. now rewrite E.
Qed.
Lemma mean_shift f c l : (1 <= l)%nat -> mean_of (fun t => f t + c) l = mean_of f l + c.
Proof.
  intros Hl. unfold mean_of. rewrite Rsum_upto_plus, Rsum_upto_const.
  field. apply not_0_INR. lia.
Qed.
Lemma var_shift f c l : (1 <= l)%nat -> var_of (fun t => f t + c) l = var_of f l.
Proof.
  intros Hl. unfold var_of. rewrite mean_shift by exact Hl. f_equal. apply Rsum_upto_ext.
  intros t _. ring.
Qed.
Lemma var_nonneg f l : 0 <= var_of f l.
Proof.
  unfold var_of. destruct l as [|l].
  - cbn. unfold Rdiv. rewrite Rmult_0_l. lra.
  - apply Rmult_le_pos.
    + apply Rsum_upto_nonneg. intros t _. apply Rle_0_sqr.
    + left. apply Rinv_0_lt_compat. apply lt_0_INR. lia.
Qed.
Lemma var_const f l c : (1 <= l)%nat -> (forall t, (t < l)%nat -> f t = c) -> var_of f l = 0.
Proof.
  intros Hl E. rewrite (var_ext f (fun _ => 0 + c)) by (intros; rewrite E by assumption; ring).
  rewrite var_shift by exact Hl. unfold var_of. rewrite (Rsum_upto_ext _ (fun _ => 0)).
  - rewrite Rsum_upto_const. unfold Rdiv. ring.
  - intros t _. unfold mean_of. rewrite Rsum_upto_const. unfold Rdiv. ring.
Qed.

(** All entries of a dataset. *)
Lemma std_joint_spec (c : std_cfg) X n d l (F : list (list (list R))) s0 :
  has_shape X n d l -> std_separately c = false ->
  exists Y, std_transform c (std_fit c F s0) X = Ok Y /\ has_shape Y n d l /\
  forall i j t, (i < n)%nat -> (j < d)%nat -> (t < l)%nat ->
    entry Y i j t = (entry X i j t - vmean (concat (concat F)))
                    / ((if std_var c then vstd (concat (concat F)) else 1) + std_eps c).
Proof.
  intros HX Hs. unfold std_transform, std_fit. rewrite Hs. eexists. split; [reflexivity|].
  apply (rowwise X n d l l _ (fun f t => (f t - vmean (concat (concat F)))
            / ((if std_var c then vstd (concat (concat F)) else 1) + std_eps c)) HX).
  intros f. rewrite tab_map. apply tab_ext. intros t _. destruct (std_var c); reflexivity.
Qed.
Lemma concat2_entries F n d l : has_shape F n d l ->
  Rsum (concat (concat F)) = Rsum_upto (fun i => Rsum_upto (fun j => Rsum_upto (entry F i j) l) d) n
  /\ length (concat (concat F)) = (n * d * l)%nat.
Proof.
  intros [Hn HF]. subst n. induction HF as [|x F [Hd Hx] HF IH].
  - split; reflexivity.
  - destruct IH as [I1 I2]. cbn [concat]. rewrite concat_app, Rsum_app, app_length.
    assert (X1 : Rsum (concat x) = Rsum_upto (fun j => Rsum_upto (fun t => nth t (nth j x []) 0) l) d
                 /\ length (concat x) = (d * l)%nat).
    { subst d. clear - Hx. induction Hx as [|r x Hr Hx IH]; [split; reflexivity|].
      destruct IH as [I1 I2]. cbn [concat length]. rewrite Rsum_app, app_length. split.
      - rewrite Rsum_upto_S_l. cbn [nth]. f_equal; [|exact I1].
        rewrite <- Rsum_tab. f_equal. now apply tab_eta'.
      - rewrite I2. lia. }
    destruct X1 as [X1 X2]. split.
    + cbn [length]. rewrite Rsum_upto_S_l. f_equal; [exact X1|exact I1].
    + rewrite X2, I2. cbn [length]. lia.
Qed.

(** * QTC *)
Lemma qtc_spec lower bound q X n d l : has_shape X n d l ->
  exists Y, qtc_transform lower bound (Some q) X = Ok Y /\ has_shape Y n d l /\
  forall i j t, (i < n)%nat -> (j < d)%nat -> (t < l)%nat ->
    entry Y i j t =
      (if lower then if Rlt_dec (entry X i j t) q then (match bound with Some b => b | None => q end) else entry X i j t
       else if Rlt_dec q (entry X i j t) then (match bound with Some b => b | None => q end) else entry X i j t).
Proof.
  intros HX. unfold qtc_transform. eexists. split; [reflexivity|].
  apply (rowwise X n d l l _ (fun f t => if lower then if Rlt_dec (f t) q then (match bound with Some b => b | None => q end) else f t
       else if Rlt_dec q (f t) then (match bound with Some b => b | None => q end) else f t) HX).
  intros f. rewrite tab_map. apply tab_ext. intros t _. destruct lower.
  - destruct (Rltb_spec' (f t) q), (Rlt_dec (f t) q); try contradiction; destruct bound; reflexivity.
  - destruct (Rltb_spec' q (f t)), (Rlt_dec q (f t)); try contradiction; destruct bound; reflexivity.
Qed.

Lemma vcount_prefix p n (f : nat -> R) : forall c, (c <= n)%nat ->
  (forall t, (t < n)%nat -> p (f t) = (t <? c)%nat) -> vcount p (tab n f) = c.
Proof.
  unfold vcount. intros c Hc. revert c Hc f. induction n as [|n IH]; intros c Hc f E.
  - cbn. lia.
  - rewrite tab_S. cbn [filter]. rewrite (E 0%nat) by lia. destruct c as [|c].
    + cbn [Nat.ltb Nat.leb]. apply (IH 0%nat); [lia|]. intros t Ht. now rewrite E by lia.
    + cbn [Nat.ltb Nat.leb length]. f_equal. apply IH; [lia|]. intros t Ht. rewrite E by lia. reflexivity.
Qed.
(** A monotone boolean sequence is a prefix of [true]s. *)
Lemma bool_prefix (b : nat -> bool) n :
  (forall s t, (s <= t)%nat -> (t < n)%nat -> b t = true -> b s = true) ->
  exists c, (c <= n)%nat /\ forall t, (t < n)%nat -> b t = (t <? c)%nat.
Proof.
  induction n as [|n IH]; intros Hm.
  - exists 0%nat. split; [lia|]. intros; lia.
  - destruct IH as [c [Hc E]]; [intros s t Hst Ht; apply Hm; lia|].
    destruct (b n) eqn:Eb.
    + exists (S n). split; [lia|]. intros t Ht. replace (t <? S n)%nat with true by (symmetry; apply Nat.ltb_lt; lia).
      apply (Hm t n); [lia|lia|exact Eb].
    + exists c. split; [lia|]. intros t Ht. destruct (Nat.eq_dec t n) as [->|].
      * rewrite Eb. symmetry. apply Nat.ltb_ge. lia.
      * apply E. lia.
Qed.
Lemma last_tab {A} n (f : nat -> A) d : (1 <= n)%nat -> last (tab n f) d = f (n - 1)%nat.
Proof. destruct n as [|n]; [lia|]. intros _. rewrite tab_snoc, last_last. f_equal. lia. Qed.
Lemma coquantile1_spec q l (f : nat -> R) : (1 <= l)%nat -> nondecreasing_on f l ->
  exists c, coquantile1 q (tab l f) = c /\ (c <= l)%nat /\
  forall t, (t < l)%nat -> ((t < c)%nat <-> f t <= q * f (l - 1)%nat).
Proof.
  intros Hl Hm. unfold coquantile1. rewrite last_tab by exact Hl.
  destruct (bool_prefix (fun t => nleb (f t) (nmul q (f (l - 1)%nat))) l) as [c [Hc E]].
  { intros s t Hst Ht. cbn [nmul RNum].
    destruct (Rleb_spec (f t) (q * f (l - 1)%nat)); [|discriminate]. intros _.
    destruct (Rleb_spec (f s) (q * f (l - 1)%nat)) as [|N]; [reflexivity|]. exfalso. apply N.
    pose proof (Hm s t Hst Ht). lra. }
  exists c. split; [|split; [exact Hc|]].
  - now apply vcount_prefix.
  - intros t Ht. specialize (E t Ht). cbn beta in E. cbn [nmul RNum] in E.
    destruct (Rleb_spec (f t) (q * f (l - 1)%nat)).
    + symmetry in E. apply Nat.ltb_lt in E. tauto.
    + symmetry in E. apply Nat.ltb_ge in E. split; [lia|tauto].
Qed.

(** The variation series. *)
Lemma accum_plus_sum (f : nat -> R) t : accum Rplus f t = Rsum_upto f (S t).
Proof. induction t as [|t IH]; cbn [accum Rsum_upto] in *; [lra|]. rewrite IH. reflexivity. Qed.
Lemma variation_tab (p : R -> R) l x : p 0 = 0 ->
  cumsum (map p (match increments1 1 (tab l x) with Ok v => v | Err _ => [] end)) = tab l (variation p x).
Proof.
  intros Hp. change 1%Z with (Z.of_nat 1). rewrite increments1_tab by lia.
  rewrite tab_map, cumsum_tab. apply tab_ext. intros t Ht. cbn [nadd RNum].
  rewrite accum_plus_sum, Rsum_upto_S_l. unfold diff at 1. cbn [Nat.ltb Nat.leb]. rewrite Hp.
  rewrite Rplus_0_l. unfold variation. apply Rsum_upto_ext. intros u Hu. unfold diff.
  cbn [Nat.ltb Nat.leb Nat.sub]. now rewrite Nat.sub_0_r.
Qed.
Lemma variation_mono p x n : (forall v, 0 <= p v) -> nondecreasing_on (variation p x) n.
Proof.
  intros Hp s t Hst _. induction Hst as [|t Hst IH]; [lra|].
  unfold variation in *. cbn [Rsum_upto]. pose proof (Hp (x (S t) - x t)). lra.
Qed.
Lemma variation_0 p x : variation p x 0 = 0.
Proof. reflexivity. Qed.
Lemma nabs_Rabs v : @nabs R RNum v = Rabs v.
Proof.
  unfold nabs. destruct (Rleb_spec nzero v) as [H|H]; cbn in *.
  - rewrite Rabs_right; lra.
  - rewrite Rabs_left; lra.
Qed.
Lemma L1_sum_spec X n d l : has_shape X n d l -> (1 <= d)%nat ->
  length (L1_sum X) = n /\
  forall i, (i < n)%nat -> nth i (L1_sum X) [] = tab l (variation Rabs (entry X i 0)).
Proof.
  intros HX Hd. unfold L1_sum. split; [rewrite map_length; apply HX|].
  intros i Hi.
  set (F := fun x : list (list R) => cumsum (map nabs (inc_first x))).
  rewrite (nth_indep _ [] (F [])) by (rewrite map_length; destruct HX; lia).
  rewrite map_nth. unfold F, inc_first. change (nth 0 (nth i X []) []) with (row X i 0).
  rewrite (row_tab X n d l i 0 HX) by lia.
  rewrite <- (variation_tab Rabs l (entry X i 0)) by apply Rabs_R0.
  f_equal. apply map_ext. intros v. apply nabs_Rabs.
Qed.
Lemma L2_sum_spec X n d l : has_shape X n d l -> (1 <= d)%nat ->
  length (L2_sum X) = n /\
  forall i, (i < n)%nat -> nth i (L2_sum X) [] = tab l (variation (fun v => v * v) (entry X i 0)).
Proof.
  intros HX Hd. unfold L2_sum. split; [rewrite map_length; apply HX|].
  intros i Hi.
  set (F := fun x : list (list R) => cumsum (map (fun v => nmul v v) (inc_first x))).
  rewrite (nth_indep _ [] (F [])) by (rewrite map_length; destruct HX; lia).
  rewrite map_nth. unfold F, inc_first. change (nth 0 (nth i X []) []) with (row X i 0).
  rewrite (row_tab X n d l i 0 HX) by lia.
  rewrite <- (variation_tab (fun v => v * v) l (entry X i 0)) by ring. reflexivity.
Qed.
