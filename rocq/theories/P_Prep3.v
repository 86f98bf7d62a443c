(** More on C40 (DOT with any integers, PDD's positions) and C46 (what RIN's fit
    stores). *)
From Coq Require Import Ascii String List Arith ZArith Lia Bool Reals Lra Permutation.
From Verif Require Import Num Arr M_Str M_Np M_Prep M_Cache S_ISS S_Prep L_Arr L_Np L_Tuples L_Prep L_Prep2 L_Prep3.
Import ListNotations.
Open Scope R_scope.

(** * DOT with arbitrary integers: the positions of the Python slice first::n *)
Lemma idx_down_In step : (1 <= step)%nat -> forall fuel start t, (start < fuel)%nat ->
  In t (idx_down fuel start step) <-> exists q, (start = t + q * step)%nat.
Proof.
  intros Hs. induction fuel as [|fuel IH]; intros start t Hf; [lia|]. cbn [idx_down In]. split.
  - intros [<-|Hin]; [exists 0%nat; lia|]. destruct (Nat.leb_spec step start) as [L|L]; [|contradiction].
    apply IH in Hin; [|lia]. destruct Hin as [q Hq]. exists (S q). lia.
  - intros [[|q] Hq]; [left; lia|right]. destruct (Nat.leb_spec step start) as [L|L]; [|nia]. apply IH; [lia|]. exists q. lia.
Qed.
(** A negative position counts from the end. *)
Definition pos_of (l : nat) (first : Z) : Z := if (first <? 0)%Z then (first + Z.of_nat l)%Z else first.
Definition kept (n first : Z) (l t : nat) : Prop :=
  exists q : nat, if (0 <? n)%Z then (Z.of_nat t = Z.max 0 (pos_of l first) + Z.of_nat q * n)%Z
                  else (Z.of_nat t = Z.min (pos_of l first) (Z.of_nat l - 1) + Z.of_nat q * n)%Z.
Lemma stride_kept first n l : (n <> 0)%Z -> exists idx, stride_idx first n l = Ok idx /\
  forall t, (t < l)%nat -> (In t idx <-> kept n first l t).
Proof.
  intros Hn. unfold stride_idx. destruct (Z.eqb_spec n 0) as [E|_]; [contradiction|].
  destruct (0 <? n)%Z eqn:Q.
  - apply Z.ltb_lt in Q. eexists. split; [reflexivity|]. intros t Ht. unfold kept. replace (0 <? n)%Z with true by (symmetry; now apply Z.ltb_lt).
    assert (Eb : py_bound l first = Nat.min (Z.to_nat (Z.max 0 (pos_of l first))) l).
    { unfold py_bound, pos_of. destruct (Z.ltb_spec first 0); lia. }
    rewrite Eb, idx_up_In by lia. split.
    + intros (H1 & H2 & H3). set (s := Z.to_nat (Z.max 0 (pos_of l first))) in *. replace (Nat.min s l) with s in * by lia.
      exists ((t - s) / Z.to_nat n)%nat. pose proof (Nat.div_mod (t - s) (Z.to_nat n) ltac:(lia)) as D. rewrite H3, Nat.add_0_r in D.
      assert (Z.of_nat (t - s) = n * Z.of_nat ((t - s) / Z.to_nat n))%Z by (rewrite D at 1; rewrite Nat2Z.inj_mul, Z2Nat.id; lia). lia.
    + intros [q Hq]. set (s := Z.to_nat (Z.max 0 (pos_of l first))) in *.
      assert (Hs : (t = s + q * Z.to_nat n)%nat) by nia. replace (Nat.min s l) with s by lia. split; [lia|]. split; [lia|].
      replace (t - s)%nat with (q * Z.to_nat n)%nat by lia. apply Nat.mod_mul. lia.
  - apply Z.ltb_ge in Q.
    assert (Eb : (if (first <? 0)%Z then (Z.of_nat l + first)%Z else Z.min first (Z.of_nat l - 1)) = Z.min (pos_of l first) (Z.of_nat l - 1)).
    { unfold pos_of. destruct (Z.ltb_spec first 0); lia. }
    rewrite Eb. set (s := Z.min (pos_of l first) (Z.of_nat l - 1)). unfold kept. replace (0 <? n)%Z with false by (symmetry; apply Z.ltb_ge; lia). fold s.
    destruct (Z.ltb_spec s 0) as [L|L]; (eexists; split; [reflexivity|]); intros t Ht.
    + split; [intros []|]. intros [q Hq]. nia.
    + rewrite idx_down_In by lia. split; intros [q Hq]; exists q; nia.
Qed.
Lemma dot_row_any n first l (f : nat -> R) : (n <> 0)%Z ->
  exists g, dot_row n first (tab l f) = Ok (tab l g) /\
    forall t, (t < l)%nat -> (kept n first l t -> g t = f t) /\ (~ kept n first l t -> g t = 0).
Proof.
  intros Hn. destruct (stride_kept first n l Hn) as (idx & E & Hidx). unfold dot_row. rewrite tab_length, E. cbn [bind].
  eexists. split; [reflexivity|]. intros t Ht. cbn beta. rewrite tab_nth by exact Ht. pose proof (existsb_In t idx) as Q. rewrite (Hidx t Ht) in Q.
  destruct (existsb (Nat.eqb t) idx).
  - split; [reflexivity|]. intros N. exfalso. apply N. now apply Q.
  - split; [|reflexivity]. intros K. exfalso. assert (false = true) by now apply Q. discriminate.
Qed.
Lemma mapM_Forall2' {A B} (f : A -> res B) (P : A -> B -> Prop) l : (forall x, In x l -> exists y, f x = Ok y /\ P x y) ->
  exists l', mapM f l = Ok l' /\ Forall2 P l l'.
Proof.
  induction l as [|x l IH]; intros H; [exists []; split; [reflexivity|constructor]|].
  destruct (H x (or_introl eq_refl)) as (y & E & Hy). destruct IH as (l' & E' & Hl'); [intros z Hz; apply H; now right|].
  exists (y :: l'). cbn [mapM]. rewrite E. cbn [bind]. rewrite E'. split; [reflexivity|now constructor].
Qed.
Lemma F2_len {A B} (P : A -> B -> Prop) l l' : Forall2 P l l' -> length l = length l'.
Proof. induction 1; cbn; lia. Qed.
Lemma F2_nth {A B} (P : A -> B -> Prop) l l' i a b : Forall2 P l l' -> (i < length l)%nat -> P (nth i l a) (nth i l' b).
Proof. intros H. revert i. induction H as [|x y l l' Hxy H IH]; intros [|i] Hi; cbn in *; try lia; [exact Hxy|]. apply IH. lia. Qed.
(** The keywords are the stored integers; C40_dot says how fit computes them. *)
Theorem C40_dot_any_integers : forall n first X k d l, has_shape X k d l -> (n <> 0)%Z ->
  exists Y, dot_transform (Some (n, first)) X = Ok Y /\ has_shape Y k d l /\
    forall i j t, (i < k)%nat -> (j < d)%nat -> (t < l)%nat ->
      (kept n first l t -> entry Y i j t = entry X i j t) /\ (~ kept n first l t -> entry Y i j t = 0).
Proof.
  intros n first X k d l [HX1 HX2] Hn. unfold dot_transform.
  set (PR := fun x y : list R => length y = l /\ forall t, (t < l)%nat -> (kept n first l t -> nth t y 0 = nth t x 0) /\ (~ kept n first l t -> nth t y 0 = 0)).
  assert (G : forall x, In x X -> exists y, mapM (dot_row n first) x = Ok y /\ (Forall2 PR x y)).
  { intros x Hx. rewrite Forall_forall in HX2. destruct (HX2 x Hx) as [_ HL]. rewrite Forall_forall in HL.
    apply mapM_Forall2'. intros r Hr. specialize (HL r Hr). pose proof (tab_eta' 0 l r HL) as Er.
    destruct (dot_row_any n first l (fun i => nth i r 0) Hn) as (g & E & Hg). exists (tab l g). split; [rewrite <- E; f_equal; exact Er|].
    split; [apply tab_length|]. intros t Ht. rewrite tab_nth by exact Ht. exact (Hg t Ht). }
  destruct (mapM_Forall2' _ _ X G) as (Y & E & HY). exists Y. split; [exact E|].
  pose proof (F2_len _ _ _ HY) as LY. split.
  - split; [lia|]. apply Forall_forall. intros y Hy. apply (In_nth _ _ []) in Hy as (i & Hi & <-).
    assert (Hi' : (i < length X)%nat) by lia. pose proof (F2_nth _ _ _ i [] [] HY Hi') as HR.
    rewrite Forall_forall in HX2. destruct (HX2 _ (nth_In X [] Hi')) as [Ld HL]. split; [rewrite <- (F2_len _ _ _ HR); exact Ld|].
    apply Forall_forall. intros r Hr. apply (In_nth _ _ []) in Hr as (j & Hj & <-).
    assert (Hj' : (j < length (nth i X []))%nat) by (rewrite (F2_len _ _ _ HR); exact Hj). apply (F2_nth _ _ _ j [] [] HR Hj').
  - intros i j t Hi Hj Ht. assert (Hi' : (i < length X)%nat) by lia. pose proof (F2_nth _ _ _ i [] [] HY Hi') as HR.
    rewrite Forall_forall in HX2. destruct (HX2 _ (nth_In X [] Hi')) as [Ld HL].
    assert (Hj' : (j < length (nth i X []))%nat) by lia. exact (proj2 (F2_nth _ _ _ j [] [] HR Hj') t Ht).
Qed.
Print Assumptions C40_dot_any_integers.
Theorem C40_dot_zero_step : forall first X k d l, has_shape X k d l -> (1 <= k)%nat -> (1 <= d)%nat ->
  dot_transform (T := R) (Some (0%Z, first)) X = Err ValueError.
Proof.
  intros first X k d l [HX1 HX2] Hk Hd. destruct X as [|x X]; [cbn in HX1; lia|]. inversion HX2 as [|? ? [Hx _] _ E]; subst.
  destruct x as [|r x]; [cbn in Hd; lia|]. reflexivity.
Qed.
Print Assumptions C40_dot_zero_step.
(** DOT(-2): positions l-3, l-5, ... *)
Example C40_dot_negative : dot_fit (DInt (-2)) None [[[1; 2; 3; 4; 5; 6]]] = (-2, -3)%Z /\
  kept (-2) (-3) 6 3 /\ kept (-2) (-3) 6 1 /\ ~ kept (-2) (-3) 6 5 /\ ~ kept (-2) (-3) 6 2.
Proof.
  split; [reflexivity|]. repeat split; [exists 0%nat; reflexivity|exists 1%nat; reflexivity| |]; intros [q Hq]; [change (5 = 3 + Z.of_nat q * -2)%Z in Hq|change (2 = 3 + Z.of_nat q * -2)%Z in Hq]; lia.
Qed.

(** * PDD *)
(** [PDD(density=dn/dd, proportion=pn/pd)] fitted on series of length [l]:
    strips of width [w] start at the integer parts of equidistant points. *)
Theorem C40_pdd_positions : forall dn dd pn pd (F : dataset R) nF dF l X n d, has_shape F nF dF l -> (1 <= nF)%nat -> (1 <= dF)%nat ->
  has_shape X n d l ->
  let p := Nat.max (pn * l / pd) 1 in
  let points := Nat.max ((dd - dn) * l / dd) 1 in
  let w := (p / points)%nat in
  let m := if (points =? l - w)%nat then (points - 1)%nat else points in
  exists Y, pdd_transform (Some (pdd_fit dn dd pn pd F)) X = Ok Y /\ has_shape Y n d l /\
    forall i j t, (i < n)%nat -> (j < d)%nat -> (t < l)%nat ->
      ((exists q, (q < m)%nat /\ (q * (l - w) / (m - 1) <= t < q * (l - w) / (m - 1) + w)%nat) -> entry Y i j t = 0) /\
      (~ (exists q, (q < m)%nat /\ (q * (l - w) / (m - 1) <= t < q * (l - w) / (m - 1) + w)%nat) -> entry Y i j t = entry X i j t).
Proof.
  intros dn dd pn pd F nF dF l X n d HF HnF HdF HX p points w m.
  destruct (pdd_spec (pdd_fit dn dd pn pd F) X n d l HX) as [Y [E [HY HSp]]]. exists Y. split; [exact E|]. split; [exact HY|].
  intros i j t Hi Hj Ht. rewrite HSp by assumption.
  assert (Q : existsb (fun p0 => in_strip p0 t) (pdd_strips (pdd_fit dn dd pn pd F)) = true <->
    exists q, (q < m)%nat /\ (q * (l - w) / (m - 1) <= t < q * (l - w) / (m - 1) + w)%nat).
  { rewrite existsb_exists. unfold pdd_strips, pdd_fit. rewrite (lenX_shape F nF dF l HF HnF HdF). cbn [pdd_indices pdd_width].
    fold p. fold points. fold w. fold m. unfold linspace_int. split.
    - intros (st & Hs & Hin). apply in_map_iff in Hs as (a & <- & Ha). apply in_map_iff in Ha as (q & <- & Hq). apply in_seq in Hq.
      unfold in_strip in Hin. cbn [fst snd] in Hin. apply andb_prop in Hin as [H1 H2]. apply Nat.leb_le in H1. apply Nat.ltb_lt in H2.
      exists q. split; [lia|]. split; assumption.
    - intros (q & Hq & H1 & H2). exists ((q * (l - w) / (m - 1))%nat, w). split.
      + apply in_map_iff. exists (q * (l - w) / (m - 1))%nat. split; [reflexivity|]. apply in_map_iff. exists q. split; [reflexivity|]. apply in_seq. lia.
      + unfold in_strip. cbn [fst snd]. apply andb_true_intro. split; [now apply Nat.leb_le|now apply Nat.ltb_lt]. }
  destruct (existsb _ _).
  - split; [reflexivity|]. intros N. exfalso. apply N. now apply Q.
  - split; [|reflexivity]. intros K. exfalso. assert (false = true) by now apply Q. discriminate.
Qed.
Print Assumptions C40_pdd_positions.
(** It never drops more than the proportion: at most max(int(p * l), 1) time steps. *)
Definition zeroed (w stop m t : nat) : bool := existsb (fun q => (q * stop / (m - 1) <=? t)%nat && (t <? q * stop / (m - 1) + w)%nat) (seq 0 m).
Lemma strip_count a w l : (length (filter (fun t => (a <=? t)%nat && (t <? a + w)%nat) (seq 0 l)) <= w)%nat.
Proof.
  assert (G : forall l s, (length (filter (fun t => (a <=? t)%nat && (t <? a + w)%nat) (seq s l)) <= a + w - Nat.max a s)%nat).
  { intros m. induction m as [|m IH]; intros s; cbn [seq filter length]; [lia|]. specialize (IH (S s)).
    destruct (Nat.leb_spec a s), (Nat.ltb_spec s (a + w)); cbn [andb length]; lia. }
  specialize (G l 0%nat). lia.
Qed.
Lemma count_union {A B} (f : B -> A -> bool) (qs : list B) (l : list A) w :
  (forall q, In q qs -> length (filter (f q) l) <= w)%nat -> (length (filter (fun t => existsb (fun q => f q t) qs) l) <= length qs * w)%nat.
Proof.
  intros H. induction qs as [|q qs IH]; cbn [length].
  - cbn [existsb]. clear. induction l as [|x l IHl]; cbn; [lia|exact IHl].
  - specialize (IH ltac:(intros r Hr; apply H; now right)). specialize (H q (or_introl eq_refl)).
    assert (G : (length (filter (fun t => existsb (fun q => f q t) (q :: qs)) l) <= length (filter (f q) l) + length (filter (fun t => existsb (fun q => f q t) qs) l))%nat).
    { clear. induction l as [|x l IHl]; [cbn; lia|]. cbn [filter existsb] in *. destruct (f q x), (existsb (fun q0 => f q0 x) qs); cbn [orb length] in *; lia. }
    lia.
Qed.
Theorem C40_pdd_at_most_the_proportion : forall dn dd pn pd l,
  let p := Nat.max (pn * l / pd) 1 in
  let points := Nat.max ((dd - dn) * l / dd) 1 in
  let w := (p / points)%nat in
  let m := if (points =? l - w)%nat then (points - 1)%nat else points in
  (length (filter (zeroed w (l - w) m) (seq 0 l)) <= p)%nat.
Proof.
  intros dn dd pn pd l p points w m.
  assert (Hm : (m <= points)%nat) by (unfold m; destruct (points =? l - w)%nat; lia).
  unfold zeroed. eapply Nat.le_trans; [apply (count_union (fun q t => (q * (l - w) / (m - 1) <=? t)%nat && (t <? q * (l - w) / (m - 1) + w)%nat) (seq 0 m) (seq 0 l) w)|].
  - intros q _. apply strip_count.
  - rewrite seq_length. assert (points * w <= p)%nat by (unfold w; apply Nat.mul_div_le; unfold points; lia). nia.
Qed.
Print Assumptions C40_pdd_at_most_the_proportion.

(** * C46: RIN.fit *)
Theorem C46_fit_errors : forall out_dim force draw perm d,
  rin_fit (T := R) out_dim force draw perm d = Err ValueError <-> (Z.of_nat d < out_dim)%Z.
Proof.
  intros out_dim force draw perm d. unfold rin_fit. destruct (Z.ltb_spec 0 out_dim).
  - destruct (Nat.ltb_spec d (Z.to_nat out_dim)); split; intros E; try discriminate; try reflexivity; lia.
  - replace (d <? d)%nat with false by (symmetry; apply Nat.ltb_irrefl). split; [discriminate|lia].
Qed.
Print Assumptions C46_fit_errors.
(** Otherwise: [out] outputs (the input dimension if out_dim is not positive), each
    summing over a contiguous group of inputs; the groups cover every input once
    and their sizes differ by at most one. *)
Theorem C46_fit : forall out_dim force draw perm d, (1 <= d)%nat -> (out_dim <= Z.of_nat d)%Z ->
  let out := if (0 <? out_dim)%Z then Z.to_nat out_dim else d in
  exists s, rin_fit (T := R) out_dim force draw perm d = Ok s /\
    length (rin_ndim s) = out /\ rin_dims s = perm /\
    length (rin_kernel s) = length draw /\
    list_sum (rin_ndim s) = d /\ Forall (fun k => k = (d / out)%nat \/ k = S (d / out)) (rin_ndim s) /\
    forall j row, nth_error draw j = Some row -> exists k, nth_error (rin_kernel s) j = Some k /\ length k = length row /\
      (force = false -> row <> [] -> Rsum k = 0 /\ forall a, (a < length row)%nat -> nth a k 0 = nth a row 0 - Rsum row / INR (length row)) /\
      (force = true -> Rsum (map (fun v => 1 - Rabs v) row) <> 0 -> Rsum k = 1).
Proof.
  intros out_dim force draw perm d Hd Ho out. unfold rin_fit. fold out.
  assert (Hout : (1 <= out)%nat /\ (out <= d)%nat) by (unfold out; destruct (Z.ltb_spec 0 out_dim); lia).
  destruct (Nat.ltb_spec d out); [lia|]. eexists. split; [reflexivity|]. cbn [rin_ndim rin_dims rin_kernel].
  destruct (group_sizes_spec d out (proj1 Hout) (proj2 Hout)) as (G1 & G2 & G3 & _).
  split; [exact G1|]. split; [reflexivity|]. split; [apply map_length|]. split; [exact G2|]. split; [exact G3|].
  intros j row Hj. exists ((if force then rin_force else rin_centre) row). split; [now apply map_nth_error|]. split.
  - destruct force; [unfold rin_force; rewrite map2_length, !map_length; lia|]. unfold rin_centre. apply map_length.
  - split.
    + intros -> Hr. split; [now apply rin_centre_sum|]. intros a Ha. unfold rin_centre.
      rewrite (nth_indep _ 0 ((fun v => nsub v (vmean row)) 0)) by now rewrite map_length.
      rewrite (map_nth (fun v : R => nsub v (vmean row))). cbn [nsub RNum]. f_equal.
      unfold vmean. rewrite vsum_Rsum. unfold nofnat. cbn [ndiv nofZ RNum]. now rewrite <- INR_IZR_INZ.
    + intros -> Hr. now apply rin_force_sum.
Qed.
Print Assumptions C46_fit.
(** adaptive_width=True with random kernels. *)
Theorem C46_rin_general_adaptive : forall s X n d l, has_shape X n d l -> (1 <= d)%nat ->
  list_sum (rin_ndim s) = d -> Permutation (rin_dims s) (seq 0 d) ->
  let w := tlen (rin_kernel s) in
  exists Y, rin_transform true (Some s) X = Ok Y /\ has_shape Y n (length (rin_ndim s)) l /\
  forall i o t, (i < n)%nat -> (o < length (rin_ndim s))%nat -> (t < l)%nat ->
    entry Y i o t = Rsum (map (fun j => entry X i j t -
        Rsum_upto (fun a => nth a (nth j (rin_kernel s) []) 0 *
            (if (t + a <? w)%nat then 0 else entry X i (nth j (rin_dims s) 0%nat) (t + a - w))) w)
      (seq (list_sum (firstn o (rin_ndim s))) (nth o (rin_ndim s) 0%nat))).
Proof.
  intros s X n d l HX Hd Hs Hp w.
  assert (Ld : length (rin_dims s) = d) by (rewrite (Permutation_length Hp), seq_length; reflexivity).
  destruct (rin_adaptive_spec s X n d l HX Hd) as [Y [E [HY HSp]]].
  { apply Forall_forall. intros g Hg. assert (Gd : Forall (fun j => (j < d)%nat) g).
    { apply Forall_forall. intros j Hj. assert (Hc : In j (concat (groups (rin_ndim s)))) by (apply in_concat; eauto).
      rewrite concat_groups, Hs in Hc. apply in_seq in Hc. lia. }
    split; [exact Gd|]. eapply Forall_impl; [|exact Gd]. cbn beta. intros j Hj. assert (Hi : In (nth j (rin_dims s) 0%nat) (rin_dims s)) by (apply nth_In; lia).
    apply (Permutation_in _ Hp) in Hi. apply in_seq in Hi. lia. }
  fold w in HSp. exists Y. split; [exact E|]. split; [exact HY|]. intros i o t Hi Ho Ht. rewrite HSp by assumption.
  rewrite groups_nth by exact Ho. unfold rin_value. f_equal. apply map_ext_in. intros j Hj.
  destruct (Nat.ltb_spec (t + w) w); [lia|]. replace (t + w - w)%nat with t by lia. f_equal.
Qed.
Print Assumptions C46_rin_general_adaptive.
Theorem C46_unfitted : forall b (X : dataset R), rin_transform b None X = Err RuntimeError.
Proof. reflexivity. Qed.
Print Assumptions C46_unfitted.
Example C46_fit_ex : exists s, rin_fit (T := R) 2 false [[1; 3]; [2; 2]; [0; 4]] [2; 0; 1]%nat 3 = Ok s /\ rin_ndim s = [2; 1]%nat /\
  Rsum (nth 2 (rin_kernel s) []) = 0.
Proof.
  destruct (C46_fit 2 false [[1; 3]; [2; 2]; [0; 4]] [2; 0; 1]%nat 3 ltac:(lia) ltac:(lia)) as (s & E & _ & _ & _ & _ & _ & Hk).
  exists s. split; [exact E|]. split; [cbn in E; injection E as <-; reflexivity|].
  destruct (Hk 2%nat [0; 4] eq_refl) as (k & Ek & _ & Hf & _). rewrite (nth_error_nth _ _ _ Ek). apply Hf; [reflexivity|discriminate].
Qed.
