(** C102: features that do not see time warping. *)
From Coq Require Import Ascii String List Arith ZArith Bool Lia Reals Lra.
From Verif Require Import Num Arr M_Str M_Semiring M_Words M_ISS S_ISS S_Prep L_Arr L_Prep L_Prep2 P_Warp M_Np M_Prep M_Cache M_Sieve L_Sieve.
Import ListNotations.
Local Open Scope R_scope.

(** [y'] is [y] with some of its steps repeated, any of them any number of times. *)
Inductive stretched : list R -> list R -> Prop :=
| st_end : stretched [] []
| st_step u y y' : stretched y y' -> stretched (u :: y) (u :: y')
| st_again u y y' : stretched (u :: y) (u :: y') -> stretched (u :: y) (u :: u :: y').
(** Sieves that look at the whole series (cut=[-1], the default) and take the
    last value, the maximum or minimum (of the values in bins with edges -1, 0, 1),
    the number or the mean of the positive increments. *)
Definition warp_blind (s : sieve R) : Prop :=
  match s with
  | SSeg c _ _ => sg_cut c = [CutI (-1)] /\
      match sg_kind c with
      | KEND => True
      | KMAX | KMIN => seg_requires c = false
      | KNPI 1 | KMPI 1 => sg_q c = [QZero; QOne]
      | _ => False
      end
  | _ => False
  end.

Lemma stretched_nil y y' : stretched y y' -> (y = [] <-> y' = []).
Proof. induction 1; split; congruence. Qed.
Lemma stretched_last y y' d : stretched y y' -> last y d = last y' d.
Proof.
  induction 1 as [|u y y' E IH|u y y' E IH]; [reflexivity| |].
  - destruct (stretched_nil _ _ E) as [N1 N2]. destruct y as [|v y]; [now rewrite (N1 eq_refl)|]. destruct y' as [|v' y']; [now discriminate N2|]. exact IH.
  - rewrite IH. reflexivity.
Qed.
Lemma stretched_filter P y y' : stretched y y' -> stretched (filter P y) (filter P y').
Proof.
  induction 1 as [|u y y' E IH|u y y' E IH]; [constructor| |].
  - cbn [filter]. destruct (P u); [now constructor|exact IH].
  - cbn [filter] in *. destruct (P u) eqn:Eu; [now constructor|exact IH].
Qed.
Lemma nmax_idem a : @nmax R RNum a a = a.
Proof. unfold nmax. destruct (nleb a a); reflexivity. Qed.
Lemma nmin_idem a : @nmin R RNum a a = a.
Proof. unfold nmin. destruct (nleb a a); reflexivity. Qed.
Lemma nmax_Rmax a b : @nmax R RNum a b = Rmax a b.
Proof. unfold nmax, Rmax. cbn [nleb RNum]. unfold Rleb. destruct (Rle_dec a b); reflexivity. Qed.
Lemma nmin_Rmin a b : @nmin R RNum a b = Rmin a b.
Proof. unfold nmin, Rmin. cbn [nleb RNum]. unfold Rleb. destruct (Rle_dec a b); reflexivity. Qed.
Lemma fold_nmax a b y : fold_left (@nmax R RNum) y (nmax a b) = nmax a (fold_left nmax y b).
Proof. revert b. induction y as [|c y IH]; intros b; cbn [fold_left]; [reflexivity|]. rewrite <- IH. f_equal. rewrite !nmax_Rmax. symmetry. apply Rmax_assoc. Qed.
Lemma fold_nmin a b y : fold_left (@nmin R RNum) y (nmin a b) = nmin a (fold_left nmin y b).
Proof. revert b. induction y as [|c y IH]; intros b; cbn [fold_left]; [reflexivity|]. rewrite <- IH. f_equal. rewrite !nmin_Rmin. symmetry. apply Rmin_assoc. Qed.
Lemma stretched_vmax y y' : stretched y y' -> @vmax R RNum y = vmax y'.
Proof.
  induction 1 as [|u y y' E IH|u y y' E IH]; [reflexivity| |].
  - destruct (stretched_nil _ _ E) as [N1 N2]. destruct y as [|v y]; [now rewrite (N1 eq_refl)|]. destruct y' as [|v' y']; [now discriminate N2|].
    cbn [vmax fold_left] in *. rewrite !fold_nmax. congruence.
  - rewrite IH. cbn [vmax fold_left]. now rewrite nmax_idem.
Qed.
Lemma stretched_vmin y y' : stretched y y' -> @vmin R RNum y = vmin y'.
Proof.
  induction 1 as [|u y y' E IH|u y y' E IH]; [reflexivity| |].
  - destruct (stretched_nil _ _ E) as [N1 N2]. destruct y as [|v y]; [now rewrite (N1 eq_refl)|]. destruct y' as [|v' y']; [now discriminate N2|].
    cbn [vmin fold_left] in *. rewrite !fold_nmin. congruence.
  - rewrite IH. cbn [vmin fold_left]. now rewrite nmin_idem.
Qed.
(** Increments, without the leading zero. *)
Fixpoint steps_of (y : list R) : list R := match y with u :: ((v :: _) as r) => (v - u) :: steps_of r | _ => [] end.
Lemma steps_length u y : length (steps_of (u :: y)) = length y.
Proof. revert u. induction y as [|v y IH]; intros u; [reflexivity|]. change (steps_of (u :: v :: y)) with ((v - u) :: steps_of (v :: y)). cbn [length]. now rewrite IH. Qed.
Lemma steps_nth u y t : (t < length y)%nat -> nth t (steps_of (u :: y)) 0 = nth (S t) (u :: y) 0 - nth t (u :: y) 0.
Proof. revert u t. induction y as [|v y IH]; intros u t Ht; [cbn in Ht; lia|]. destruct t as [|t]; [reflexivity|]. cbn in Ht. change (steps_of (u :: v :: y)) with ((v - u) :: steps_of (v :: y)). cbn [nth]. rewrite IH by lia. reflexivity. Qed.
Lemma inc1_steps y : @inc1 R RNum y = match y with [] => [] | _ => 0 :: steps_of y end.
Proof.
  destruct y as [|u y]; [reflexivity|]. rewrite (tab_eta 0 (u :: y)) at 1. rewrite inc1_tab.
  apply (list_ext 0); [rewrite tab_length; cbn [length]; f_equal; symmetry; exact (steps_length u y)|]. intros t Ht. rewrite tab_length in Ht. rewrite tab_nth by exact Ht. unfold diff.
  destruct t as [|t]; [reflexivity|]. cbn [length] in Ht. change (nth (S t) (0 :: steps_of (u :: y)) 0) with (nth t (steps_of (u :: y)) 0). rewrite steps_nth by lia.
  cbn [Nat.ltb Nat.leb]. replace (S t - 1)%nat with t by lia. reflexivity.
Qed.
(** Positive increments: the same list. *)
Lemma stretched_positive P y y' : P 0 = false -> stretched y y' -> filter P (@inc1 R RNum y) = filter P (inc1 y').
Proof.
  intros P0 E. rewrite !inc1_steps. assert (G : filter P (steps_of y) = filter P (steps_of y')).
  { induction E as [|u y y' E IH|u y y' E IH]; [reflexivity| |].
    - destruct (stretched_nil _ _ E) as [N1 N2]. destruct y as [|v y]; [now rewrite (N1 eq_refl)|]. destruct y' as [|v' y']; [now discriminate N2|].
      assert (v' = v) as -> by (inversion E; reflexivity). cbn [steps_of filter] in *. now rewrite IH.
    - rewrite IH. change (steps_of (u :: u :: y')) with ((u - u) :: steps_of (u :: y')). cbn [filter]. replace (u - u) with 0 by ring. now rewrite P0. }
  destruct (stretched_nil _ _ E) as [N1 N2]. destruct y as [|u y]; [now rewrite (N1 eq_refl)|]. destruct y' as [|u' y']; [now discriminate N2|].
  cbn [filter]. rewrite P0. exact G.
Qed.
(** The cut [-1]: one segment, the whole series. *)
Lemma cuts_whole (get : pystr -> res (cval R)) norm n l : cuts_of get norm n l [CutI (-1)] = Ok (repeat [0%Z; Z.of_nat l] n).
Proof.
  unfold cuts_of. cbn [mapM cut_column bind Z.leb Z.compare map]. replace (Z.of_nat l + -1 + 1)%Z with (Z.of_nat l) by lia. f_equal.
  assert (G : forall m, (m + n <= m + n)%nat -> map (fun i => zsort [0%Z; nth i (repeat (Z.of_nat l) (m + n)) 0%Z]) (seq m n) = repeat [0%Z; Z.of_nat l] n).
  { induction n as [|n IH]; intros m _; [reflexivity|]. cbn [seq map repeat]. replace (m + S n)%nat with (S m + n)%nat by lia. rewrite IH by lia. f_equal.
    rewrite (nth_indep _ 0%Z (Z.of_nat l)) by (rewrite repeat_length; lia). rewrite nth_repeat. unfold zsort. cbn [fold_right zinsert]. destruct (Z.leb_spec 0 (Z.of_nat l)); [reflexivity|lia]. }
  exact (G 0%nat ltac:(lia)).
Qed.
Lemma slice_whole (y : list R) : py_slice (Some 0%Z) (Some (Z.of_nat (length y))) y = y.
Proof.
  unfold py_slice. cbn [lo_bound hi_bound]. change (py_bound (length y) 0) with 0%nat. unfold py_bound. destruct (Z.ltb_spec (Z.of_nat (length y)) 0); [lia|].
  rewrite Nat2Z.id, Nat.min_id, Nat.sub_0_r. cbn [skipn]. apply firstn_all.
Qed.
Lemma map2M_repeat {A B C} (f : A -> B -> res C) l b n : length l = n -> map2M f l (repeat b n) = mapM (fun a => f a b) l.
Proof. revert n. induction l as [|a l IH]; intros [|n] E; cbn in *; try discriminate; [reflexivity|]. rewrite IH by lia. reflexivity. Qed.
Lemma mapM_F2 {A B C} (P : A -> B -> Prop) (f : A -> res C) (g : B -> res C) l l' : Forall2 P l l' -> (forall a b, P a b -> f a = g b) -> mapM f l = mapM g l'.
Proof. intros F E. induction F as [|a b l l' Hab _ IH]; cbn [mapM]; [reflexivity|]. now rewrite (E a b Hab), IH. Qed.
Lemma end_stretched y y' l l' : length y = l -> length y' = l' -> stretched y y' -> @end_row R RNum y [0%Z; Z.of_nat l] = end_row y' [0%Z; Z.of_nat l'].
Proof.
  intros <- <- E. assert (G : forall z, @end_row R RNum z [0%Z; Z.of_nat (length z)] = match z with [] => Err IndexError | _ => Ok [last z 0] end).
  { intros [|u z]; [reflexivity|]. unfold end_row. cbn [tl mapM]. unfold py_index. cbn [length].
    destruct (Z.ltb_spec (Z.of_nat (S (length z)) - 1) 0); [lia|]. destruct (Z.ltb_spec (Z.of_nat (S (length z)) - 1) (Z.of_nat (S (length z)))); [|lia].
    cbn [bind]. replace (Z.to_nat (Z.of_nat (S (length z)) - 1)) with (length z) by lia. do 2 f_equal. clear. revert u. induction z as [|v z IH]; intros u; [reflexivity|]. exact (IH v). }
  rewrite !G, (stretched_last _ _ 0 E). destruct (stretched_nil _ _ E) as [N1 N2]. destruct y as [|u y]; [now rewrite (N1 eq_refl)|]. destruct y'; [now discriminate N2|]. reflexivity.
Qed.
(** The rows that the cells look at, before and after. *)
Definition same_cells (k : seg_kind) (edges : list (xnum R)) (l l' : nat) (y y' : list R) : Prop :=
  length y = l /\ length y' = l' /\
  forall lo hi, In (lo, hi) (pairs edges) -> cell k y 0 (Z.of_nat l) lo hi = cell k y' 0 (Z.of_nat l') lo hi.
Lemma cells_row k edges l l' y y' : same_cells k edges l l' y y' -> @backend_row R RNum k edges y [0%Z; Z.of_nat l] = backend_row k edges y' [0%Z; Z.of_nat l'].
Proof.
  intros (_ & _ & E). unfold backend_row. cbn [pairs mapM fst snd].
  assert (G : mapM (fun e => cell k y 0 (Z.of_nat l) (fst e) (snd e)) (pairs edges) = mapM (fun e => cell k y' 0 (Z.of_nat l') (fst e) (snd e)) (pairs edges)).
  { induction (pairs edges) as [|[lo hi] r IH]; cbn [mapM fst snd]; [reflexivity|]. rewrite (E lo hi) by now left. rewrite IH; [reflexivity|]. intros. apply E. now right. }
  now rewrite G.
Qed.
Lemma max_cells k edges y y' : k = KMAX \/ k = KMIN -> stretched y y' -> same_cells k edges (length y) (length y') y y'.
Proof.
  intros Hk E. split; [reflexivity|]. split; [reflexivity|]. intros lo hi _. destruct (stretched_nil _ _ E) as [N1 N2].
  assert (Z0 : (0 =? Z.of_nat (length y))%Z = (0 =? Z.of_nat (length y'))%Z).
  { destruct y as [|u y]; [now rewrite (N1 eq_refl)|]. destruct y'; [now discriminate N2|]. reflexivity. }
  destruct Hk as [-> | ->]; unfold cell; rewrite !slice_whole, Z0; [rewrite (stretched_vmax _ _ (stretched_filter (in_bin lo hi) _ _ E))|rewrite (stretched_vmin _ _ (stretched_filter (in_bin lo hi) _ _ E))]; reflexivity.
Qed.
Lemma zero_not_positive : @in_bin R RNum (Fin 0) PInf 0 = false.
Proof. unfold in_bin. cbn [xlt xge]. destruct (Rltb_spec' 0 0); [lra|reflexivity]. Qed.
Lemma inc1_length y : length (@inc1 R RNum y) = length y.
Proof. rewrite inc1_steps. destruct y as [|u y]; [reflexivity|]. cbn [length]. now rewrite steps_length. Qed.
Lemma inc_cells k y y' : k = KNPI 1 \/ k = KMPI 1 -> stretched y y' -> same_cells k [Fin 0; PInf] (length y) (length y') (inc1 y) (inc1 y').
Proof.
  intros Hk E. split; [apply inc1_length|]. split; [apply inc1_length|]. intros lo hi [Q|[]]. injection Q as <- <-.
  rewrite <- (inc1_length y), <- (inc1_length y'). destruct Hk as [-> | ->]; unfold cell; rewrite !slice_whole, (stretched_positive _ _ _ zero_not_positive E); reflexivity.
Qed.

Definition rows_of (l : nat) (X : list (list R)) : Prop := Forall (fun x => length x = l) X.
Lemma tlen_rows l X : rows_of l X -> X <> [] -> tlen X = l.
Proof. intros F. destruct X; [congruence|]. intros _. cbn. now inversion F. Qed.

Lemma positive_case k l l' X X' : k = KNPI 1 \/ k = KMPI 1 -> Forall2 (fun y y' => length y = l /\ length y' = l' /\ stretched y y') X X' -> X <> [] ->
  map2M (@backend_row R RNum k [Fin 0; PInf]) (map (pre1 1) X) (repeat [0%Z; Z.of_nat (tlen (map (@pre1 R RNum 1) X))] (length (map (@pre1 R RNum 1) X))) =
  map2M (@backend_row R RNum k [Fin 0; PInf]) (map (pre1 1) X') (repeat [0%Z; Z.of_nat (tlen (map (@pre1 R RNum 1) X'))] (length (map (@pre1 R RNum 1) X'))).
Proof.
  intros Hk FR NX.
  assert (T : tlen (map (@pre1 R RNum 1) X) = l /\ tlen (map (@pre1 R RNum 1) X') = l').
  { inversion FR as [|y y' Y Y' (L & L' & _) _]; subst; [congruence|]. cbn [map tlen]. change (@pre1 R RNum 1) with (@inc1 R RNum). now rewrite !inc1_length. }
  destruct T as [T T']. rewrite T, T', !map2M_repeat by reflexivity.
  apply (mapM_F2 (fun z z' => exists y y', z = inc1 y /\ z' = inc1 y' /\ length y = l /\ length y' = l' /\ stretched y y')).
  - clear - FR. induction FR as [|y y' X X' (L & L' & Hy) _ IH]; cbn [map]; constructor; [|exact IH]. exists y, y'. auto.
  - intros z z' (y & y' & -> & -> & <- & <- & Hy). apply cells_row. now apply inc_cells.
Qed.
(** Rectangular arrays whose rows are stretched by any warps, a different one
    for each row: the same features, or the same exception. *)
Theorem C102_sieves parse s X X' l l' : warp_blind s -> rows_of l X -> rows_of l' X' -> Forall2 stretched X X' ->
  fst (@sv_transform R RNum parse s X) = fst (sv_transform parse s X').
Proof.
  intros B F F' E. destruct s as [c st ca| | |]; try contradiction. destruct B as [Bc Bk]. cbn [sv_transform sv_cache].
  set (get := get_on parse _). set (get' := get_on parse _). clearbody get get'.
  assert (G : fst (seg_transform c get st X) = fst (seg_transform c get' st X')).
  2: { destruct (seg_transform c get st X) as [[r|e] st1], (seg_transform c get' st X') as [[r'|e'] st2]; cbn [fst] in *; congruence. }
  destruct (list_eq_dec (list_eq_dec Req_EM_T) X []) as [->|NX].
  { inversion E; subst. unfold seg_transform. rewrite Bc. destruct (pre_transform (sg_kind c) []) eqn:EP; [|exfalso; unfold pre_transform in EP; destruct (is_inc_kind (sg_kind c)); discriminate].
    rewrite !cuts_whole. reflexivity. }
  assert (NX' : X' <> []) by (inversion E; subst; congruence).
  assert (FR : Forall2 (fun y y' => length y = l /\ length y' = l' /\ stretched y y') X X').
  { clear - F F' E. revert F F'. unfold rows_of. induction E as [|y y' X X' Hy _ IH]; intros F F'; constructor; inversion F; inversion F'; subst; auto. }
  assert (TX := tlen_rows l X F NX). assert (TX' := tlen_rows l' X' F' NX').
  unfold seg_transform. rewrite Bc, !cuts_whole. cbn [bind].
  assert (PL : forall (f f' : list R -> list Z -> res (list R)), (forall y y', length y = l -> length y' = l' -> stretched y y' -> f y [0%Z; Z.of_nat l] = f' y' [0%Z; Z.of_nat l']) ->
    map2M f X (repeat [0%Z; Z.of_nat l] (length X)) = map2M f' X' (repeat [0%Z; Z.of_nat l'] (length X'))).
  { intros f f' Q. rewrite !map2M_repeat by reflexivity. apply (mapM_F2 _ _ _ _ _ FR). intros y y' (L & L' & Hy). now apply Q. }
  destruct (sg_kind c) as [| | | | | |i|i|i|i] eqn:Ek; try contradiction.
  - rewrite Bk. destruct (mapM edge_plain (sg_q c)) as [[|e0 e]|x]; cbn [bind fst]; try reflexivity. cbn [pre_transform is_inc_kind backend_input]. rewrite TX, TX'. apply PL.
    intros y y' <- <- Hy. apply cells_row, max_cells; auto.
  - rewrite Bk. destruct (mapM edge_plain (sg_q c)) as [[|e0 e]|x]; cbn [bind fst]; try reflexivity. cbn [pre_transform is_inc_kind backend_input]. rewrite TX, TX'. apply PL.
    intros y y' <- <- Hy. apply cells_row, max_cells; auto.
  - cbn [fst pre_transform is_inc_kind]. rewrite TX, TX'. apply PL. intros y y' L L' Hy. now apply end_stretched.
  - destruct i as [|[]|]; try contradiction. unfold seg_requires. rewrite Bk. exact (positive_case (KNPI 1) l l' X X' (or_introl eq_refl) FR NX).
  - destruct i as [|[]|]; try contradiction. unfold seg_requires. rewrite Bk. exact (positive_case (KMPI 1) l l' X X' (or_intror eq_refl) FR NX).
Qed.
Print Assumptions C102_sieves.




(** Together with C14: features of the iterated sums of increments do not see
    which steps of the series are repeated, nor how often. *)
Lemma warp_mono phi l l' : time_warp phi l l' -> forall t, (t < l')%nat -> (1 < l')%nat -> phi 1%nat = 1%nat -> (1 <= t)%nat -> (1 <= phi t)%nat.
Proof.
  intros (_ & St & _) t Ht _ E1 H1. induction t as [|t IH]; [lia|]. destruct t as [|t]; [lia|]. specialize (IH ltac:(lia) ltac:(lia)). destruct (St (S t) Ht); lia.
Qed.
Lemma warp_stretched y' : forall y phi, time_warp phi (length y) (length y') -> (y <> [] -> y' <> [] /\ phi (length y' - 1)%nat = (length y - 1)%nat) ->
  (forall t, (t < length y')%nat -> nth t y' 0 = nth (phi t) y 0) -> stretched y y'.
Proof.
  induction y' as [|u' r' IH]; intros y phi HW HO HV.
  - destruct y as [|u r]; [constructor|]. destruct (HO ltac:(discriminate)) as [Q _]. congruence.
  - destruct HW as (W0 & WS & WL). pose proof (WL 0%nat ltac:(cbn; lia)) as L0. rewrite W0 in L0. destruct y as [|u r]; [cbn in L0; lia|].
    pose proof (HV 0%nat ltac:(cbn; lia)) as E0. rewrite W0 in E0. cbn [nth] in E0. subst u'. destruct (HO ltac:(discriminate)) as [_ HL].
    destruct r' as [|v r'].
    + cbn [length Nat.sub] in HL. rewrite W0 in HL. destruct r as [|w r]; [|cbn in HL; lia]. constructor. constructor.
    + destruct (WS 0%nat ltac:(cbn; lia)) as [E1|E1]; rewrite W0 in E1.
      * assert (v = u) as -> by (pose proof (HV 1%nat ltac:(cbn; lia)) as E; rewrite E1 in E; exact E).
        apply st_again. apply (IH (u :: r) (fun t => phi (S t))).
        -- split; [exact E1|]. split; [intros t Ht; apply WS; cbn in *; lia|]. intros t Ht. apply WL. cbn in *. lia.
        -- intros _. split; [discriminate|]. rewrite <- HL. f_equal. cbn. lia.
        -- intros t Ht. exact (HV (S t) ltac:(cbn in *; lia)).
      * assert (M : forall t, (S t < length (u :: v :: r'))%nat -> (1 <= phi (S t))%nat).
        { intros t Ht. apply (warp_mono phi (length (u :: r)) (length (u :: v :: r'))); auto; [split; [exact W0|split; assumption]|cbn; lia|lia]. }
        apply st_step. apply (IH r (fun t => phi (S t) - 1)%nat).
        -- split; [rewrite E1; reflexivity|]. split.
           ++ intros t Ht. cbn [length] in Ht. pose proof (M t ltac:(cbn; lia)). pose proof (M (S t) ltac:(cbn; lia)). destruct (WS (S t) ltac:(cbn; lia)); lia.
           ++ intros t Ht. cbn [length] in Ht. pose proof (M t ltac:(cbn; lia)). pose proof (WL (S t) ltac:(cbn; lia)). cbn [length] in *. lia.
        -- intros _. split; [discriminate|]. cbn [length] in *. replace (S (S (length r') - 1)) with (S (S (length r')) - 1)%nat by lia. rewrite HL. lia.
        -- intros t Ht. cbn [length] in Ht. pose proof (M t ltac:(cbn; lia)). rewrite (HV (S t) ltac:(cbn; lia) : nth t (v :: r') 0 = _).
           destruct (phi (S t)) as [|q]; [lia|]. cbn [nth]. now replace (S q - 1)%nat with q by lia.
Qed.
Theorem C102_features parse ci c (words : list (sword R)) X X' n d l l' phi :
  inc_new (ShInt 1) 1 true = Ok ci ->
  is_words c = map simple_iword words -> is_mode c = SINGLE -> is_sr c = Reals -> is_wt c = None -> words <> [] ->
  Forall (fun w => sw_exts w <> [] /\ letters_in d (sw_exts w) /\ Forall positive_letter (sw_exts w)) words ->
  has_shape X n d l -> has_shape X' n d l' -> (1 <= n)%nat -> (1 <= d)%nat ->
  time_warp phi l l' -> (1 <= l)%nat -> (1 <= l')%nat -> phi (l' - 1)%nat = (l - 1)%nat ->
  (forall i j t, (i < n)%nat -> (j < d)%nat -> (t < l')%nat -> entry X' i j t = entry X i j (phi t)) ->
  exists Y Y' Z Z',
    inc_transform ci X = Ok Y /\ inc_transform ci X' = Ok Y' /\
    iss_transform c Y = Ok Z /\ iss_transform c Y' = Ok Z' /\
    forall k s, (k < length words)%nat -> warp_blind s ->
      fst (sv_transform parse s (nth k Z' [])) = fst (sv_transform parse s (nth k Z [])).
Proof.
  intros H1 H2 H3 H4 H5 H6 H7 HX HX' Hn Hd Hphi Hl Hl' Ho Hent.
  destruct (C14_time_warping ci c words X X' n d l l' phi) as (Y & Y' & Z & Z' & E1 & E2 & E3 & E4 & HZ & HZ' & V); auto.
  exists Y, Y', Z, Z'. do 4 (split; [assumption|]). intros k s Hk B.
  destruct HZ as [LZ FZ], HZ' as [LZ' FZ']. rewrite Forall_forall in FZ, FZ'.
  destruct (FZ (nth k Z []) ltac:(apply nth_In; lia)) as [L1 F1]. destruct (FZ' (nth k Z' []) ltac:(apply nth_In; lia)) as [L2 F2].
  symmetry. apply (C102_sieves parse s _ _ l l' B F1 F2).
  assert (G : forall A B : list (list R), length A = n -> length B = n -> (forall i, (i < n)%nat -> stretched (nth i A []) (nth i B [])) -> Forall2 stretched A B).
  { clear. induction n as [|n IH]; intros [|a A] [|b B] LA LB E; cbn in LA, LB; try discriminate; constructor; [exact (E 0%nat ltac:(lia))|]. apply IH; [lia|lia|]. intros i Hi. exact (E (S i) ltac:(lia)). }
  apply G; [exact L1|exact L2|]. intros i Hi. rewrite Forall_forall in F1, F2.
  pose proof (F1 (nth i (nth k Z []) []) ltac:(apply nth_In; lia)) as R1. pose proof (F2 (nth i (nth k Z' []) []) ltac:(apply nth_In; lia)) as R2. cbn beta in R1, R2.
  apply (warp_stretched _ _ phi); rewrite ?R1, ?R2; [exact Hphi| |].
  - intros _. split; [|exact Ho]. intros Q. rewrite Q in R2. cbn in R2. lia.
  - intros t Ht. exact (V k i t Hk Hi Ht).
Qed.
Print Assumptions C102_features.

Definition ex_seg k : sieve R := SSeg (seg_new k [CutI (-1)] None (str "L2")) None None.
Example C102_nonvacuous :
  warp_blind (ex_seg KEND) /\ warp_blind (ex_seg KMAX) /\ warp_blind (ex_seg KMIN) /\ warp_blind (ex_seg (KNPI 1)) /\ warp_blind (ex_seg (KMPI 1)) /\
  Forall2 stretched [[1; 2]; [4; 3]] [[1; 1; 2; 2; 2]; [4; 3; 3; 3; 3]] /\ rows_of 2 [[1; 2]; [4; 3]] /\ rows_of 5 [[1; 1; 2; 2; 2]; [4; 3; 3; 3; 3]] /\
  (forall parse, fst (sv_transform parse (ex_seg KEND) [[1; 1; 2; 2; 2]; [4; 3; 3; 3; 3]]) = Ok [[2]; [3]]) /\
  time_warp (fun t => if (t <? 2)%nat then 0%nat else 1%nat) 2 5.
Proof.
  repeat match goal with |- _ /\ _ => split end; try (solve [repeat constructor]).
  - split; [reflexivity|]. split; intros t Ht.
    + destruct (Nat.ltb_spec t 2), (Nat.ltb_spec (S t) 2); lia.
    + destruct (Nat.ltb_spec t 2); lia.
Qed.

(** LPI, the longest run of positive increments, does see repeated steps. *)
Theorem C102_longest_run_refuted : ~ (forall parse X X' l l', rows_of l X -> rows_of l' X' -> Forall2 stretched X X' ->
  fst (@sv_transform R RNum parse (ex_seg (KLPI 1)) X) = fst (sv_transform parse (ex_seg (KLPI 1)) X')).
Proof.
  intros C. specialize (C (fun _ => Err ValueError) [[0; 1; 2]] [[0; 1; 1; 2]] 3%nat 4%nat ltac:(repeat constructor) ltac:(repeat constructor) ltac:(constructor; [apply st_step, st_again, st_step, st_step, st_end|constructor])).
  assert (V : forall y, fst (@sv_transform R RNum (fun _ => Err ValueError) (ex_seg (KLPI 1)) [y]) =
    Ok [[nofnat (longest_run (map (in_bin (Fin 0) PInf) (inc1 y)) 0 0)]]).
  { intros y. cbn [sv_transform sv_cache ex_seg map]. set (get := get_on _ _). clearbody get. unfold seg_transform, seg_new. cbn [sg_cut sg_kind sg_q sg_norm is_inc_kind]. rewrite cuts_whole.
    cbn [seg_requires existsb is_prob sg_q mapM edge_plain bind pre_transform is_inc_kind map length repeat map2M backend_input tlen].
    change (@pre1 R RNum 1 y) with (@inc1 R RNum y). unfold backend_row. cbn [pairs mapM fst snd cell bind concat app]. rewrite slice_whole. reflexivity. }
  rewrite !V in C. rewrite !inc1_steps in C. cbn [steps_of map] in C.
  assert (P1 : forall v, 0 < v -> @in_bin R RNum (Fin 0) PInf v = true) by (intros v Hv; unfold in_bin; cbn [xlt xge]; destruct (Rltb_spec' 0 v); [reflexivity|lra]).
  assert (P0 : forall v, v <= 0 -> @in_bin R RNum (Fin 0) PInf v = false) by (intros v Hv; unfold in_bin; cbn [xlt xge]; destruct (Rltb_spec' 0 v); [lra|reflexivity]).
  rewrite !(P0 0) in C by lra. rewrite (P0 (1 - 1)) in C by lra. rewrite !(P1 (1 - 0)), !(P1 (2 - 1)) in C by lra. cbn [longest_run Nat.ltb Nat.leb] in C.
  assert (E : @nofnat R RNum 2 = nofnat 1) by congruence. unfold nofnat in E. cbn in E. lra.
Qed.
Print Assumptions C102_longest_run_refuted.
