(** * C14: time-warping invariance of INC followed by ISS *)
From Coq Require Import String List Arith ZArith Reals Lia Lra.
From Verif Require Import Num Arr M_Str M_Semiring M_Words M_ISS M_Np M_Prep S_ISS S_Prep
  L_Arr L_Tuples L_Algebra L_Single L_Np L_Prep L_Prep2 L_Prep3 L_RComp P_Prep.
Import ListNotations.
Open Scope R_scope.

(** [phi] reads a longer series off a shorter one by repeating time steps:
    it starts at 0 and each step either stays or advances by one.  (Nothing is
    said about the number of repetitions.) *)
Definition time_warp (phi : nat -> nat) (l l' : nat) : Prop :=
  phi 0%nat = 0%nat /\
  (forall t, (S t < l')%nat -> phi (S t) = phi t \/ phi (S t) = S (phi t)) /\
  (forall t, (t < l')%nat -> (phi t < l)%nat).

(** Extended letters with non-negative exponents, not all zero. *)
Definition positive_letter (e : list Z) : Prop :=
  Forall (fun z => (0 <= z)%Z) e /\ exists j, (j < length e)%nat /\ (nth j e 0 <> 0)%Z.

Lemma nth_firstn_lt {A} (l : list A) d : forall m i, (i < m)%nat -> nth i (firstn m l) d = nth i l d.
Proof. induction l as [|x l IH]; intros [|m] [|i] Hi; cbn; try lia; try reflexivity. apply IH. lia. Qed.
Lemma nth_skipn_ {A} (l : list A) d : forall m i, nth i (skipn m l) d = nth (m + i) l d.
Proof. induction l as [|x l IH]; intros [|m] i; cbn; try reflexivity; [now destruct i|apply IH]. Qed.

Lemma Rprod_has_zero l : In 0 l -> Rprod l = 0.
Proof.
  induction l as [|x l IH]; intros [].
  - subst. rewrite Rprod_cons. ring.
  - rewrite Rprod_cons, IH by assumption. ring.
Qed.

Lemma ext_val_zero X e t : positive_letter e -> (forall j, (j < length e)%nat -> (nth j e 0 <> 0)%Z -> at_ X j t = 0) ->
  ext_val X e t = 0.
Proof.
  intros [Hp [j [Hj Hz]]] E. unfold ext_val. apply Rprod_has_zero. apply in_map_iff. exists j.
  split; [|apply in_seq; lia]. rewrite (E j Hj Hz).
  assert (P : (0 <= nth j e 0)%Z) by (rewrite Forall_forall in Hp; apply Hp, nth_In, Hj).
  destruct (nth j e 0)%Z as [|p|p]; [contradiction| |lia]. cbn [powerRZ]. apply pow_i. lia.
Qed.

Lemma ext_val_same X Y e s t : (forall j, (j < length e)%nat -> (nth j e 0 <> 0)%Z -> at_ X j s = at_ Y j t) ->
  ext_val X e s = ext_val Y e t.
Proof.
  intros E. unfold ext_val. f_equal. apply map_ext_in. intros j Hj. apply in_seq in Hj.
  destruct (Z.eq_dec (nth j e 0%Z) 0%Z) as [Z0|N]; [now rewrite Z0|]. rewrite (E j); [reflexivity|lia|exact N].
Qed.

Lemma iss_gsum X w t : iss X w t = gsum (map (ext_val X) w) (S t).
Proof. rewrite iss_fsum, gsum_fsum. reflexivity. Qed.

Lemma gsum_warp phi l l' : time_warp phi l l' ->
  forall fs gs : list (nat -> R), length fs = length gs ->
  (forall k, (k < length fs)%nat -> nth k fs (fun _ => 0) 0%nat = 0 /\ nth k gs (fun _ => 0) 0%nat = 0) ->
  (forall k t, (k < length fs)%nat -> (S t < l')%nat ->
     (phi (S t) = phi t -> nth k gs (fun _ => 0) (S t) = 0) /\
     (phi (S t) = S (phi t) -> nth k gs (fun _ => 0) (S t) = nth k fs (fun _ => 0) (S (phi t)))) ->
  forall t, (t < l')%nat -> gsum gs (S t) = gsum fs (S (phi t)).
Proof.
  intros [P0 [P1 P2]] fs. induction fs as [|f fs IH] using rev_ind; intros gs L H0 H1 t Ht.
  - destruct gs; [|discriminate]. now rewrite !gsum_nil.
  - destruct (snoc_cases gs) as [->|(gs' & g & ->)]; [rewrite app_length in L; cbn in L; lia|].
    rewrite !app_length in *. cbn [length] in *. assert (L' : length fs = length gs') by lia.
    assert (IH' : forall t, (t < l')%nat -> gsum gs' (S t) = gsum fs (S (phi t))).
    { apply IH; [exact L'| |].
      - intros k Hk. specialize (H0 k ltac:(lia)). rewrite !app_nth1 in H0 by lia. exact H0.
      - intros k u Hk Hu. specialize (H1 k u ltac:(lia) Hu). rewrite !app_nth1 in H1 by lia. exact H1. }
    assert (F0 : f 0%nat = 0 /\ g 0%nat = 0).
    { specialize (H0 (length fs) ltac:(lia)). rewrite (app_nth2 fs) in H0 by lia.
      rewrite (app_nth2 gs') in H0 by lia. rewrite <- L', !Nat.sub_diag in H0. exact H0. }
    assert (F1 : forall t, (S t < l')%nat ->
       (phi (S t) = phi t -> g (S t) = 0) /\ (phi (S t) = S (phi t) -> g (S t) = f (S (phi t)))).
    { intros u Hu. specialize (H1 (length fs) u ltac:(lia) Hu). rewrite (app_nth2 fs) in H1 by lia.
      rewrite (app_nth2 gs') in H1 by lia. rewrite <- L', !Nat.sub_diag in H1. exact H1. }
    rewrite !gsum_snoc. induction t as [|t IHt].
    + rewrite P0, !csum_S, !csum_0. destruct F0 as [-> ->]. ring.
    + rewrite csum_S. rewrite IHt by lia. destruct (F1 t Ht) as [Fa Fb]. destruct (P1 t Ht) as [Ea|Eb].
      * rewrite Fa, Ea by exact Ea. ring.
      * rewrite Fb, Eb by exact Eb. rewrite (csum_S _ (S (phi t))). rewrite IH' by lia. reflexivity.
Qed.

(** For every word and every time step t of the stretched series: the iterated
    sum of its increments equals that of the original at the time step t
    repeats.  In particular the last values agree. *)
Theorem C14_time_warping : forall ci c (words : list (sword R)) X X' n d l l' phi,
  inc_new (ShInt 1) 1 true = Ok ci ->
  is_words c = map simple_iword words -> is_mode c = SINGLE -> is_sr c = Reals -> is_wt c = None -> words <> [] ->
  Forall (fun w => sw_exts w <> [] /\ letters_in d (sw_exts w) /\ Forall positive_letter (sw_exts w)) words ->
  has_shape X n d l -> has_shape X' n d l' -> (1 <= n)%nat -> (1 <= d)%nat ->
  time_warp phi l l' ->
  (forall i j t, (i < n)%nat -> (j < d)%nat -> (t < l')%nat -> entry X' i j t = entry X i j (phi t)) ->
  exists Y Y' Z Z',
    inc_transform ci X = Ok Y /\ inc_transform ci X' = Ok Y' /\
    iss_transform c Y = Ok Z /\ iss_transform c Y' = Ok Z' /\
    has_shape Z (length words) n l /\ has_shape Z' (length words) n l' /\
    forall k i t, (k < length words)%nat -> (i < n)%nat -> (t < l')%nat -> entry Z' k i t = entry Z k i (phi t).
Proof.
  intros ci c words X X' n d l l' phi Hci Ew Hm Hs Hwt Hne HW HX HX' Hn Hd Hphi Hent.
  destruct (C35_inc_default ci X n d l Hci HX Hn Hd) as [Y [EY [HY SY]]].
  destruct (C35_inc_default ci X' n d l' Hci HX' Hn Hd) as [Y' [EY' [HY' SY']]].
  assert (WF : forall Z m, has_shape Z n d m -> wf_dataset Z m).
  { intros Z m [_ HZ]. eapply Forall_impl; [|exact HZ]. intros x [Lx Fx]. split; [|exact Fx].
    intros ->. cbn in Lx. lia. }
  assert (LW : forall Z m, has_shape Z n d m ->
    Forall (fun w => sw_exts w <> [] /\
      Forall (fun x => letters_in (length x) (sw_exts w) /\ nonzero_where_neg x m (sw_exts w)) Z) words).
  { intros Z m [_ HZ]. eapply Forall_impl; [|exact HW]. intros w [W1 [W2 W3]]. split; [exact W1|].
    eapply Forall_impl; [|exact HZ]. intros x [Lx Fx]. rewrite Lx. split; [exact W2|].
    eapply Forall_impl; [|exact W3]. intros e [P _] j i Hj Hneg _. exfalso.
    rewrite Forall_forall in P. specialize (P _ (nth_In e 0%Z Hj)). lia. }
  pose proof (reals_api c words Y l Ew Hm Hs Hwt Hne (WF _ _ HY) (LW _ _ HY)) as EZ.
  pose proof (reals_api c words Y' l' Ew Hm Hs Hwt Hne (WF _ _ HY') (LW _ _ HY')) as EZ'.
  assert (SH : forall V m, has_shape V n d m ->
     has_shape (map (fun w => map (fun x => map (iss x (sw_exts w)) (seq 0 m)) V) words) (length words) n m).
  { intros V m [LV _]. split; [apply map_length|]. apply Forall_forall. intros x Hx. apply in_map_iff in Hx as [w [<- _]].
    split; [now rewrite map_length|]. apply Forall_forall. intros r Hr. apply in_map_iff in Hr as [y [<- _]].
    now rewrite map_length, seq_length. }
  assert (VAL : forall V m k i t, has_shape V n d m -> (k < length words)%nat -> (i < n)%nat -> (t < m)%nat ->
     entry (map (fun w => map (fun x => map (iss x (sw_exts w)) (seq 0 m)) V) words) k i t
     = iss (nth i V []) (sw_exts (nth k words sw_empty)) t).
  { intros V m k i t [LV _] Hk Hi Ht. unfold entry, row.
    set (F := fun w : sword R => map (fun x => map (iss x (sw_exts w)) (seq 0 m)) V).
    rewrite (nth_indep _ [] (F sw_empty)) by (rewrite map_length; exact Hk).
    rewrite (map_nth F). unfold F.
    set (G := fun x : list (list R) => map (iss x (sw_exts (nth k words sw_empty))) (seq 0 m)).
    rewrite (nth_indep _ [] (G [])) by (rewrite map_length, LV; exact Hi).
    rewrite (map_nth G). unfold G.
    rewrite (nth_indep _ 0 (iss (nth i V []) (sw_exts (nth k words sw_empty)) 0%nat)) by (rewrite map_length, seq_length; exact Ht).
    rewrite map_nth, seq_nth by exact Ht. reflexivity. }
  exists Y, Y'. do 2 eexists. split; [exact EY|]. split; [exact EY'|]. split; [exact EZ|]. split; [exact EZ'|].
  split; [apply SH, HY|]. split; [apply SH, HY'|]. intros k i t Hk Hi Ht.
  assert (Hpt : (phi t < l)%nat) by (apply Hphi, Ht).
  rewrite (VAL Y' l' k i t HY' Hk Hi Ht), (VAL Y l k i (phi t) HY Hk Hi Hpt).
  set (w := sw_exts (nth k words sw_empty)).
  assert (Hw : letters_in d w /\ Forall positive_letter w).
  { rewrite Forall_forall in HW. apply (HW (nth k words sw_empty)). now apply nth_In. }
  destruct Hw as [Hin Hpos]. unfold letters_in in Hin. rewrite Forall_forall in Hin, Hpos.
  rewrite !iss_gsum.
  assert (NTH : forall V q, (q < length w)%nat -> nth q (map (ext_val V) w) (fun _ => 0) = ext_val V (nth q w [])).
  { intros V q Hq. rewrite (nth_indep _ _ (ext_val V [])) by (rewrite map_length; exact Hq). now rewrite map_nth. }
  assert (IN : forall q, (q < length w)%nat -> In (nth q w []) w) by (intros; now apply nth_In).
  apply (gsum_warp phi l l' Hphi); [now rewrite !map_length| | |exact Ht].
  - intros q Hq. rewrite map_length in Hq. rewrite !NTH by exact Hq. split; apply ext_val_zero; auto;
      intros j Hj Hz; pose proof (Hin _ (IN q Hq) j Hj Hz) as Hjd.
    + change (entry Y i j 0 = 0). rewrite SY by (try assumption; lia). reflexivity.
    + change (entry Y' i j 0 = 0). rewrite SY' by (try assumption; lia). reflexivity.
  - intros q u Hq Hu. rewrite map_length in Hq. rewrite !NTH by exact Hq.
    assert (V : forall j, (j < d)%nat -> entry Y' i j (S u) = entry X i j (phi (S u)) - entry X i j (phi u)).
    { intros j Hj. rewrite SY' by assumption. cbn [Nat.eqb]. replace (S u - 1)%nat with u by lia.
      rewrite !Hent by (try assumption; lia). reflexivity. }
    split; intros E.
    + apply ext_val_zero; [auto|]. intros j Hj Hz. pose proof (Hin _ (IN q Hq) j Hj Hz) as Hjd.
      change (entry Y' i j (S u) = 0). rewrite V, E by exact Hjd. ring.
    + apply ext_val_same. intros j Hj Hz. pose proof (Hin _ (IN q Hq) j Hj Hz) as Hjd.
      change (entry Y' i j (S u) = entry Y i j (S (phi u))). rewrite V, E by exact Hjd.
      rewrite SY by (try assumption; rewrite <- E; apply Hphi; exact Hu). cbn [Nat.eqb].
      replace (S (phi u) - 1)%nat with (phi u) by lia. reflexivity.
Qed.
Print Assumptions C14_time_warping.

(** Duplicating one time step p is such a warp, and it reaches the last step:
    the final value of the iterated sum is unchanged. *)
Definition repeat_step (p : nat) (X : list (list (list R))) : list (list (list R)) :=
  map (map (fun x => firstn (S p) x ++ skipn p x)) X.

Theorem C14_repeating_a_step : forall ci c (words : list (sword R)) X n d l p,
  inc_new (ShInt 1) 1 true = Ok ci ->
  is_words c = map simple_iword words -> is_mode c = SINGLE -> is_sr c = Reals -> is_wt c = None -> words <> [] ->
  Forall (fun w => sw_exts w <> [] /\ letters_in d (sw_exts w) /\ Forall positive_letter (sw_exts w)) words ->
  has_shape X n d l -> (1 <= n)%nat -> (1 <= d)%nat -> (p < l)%nat ->
  exists Y Y' Z Z',
    inc_transform ci X = Ok Y /\ inc_transform ci (repeat_step p X) = Ok Y' /\
    iss_transform c Y = Ok Z /\ iss_transform c Y' = Ok Z' /\
    forall k i, (k < length words)%nat -> (i < n)%nat -> entry Z' k i l = entry Z k i (l - 1).
Proof.
  intros ci c words X n d l p Hci Ew Hm Hs Hwt Hne HW HX Hn Hd Hp.
  set (phi := fun t => if (t <=? p)%nat then t else (t - 1)%nat).
  assert (HX' : has_shape (repeat_step p X) n d (S l)).
  { destruct HX as [L F]. split; [unfold repeat_step; now rewrite map_length|].
    apply Forall_forall. intros x Hx. apply in_map_iff in Hx as [y [<- Hy]].
    rewrite Forall_forall in F. destruct (F y Hy) as [Ly Fy]. split; [now rewrite map_length|].
    apply Forall_forall. intros r Hr. apply in_map_iff in Hr as [q [<- Hq]].
    rewrite Forall_forall in Fy. specialize (Fy q Hq). rewrite app_length, firstn_length, skipn_length. lia. }
  assert (W : time_warp phi l (S l)).
  { unfold time_warp, phi. split; [reflexivity|]. split.
    - intros t Ht. destruct (Nat.leb_spec t p), (Nat.leb_spec (S t) p); lia.
    - intros t Ht. destruct (Nat.leb_spec t p); lia. }
  destruct (C14_time_warping ci c words X (repeat_step p X) n d l (S l) phi) as (Y & Y' & Z & Z' & E1 & E2 & E3 & E4 & _ & _ & V); auto.
  - intros i j t Hi Hj Ht. unfold entry, repeat_step.
    assert (RR : row (map (map (fun x => firstn (S p) x ++ skipn p x)) X) i j
                 = firstn (S p) (row X i j) ++ skipn p (row X i j)).
    { exact (row_mapmap X n d l (fun x => firstn (S p) x ++ skipn p x) i j HX Hi Hj). }
    rewrite RR. pose proof (row_length X n d l i j HX Hi Hj) as LR. unfold phi.
    destruct (Nat.leb_spec t p).
    + rewrite app_nth1 by (rewrite firstn_length; lia). rewrite nth_firstn_lt by lia. reflexivity.
    + rewrite app_nth2 by (rewrite firstn_length; lia). rewrite firstn_length, LR.
      rewrite nth_skipn_. f_equal. lia.
  - exists Y, Y', Z, Z'. repeat (split; [assumption|]). intros k i Hk Hi.
    rewrite V by (try assumption; lia). f_equal. unfold phi. destruct (Nat.leb_spec l p); lia.
Qed.
Print Assumptions C14_repeating_a_step.

(** Non-vacuity: the word [1][12] on a two-dimensional series. *)
Example C14_ex : forall ci c,
  inc_new (ShInt 1) 1 true = Ok ci ->
  let w := {| sw_name := str "[1][12]"%string; sw_maxdim := 2; sw_exts := [[1]; [1; 1]]%Z; sw_alpha := None |} in
  is_words c = map simple_iword [w] -> is_mode c = SINGLE -> is_sr c = Reals -> is_wt c = None ->
  exists Y Y' Z Z', inc_transform ci X3 = Ok Y /\ inc_transform ci (repeat_step 1 X3) = Ok Y' /\
    iss_transform c Y = Ok Z /\ iss_transform c Y' = Ok Z' /\ entry Z' 0 0 3 = entry Z 0 0 2.
Proof.
  intros ci c Hci w Ew Hm Hs Hwt.
  destruct (C14_repeating_a_step ci c [w] X3 1 2 3 1 Hci Ew Hm Hs Hwt) as (Y & Y' & Z & Z' & E1 & E2 & E3 & E4 & V);
    [discriminate| |exact X3_shape|lia|lia|lia|].
  - apply Forall_cons; [|constructor]. split; [discriminate|]. split.
    + apply Forall_cons; [|apply Forall_cons; [|constructor]]; intros j Hj _; cbn in Hj; lia.
    + apply Forall_cons; [|apply Forall_cons; [|constructor]].
      * split; [apply Forall_cons; [lia|constructor]|]. exists 0%nat. cbn. lia.
      * split; [apply Forall_cons; [lia|apply Forall_cons; [lia|constructor]]|]. exists 0%nat. cbn. lia.
  - exists Y, Y', Z, Z'. repeat (split; [assumption|]). apply (V 0%nat 0%nat); cbn; lia.
Qed.
