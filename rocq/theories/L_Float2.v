(** Rounding error analysis, part 2: error bounds in the standard model of
    floating point arithmetic. *)
From Coq Require Import Ascii String List Arith ZArith Bool Lia Reals Lra.
From Verif Require Import Num Arr L_Arr S_ISS S_Float M_Str M_Semiring M_Words M_ISS M_Float L_Tuples L_Reals L_Max L_Slow L_ISS L_Gen L_API L_Rows L_Single L_Float.
Import ListNotations.
Local Open Scope R_scope.

Lemma abs_le_inv p q : Rabs p <= q -> - q <= p <= q.
Proof. intros H. pose proof (Rle_abs p). pose proof (Rle_abs (- p)). rewrite Rabs_Ropp in *. lra. Qed.

Section Err.
Variable u : R.
Variable o : flops.
Hypothesis St : standard u o.
Let Hu : 0 <= u. Proof. apply St. Qed.
Let Fl := FlNum o.
Definition growth (N : nat) : R := (1 + u) ^ N.
Definition near (N : nat) (y x a : R) : Prop := Rabs x <= a /\ Rabs (y - x) <= (growth N - 1) * a.

Lemma growth_ge1 N : 1 <= growth N.
Proof. unfold growth. apply pow_R1_Rle. lra. Qed.
Lemma growth_mono N M : (N <= M)%nat -> growth N <= growth M.
Proof. intros L. unfold growth. apply Rle_pow; [lra|exact L]. Qed.
Lemma growth_add N M : growth (N + M) = growth N * growth M.
Proof. unfold growth. apply pow_add. Qed.
Lemma growth_S N : growth (S N) = (1 + u) * growth N.
Proof. reflexivity. Qed.
Lemma near_a N y x a : near N y x a -> 0 <= a.
Proof. intros [H _]. pose proof (Rabs_pos x). lra. Qed.
Lemma near_weaken N M y x a : (N <= M)%nat -> near N y x a -> near M y x a.
Proof.
  intros L Hn. pose proof (near_a _ _ _ _ Hn) as Ha. destruct Hn as [H1 H2]. split; [exact H1|].
  pose proof (growth_mono N M L). nra.
Qed.
Lemma near_larger N y x a b : a <= b -> near N y x a -> near N y x b.
Proof. intros L [H1 H2]. pose proof (growth_ge1 N). split; [lra|]. nra. Qed.
Lemma near_exact N x : near N x x (Rabs x).
Proof. split; [lra|]. rewrite Rminus_diag_eq by reflexivity. rewrite Rabs_R0. pose proof (growth_ge1 N). pose proof (Rabs_pos x). nra. Qed.
Lemma near_size N y x a : near N y x a -> Rabs y <= growth N * a.
Proof.
  intros [H1 H2]. replace y with ((y - x) + x) by ring. pose proof (Rabs_triang (y - x) x). nra.
Qed.
Lemma near_mul N M y1 x1 a1 y2 x2 a2 : near N y1 x1 a1 -> near M y2 x2 a2 -> near (S (N + M)) (f_mul o y1 y2) (x1 * x2) (a1 * a2).
Proof.
  intros H1 H2. pose proof (near_size _ _ _ _ H2) as S2. pose proof (near_size _ _ _ _ H1) as S1.
  pose proof (near_a _ _ _ _ H1) as A1. pose proof (near_a _ _ _ _ H2) as A2. destruct H1 as [B1 E1], H2 as [B2 E2].
  split. { rewrite Rabs_mult. apply Rmult_le_compat; auto using Rabs_pos. }
  replace (f_mul o y1 y2 - x1 * x2) with ((f_mul o y1 y2 - y1 * y2) + ((y1 - x1) * y2 + x1 * (y2 - x2))) by ring.
  eapply Rle_trans; [apply Rabs_triang|].
  pose proof (proj1 (proj2 (proj2 (proj2 St))) y1 y2) as Hm. rewrite Rabs_mult in Hm.
  assert (P1 : Rabs y1 * Rabs y2 <= growth N * a1 * (growth M * a2)) by (apply Rmult_le_compat; auto using Rabs_pos).
  assert (P2 : Rabs ((y1 - x1) * y2 + x1 * (y2 - x2)) <= (growth N - 1) * a1 * (growth M * a2) + a1 * ((growth M - 1) * a2)).
  { eapply Rle_trans; [apply Rabs_triang|]. rewrite !Rabs_mult. apply Rplus_le_compat; apply Rmult_le_compat; auto using Rabs_pos. }
  rewrite growth_S, growth_add. nra.
Qed.
Lemma near_div N y x a z : z <> 0 -> near N y x a -> near (S N) (f_div o y z) (x / z) (a / Rabs z).
Proof.
  intros Hz Hn. pose proof (near_size _ _ _ _ Hn) as Sz. pose proof (near_a _ _ _ _ Hn) as A. destruct Hn as [B E].
  assert (Pz : 0 < / Rabs z) by (apply Rinv_0_lt_compat, Rabs_pos_lt, Hz).
  unfold Rdiv. split. { rewrite Rabs_mult, Rabs_inv. nra. }
  replace (f_div o y z - x * / z) with ((f_div o y z - y / z) + (y - x) * / z) by (unfold Rdiv; ring).
  eapply Rle_trans; [apply Rabs_triang|].
  pose proof (proj1 (proj2 (proj2 (proj2 (proj2 St)))) y z Hz) as Hd. unfold Rdiv in Hd. rewrite Rabs_mult, Rabs_inv in Hd.
  rewrite Rabs_mult, Rabs_inv. fold (Rdiv y z) in Hd. unfold Rdiv in *.
  assert (P1 : Rabs y * / Rabs z <= growth N * a * / Rabs z) by (apply Rmult_le_compat_r; lra).
  assert (P2 : Rabs (y - x) * / Rabs z <= (growth N - 1) * a * / Rabs z) by (apply Rmult_le_compat_r; lra).
  rewrite growth_S. nra.
Qed.
Lemma near_add N y1 x1 a1 y2 x2 a2 : near N y1 x1 a1 -> near N y2 x2 a2 -> near (S N) (f_add o y1 y2) (x1 + x2) (a1 + a2).
Proof.
  intros H1 H2. pose proof (near_size _ _ _ _ H2) as S2. pose proof (near_size _ _ _ _ H1) as S1.
  destruct H1 as [B1 E1], H2 as [B2 E2].
  split. { eapply Rle_trans; [apply Rabs_triang|lra]. }
  replace (f_add o y1 y2 - (x1 + x2)) with ((f_add o y1 y2 - (y1 + y2)) + ((y1 - x1) + (y2 - x2))) by ring.
  eapply Rle_trans; [apply Rabs_triang|]. pose proof (proj1 (proj2 St) y1 y2) as Ha.
  pose proof (Rabs_triang y1 y2). pose proof (Rabs_triang (y1 - x1) (y2 - x2)). rewrite growth_S. nra.
Qed.
Lemma near_sub N y1 x1 a1 y2 x2 a2 : near N y1 x1 a1 -> near N y2 x2 a2 -> near (S N) (f_sub o y1 y2) (x1 - x2) (a1 + a2).
Proof.
  intros H1 H2. pose proof (near_size _ _ _ _ H2) as S2. pose proof (near_size _ _ _ _ H1) as S1.
  destruct H1 as [B1 E1], H2 as [B2 E2].
  assert (Tr : forall p q, Rabs (p - q) <= Rabs p + Rabs q).
  { intros p q. unfold Rminus. rewrite <- (Rabs_Ropp q). apply Rabs_triang. }
  split. { eapply Rle_trans; [apply Tr|lra]. }
  replace (f_sub o y1 y2 - (x1 - x2)) with ((f_sub o y1 y2 - (y1 - y2)) + ((y1 - x1) - (y2 - x2))) by ring.
  eapply Rle_trans; [apply Rabs_triang|]. pose proof (proj1 (proj2 (proj2 St)) y1 y2) as Ha.
  pose proof (Tr y1 y2). pose proof (Tr (y1 - x1) (y2 - x2)). rewrite growth_S. nra.
Qed.
Lemma near_max N y1 x1 a1 y2 x2 a2 : near N y1 x1 a1 -> near N y2 x2 a2 -> near N (Rmax y1 y2) (Rmax x1 x2) (Rmax a1 a2).
Proof.
  intros [B1 E1] [B2 E2]. pose proof (growth_ge1 N) as G.
  assert (L1 : a1 <= Rmax a1 a2) by apply Rmax_l. assert (L2 : a2 <= Rmax a1 a2) by apply Rmax_r. set (a := Rmax a1 a2) in *.
  assert (F1 : Rabs (y1 - x1) <= (growth N - 1) * a) by nra. assert (F2 : Rabs (y2 - x2) <= (growth N - 1) * a) by nra.
  clearbody a. split; [unfold Rmax; destruct (Rle_dec x1 x2); lra|].
  apply abs_le_inv in F1, F2. apply Rabs_le. clear E1 E2. revert F1 F2. generalize ((growth N - 1) * a). intros q F1 F2.
  unfold Rmax. destruct (Rle_dec x1 x2), (Rle_dec y1 y2); lra.
Qed.

(** [exp 0] and [0 * 0] *)
Lemma fmul00 : f_mul o 0 0 = 0.
Proof.
  pose proof (proj1 (proj2 (proj2 (proj2 St))) 0 0) as Hm. rewrite Rmult_0_l, Rabs_R0, Rmult_0_r, Rminus_0_r in Hm.
  destruct (Req_dec (f_mul o 0 0) 0) as [E|E]; [exact E|]. apply Rabs_pos_lt in E. lra.
Qed.
Lemma near_exp0 : near 1 (f_exp o 0) 1 1.
Proof.
  split; [rewrite Rabs_R1; lra|]. pose proof (proj2 (proj2 (proj2 (proj2 (proj2 St)))) 0) as He. rewrite exp_0 in He.
  unfold growth. rewrite pow_1. lra.
Qed.
Lemma e0_near : near 1 (@e0 R Fl) (@e0 R RNum) 1 /\ @e0 R RNum = 1.
Proof.
  assert (E : @e0 R RNum = 1) by (unfold e0; cbn; rewrite Rmult_0_l; apply exp_0).
  split; [|exact E]. rewrite E. unfold e0. cbn. rewrite fmul00. apply near_exp0.
Qed.
Lemma e0n_near : near 1 (@e0n R Fl) (@e0n R RNum) 1 /\ @e0n R RNum = 1.
Proof.
  assert (E : @e0n R RNum = 1) by (unfold e0n; cbn; rewrite Ropp_0, Rmult_0_l; apply exp_0).
  split; [|exact E]. rewrite E. unfold e0n. cbn. rewrite Ropp_0, fmul00. apply near_exp0.
Qed.

(** * Products *)
Definition absS (X : list (list R)) : list (list R) := map (map Rabs) X.
Lemma rowF_abs X d t : @rowF R RNum (absS X) d t = Rabs (@rowF R RNum X d t).
Proof.
  unfold rowF, absS. cbn [nzero RNum]. change (@nil R) with (map Rabs []) at 1. rewrite map_nth, <- Rabs_R0 at 1. now rewrite map_nth.
Qed.
Lemma rowF_fl X d t : @rowF R Fl X d t = @rowF R RNum X d t.
Proof. reflexivity. Qed.
Lemma letter_near N z z' za e f' f fa t : z' = z -> za = Rabs z -> near N f' f fa -> ((e < 0)%Z -> z <> 0) ->
  near (N + Z.abs_nat e) (@letterF R Fl (fun _ => z') e (fun _ => f') t) (@letterF R RNum (fun _ => z) e (fun _ => f) t)
       (@letterF R RNum (fun _ => za) e (fun _ => fa) t).
Proof.
  intros -> -> Hn Hz. unfold letterF. destruct (0 <? e)%Z eqn:Q1; [|destruct (e <? 0)%Z eqn:Q2].
  - apply Z.ltb_lt in Q1. replace (Z.abs_nat e) with (Z.to_nat e) by lia. generalize (Z.to_nat e). intros k.
    induction k as [|k IH]. { rewrite Nat.add_0_r. exact Hn. }
    unfold pt_iter in *. cbn [Nat.iter nat_rect]. cbn [nmul Fl FlNum RNum]. rewrite Nat.add_succ_r.
    replace (S (N + k)) with (S ((N + k) + 0)) by lia. apply near_mul; [exact IH|apply near_exact].
  - apply Z.ltb_lt in Q2. replace (Z.abs_nat e) with (Z.to_nat (- e)) by lia. specialize (Hz Q2). generalize (Z.to_nat (- e)). intros k.
    induction k as [|k IH]. { rewrite Nat.add_0_r. exact Hn. }
    unfold pt_iter in *. cbn [Nat.iter nat_rect]. cbn [ndiv Fl FlNum RNum]. rewrite Nat.add_succ_r. apply near_div; [exact Hz|exact IH].
  - apply Z.ltb_ge in Q1, Q2. replace e with 0%Z by lia. rewrite Nat.add_0_r. exact Hn.
Qed.
End Err.
(** [letterF] and [extF] work separately at each time. *)
Lemma letterF_at {T} `{Num T} z e (f : nat -> T) t : letterF z e f t = letterF (fun _ => z t) e (fun _ => f t) t.
Proof.
  unfold letterF. destruct (0 <? e)%Z; [|destruct (e <? 0)%Z; [|reflexivity]]; unfold pt_iter.
  - generalize (Z.to_nat e). intros k. induction k as [|k IH]; [reflexivity|]. cbn [Nat.iter nat_rect]. f_equal. exact IH.
  - generalize (Z.to_nat (- e)). intros k. induction k as [|k IH]; [reflexivity|]. cbn [Nat.iter nat_rect]. f_equal. exact IH.
Qed.
Definition nz_at (X : list (list R)) (el : list Z) (t : nat) : Prop :=
  forall j, (j < length el)%nat -> (nth j el 0 < 0)%Z -> @rowF R RNum X j t <> 0.

Section Err2.
Variable u : R.
Variable o : flops.
Hypothesis St : standard u o.
Let Fl := FlNum o.
Let nearu := near u.
Let Hu : 0 <= u. Proof. apply St. Qed.

Lemma ext_near X el t : forall d N f' f fa, (forall j, (j < length el)%nat -> (nth j el 0 < 0)%Z -> @rowF R RNum X (d + j) t <> 0) ->
  nearu N (f' t) (f t) (fa t) ->
  nearu (N + ext_weight el) (@extF R Fl X d el f' t) (@extF R RNum X d el f t) (@extF R RNum (absS X) d el fa t).
Proof.
  induction el as [|e el IH]; intros d N f' f fa Hz Hn.
  - cbn [extF ext_weight map list_sum fold_right]. unfold ext_weight. cbn. rewrite Nat.add_0_r. exact Hn.
  - cbn [extF]. replace (N + ext_weight (e :: el))%nat with ((N + Z.abs_nat e) + ext_weight el)%nat by (unfold ext_weight; cbn [map list_sum fold_right]; unfold list_sum; cbn [map fold_right]; lia).
    apply IH.
    + intros j Hj He. replace (S d + j)%nat with (d + S j)%nat by lia. apply Hz; [cbn; lia|exact He].
    + rewrite (letterF_at (H := Fl)), (letterF_at (H := RNum) (rowF X d)), (letterF_at (H := RNum) (rowF (absS X) d)).
      apply letter_near; [exact St|reflexivity|apply rowF_abs|exact Hn|].
      intros He. specialize (Hz 0%nat ltac:(cbn; lia) He). now rewrite Nat.add_0_r in Hz.
Qed.
(** Sums: position [t] takes [t] additions. *)
Lemma accum_near A c n f' f fa : (forall t, (t < n)%nat -> nearu (A + c * t) (f' t) (f t) (fa t)) ->
  forall t, (t < n)%nat -> nearu (A + S c * t) (accum (f_add o) f' t) (accum Rplus f t) (accum Rplus fa t).
Proof.
  intros Hn t. induction t as [|t IH]; intros Ht.
  - cbn [accum]. specialize (Hn 0%nat Ht). now rewrite Nat.mul_0_r in *.
  - cbn [accum]. replace (A + S c * S t)%nat with (S (A + c + c * t + t))%nat by lia. apply near_add; [exact St| |].
    + apply (near_weaken u o St (A + S c * t)); [lia|]. apply IH. lia.
    + apply (near_weaken u o St (A + c * S t)); [lia|]. apply Hn. exact Ht.
Qed.
Lemma fin_near X n w : Forall (fun el => forall t, (t < n)%nat -> nz_at X el t) w -> w <> [] -> forall A c f' f fa,
  (forall t, (t < n)%nat -> nearu (A + c * t) (f' t) (f t) (fa t)) ->
  forall t, (t < n)%nat ->
  nearu (A + word_weight w + 4 * length w + (c + length w) * t)
    (@finR R Fl X w f' t) (@finR R RNum X w f t) (@finR R RNum (absS X) w fa t).
Proof.
  intros Hnz Hne. induction w as [|el w IH]; [congruence|]. intros A c f' f fa Hn.
  inversion Hnz as [|? ? Hel Hw E1]; subst.
  destruct (e0_near u o St) as [N0 E0]. destruct (e0n_near u o St) as [N1 E1].
  assert (Hc : forall t, (t < n)%nat -> nearu ((A + ext_weight el + 2) + S c * t)
    (accum (f_add o) (fun t => f_mul o (@extF R Fl X 0 el f' t) (@e0 R Fl)) t)
    (accum Rplus (fun t => @extF R RNum X 0 el f t * @e0 R RNum) t)
    (accum Rplus (fun t => @extF R RNum (absS X) 0 el fa t * @e0 R RNum) t)).
  { apply accum_near. intros t Ht. rewrite E0 at 2.
    replace (A + ext_weight el + 2 + c * t)%nat with (S ((A + c * t + ext_weight el) + 1)) by lia.
    apply near_mul; [exact St| |exact N0]. apply ext_near; [|apply Hn; exact Ht].
    intros j Hj He. exact (Hel t Ht j Hj He). }
  destruct w as [|el2 w].
  - intros t Ht. cbn [finR]. cbn [nadd nmul Fl FlNum RNum]. rewrite E1 at 2.
    replace (A + word_weight [el] + 4 * length [el] + (c + length [el]) * t)%nat
      with (S ((A + ext_weight el + 2 + S c * t) + 1)) by (unfold word_weight, list_sum; cbn [map fold_right length]; lia).
    apply near_mul; [exact St|apply Hc; exact Ht|exact N1].
  - intros t Ht.
    replace (A + word_weight (el :: el2 :: w) + 4 * length (el :: el2 :: w) + (c + length (el :: el2 :: w)) * t)%nat
      with ((A + ext_weight el + 4) + word_weight (el2 :: w) + 4 * length (el2 :: w) + (S c + length (el2 :: w)) * t)%nat
      by (unfold word_weight, list_sum; cbn [map fold_right length]; lia).
    apply (IH Hw ltac:(discriminate)); [|exact Ht].
    intros s Hs. cbn [nadd nmul Fl FlNum RNum]. rewrite E1 at 2. destruct s as [|s].
    + cbn [shiftF nzero Fl FlNum RNum].
      apply (near_weaken u o St (S (0 + 1))); [lia|].
      pose proof (near_mul u o St 0 1 0 0 (Rabs 0) _ _ _ (near_exact u o St 0 0) N1) as Hm. rewrite Rabs_R0 in Hm. exact Hm.
    + cbn [shiftF]. apply (near_weaken u o St (S ((A + ext_weight el + 2 + S c * s) + 1))); [lia|].
      apply near_mul; [exact St|apply Hc; lia|exact N1].
Qed.

(** Arctic: the maximum does not amplify errors. *)
Definition absW (w : list (list Z)) : list (list Z) := map (map Z.abs) w.
Lemma aext_near X el t : forall d N f' f fa, (1 <= N)%nat -> nearu N (f' t) (f t) (fa t) ->
  nearu (N + length el) (@aextF R Fl X d el f' t) (@aextF R RNum X d el f t) (@aextF R RNum (absS X) d (map Z.abs el) fa t).
Proof.
  induction el as [|e el IH]; intros d N f' f fa HN Hn.
  - cbn [aextF length map]. rewrite Nat.add_0_r. exact Hn.
  - cbn [aextF length map]. replace (N + S (length el))%nat with (S N + length el)%nat by lia.
    apply IH; [lia|]. cbn [nadd nmul nofZ Fl FlNum RNum]. apply near_add; [exact St|exact Hn|].
    apply (near_weaken u o St (S (0 + 0))); [lia|].
    rewrite rowF_abs, abs_IZR. apply near_mul; [exact St|eapply near_exact; exact St|eapply near_exact; exact St].
Qed.
Lemma nmax_R (x y : R) : nmax x y = Rmax x y.
Proof. unfold nmax. cbn. unfold Rmax, Rleb. destruct (Rle_dec x y); reflexivity. Qed.
Lemma nmax_fl (x y : R) : @nmax R Fl x y = Rmax x y.
Proof. exact (nmax_R x y). Qed.
Lemma accum_max_near A n f' f fa : (forall t, (t < n)%nat -> nearu A (f' t) (f t) (fa t)) ->
  forall t, (t < n)%nat -> nearu A (accum (@nmax R Fl) f' t) (accum (@nmax R RNum) f t) (accum (@nmax R RNum) fa t).
Proof.
  intros Hn t. induction t as [|t IH]; intros Ht; cbn [accum]; [apply Hn; exact Ht|].
  rewrite nmax_fl, !nmax_R. eapply near_max; [exact St|apply IH; lia|apply Hn; exact Ht].
Qed.
Lemma finA_near X n w : forall A f' f fa, (1 <= A)%nat ->
  (forall t, (t < n)%nat -> nearu A (f' t) (f t) (fa t)) ->
  forall t, (t < n)%nat ->
  nearu (A + arctic_rounds w) (@finA R Fl X w f' t) (@finA R RNum X w f t) (@finA R RNum (absS X) (absW w) fa t).
Proof.
  induction w as [|el w IH]; intros A f' f fa HA Hn t Ht.
  - cbn [finA absW map arctic_rounds list_sum fold_right]. rewrite Nat.add_0_r. apply Hn. exact Ht.
  - cbn [finA absW map]. fold (absW w).
    replace (A + arctic_rounds (el :: w))%nat with ((A + length el + 2) + arctic_rounds w)%nat by (unfold arctic_rounds; cbn [map list_sum fold_right]; unfold list_sum; cbn [map fold_right]; lia).
    assert (Z' : @z0 R Fl = 0) by (exact (fmul00 u o St)).
    assert (Z1 : @z0 R RNum = 0) by (unfold z0; cbn; ring).
    apply IH; [lia| |exact Ht]. intros s Hs. cbn [nadd nsub Fl FlNum RNum]. rewrite Z', Z1.
    assert (Hc : nearu (A + length el + 1) (accum (@nmax R Fl) (fun t => f_add o (@aextF R Fl X 0 el f' t) 0) s)
       (accum nmax (fun t => @aextF R RNum X 0 el f t + 0) s) (accum nmax (fun t => @aextF R RNum (absS X) 0 (map Z.abs el) fa t + 0) s)).
    { apply (accum_max_near _ n); [|exact Hs]. intros r Hr. replace (A + length el + 1)%nat with (S (A + length el)) by lia.
      apply near_add; [exact St|apply aext_near; [exact HA|apply Hn; exact Hr]|].
      rewrite <- Rabs_R0 at 3. eapply near_exact; exact St. }
    replace (A + length el + 2)%nat with (S (A + length el + 1)) by lia.
    set (q := accum nmax (fun t => @aextF R RNum (absS X) 0 (map Z.abs el) fa t + 0) s) in *.
    replace (q - 0) with (q + Rabs 0) by (rewrite Rabs_R0; ring).
    apply near_sub; [exact St|exact Hc|eapply near_exact; exact St].
Qed.
Lemma finB_near X n w : Forall (fun el => forall t, (t < n)%nat -> nz_at X el t) w -> forall A f' f fa,
  (forall t, (t < n)%nat -> nearu A (f' t) (f t) (fa t)) ->
  forall t, (t < n)%nat ->
  nearu (A + word_weight w + 4 * length w) (@finB R Fl X w f' t) (@finB R RNum X w f t) (@finB R RNum (absS X) w fa t).
Proof.
  intros Hnz. induction w as [|el w IH]; intros A f' f fa Hn t Ht.
  - cbn [finB length word_weight map list_sum fold_right]. rewrite !Nat.add_0_r. apply Hn. exact Ht.
  - inversion Hnz as [|? ? Hel Hw E1]; subst. cbn [finB].
    replace (A + word_weight (el :: w) + 4 * length (el :: w))%nat
      with ((A + ext_weight el + 4) + word_weight w + 4 * length w)%nat by (unfold word_weight, list_sum; cbn [map fold_right length]; lia).
    destruct (e0_near u o St) as [N0 E0]. destruct (e0n_near u o St) as [N1 E1].
    apply (IH Hw); [|exact Ht]. intros s Hs. cbn [nmul Fl FlNum RNum]. rewrite E1 at 2.
    replace (A + ext_weight el + 4)%nat with (S ((A + ext_weight el + 2) + 1)) by lia.
    apply near_mul; [exact St| |exact N1]. apply (accum_max_near _ n); [|exact Hs].
    intros r Hr. rewrite E0 at 2. replace (A + ext_weight el + 2)%nat with (S ((A + ext_weight el) + 1)) by lia.
    apply near_mul; [exact St| |exact N0]. apply ext_near; [|apply Hn; exact Hr]. intros j Hj He. exact (Hel r Hr j Hj He).
Qed.
End Err2.
