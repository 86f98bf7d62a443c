(** Rounding error analysis, part 3: integer data. *)
From Coq Require Import Ascii String List Arith ZArith Bool Lia Reals Lra.
From Verif Require Import Num Arr L_Arr S_ISS S_Float M_Str M_Semiring M_Words M_ISS M_Float L_Tuples L_Reals L_Max L_Slow L_ISS L_Gen L_API L_Rows L_Single L_Float L_Float2.
Import ListNotations.
Local Open Scope R_scope.

Lemma is_int_mul x y : is_int x -> is_int y -> is_int (x * y).
Proof. intros [a ->] [b ->]. exists (a * b)%Z. now rewrite mult_IZR. Qed.
Lemma is_int_add x y : is_int x -> is_int y -> is_int (x + y).
Proof. intros [a ->] [b ->]. exists (a + b)%Z. now rewrite plus_IZR. Qed.
Lemma is_int_IZR k : is_int (IZR k).
Proof. now exists k. Qed.
Lemma is_int_max x y : is_int x -> is_int y -> is_int (Rmax x y).
Proof. intros Hx Hy. unfold Rmax. destruct (Rle_dec x y); assumption. Qed.

Lemma letterF_pow z e f t : (0 <= e)%Z -> @letterF R RNum (fun _ => z) e (fun _ => f) t = f * z ^ Z.to_nat e.
Proof.
  intros He. unfold letterF. destruct (0 <? e)%Z eqn:Q1.
  - generalize (Z.to_nat e). intros k. induction k as [|k IH]; [cbn; ring|].
    transitivity (f * z ^ k * z); [|cbn [pow]; ring]. unfold pt_iter in *. cbn [Nat.iter nat_rect]. cbn [nmul RNum] in *. f_equal. exact IH.
  - apply Z.ltb_ge in Q1. replace e with 0%Z by lia. cbn. ring.
Qed.
Lemma rowF_max1 X d t : @rowF R RNum (max1 X) d t = (if (d <? length X)%nat && (t <? length (nth d X []))%nat then Rmax 1 (Rabs (@rowF R RNum X d t)) else 0).
Proof.
  unfold rowF, max1. cbn [nzero RNum]. destruct (d <? length X)%nat eqn:Q1; [apply Nat.ltb_lt in Q1|apply Nat.ltb_ge in Q1].
  - rewrite (nth_indep _ [] (map (fun v => Rmax 1 (Rabs v)) [])) by now rewrite map_length. rewrite map_nth.
    destruct (t <? length (nth d X []))%nat eqn:Q2; [apply Nat.ltb_lt in Q2|apply Nat.ltb_ge in Q2]; cbn [andb].
    + rewrite (nth_indep _ 0 (Rmax 1 (Rabs 0))) by now rewrite map_length. now rewrite (map_nth (fun v => Rmax 1 (Rabs v))).
    + apply nth_overflow. now rewrite map_length.
  - cbn [andb]. rewrite (nth_overflow (map _ X)) by now rewrite map_length. now destruct t.
Qed.

(** What is used of the arithmetic. *)
Definition exact_ints (B : R) (o : flops) : Prop :=
  (forall x y, is_int x -> is_int y -> Rabs (x * y) <= B -> f_mul o x y = x * y) /\
  (forall x y, is_int x -> is_int y -> Rabs (x + y) <= B -> f_add o x y = x + y) /\
  (forall x y, is_int x -> is_int y -> Rabs (x - y) <= B -> f_sub o x y = x - y) /\
  f_exp o 0 = 1 /\ 0 <= B.

Section Ints.
Variable B : R.
Variable o : flops.
Hypothesis Ex : exact_ints B o.
Let Fl := FlNum o.
Definition good (y x a : R) : Prop := y = x /\ is_int x /\ Rabs x <= a.

Lemma int1 : is_int 1. Proof. exact (is_int_IZR 1). Qed.
Lemma int0 : is_int 0. Proof. exact (is_int_IZR 0). Qed.
Lemma ex_mul00 : f_mul o 0 0 = 0.
Proof. destruct Ex as (Hm & _ & _ & _ & HB). rewrite Hm; [ring|apply int0|apply int0|]. rewrite Rmult_0_l, Rabs_R0. exact HB. Qed.
Lemma ex_e0 : @e0 R Fl = 1 /\ @e0 R RNum = 1 /\ @e0n R Fl = 1 /\ @e0n R RNum = 1.
Proof.
  unfold e0, e0n. cbn. rewrite !Ropp_0, ex_mul00, Rmult_0_l, exp_0. repeat split; apply Ex.
Qed.
Lemma ex_mul1 y x a : good y x a -> a <= B -> good (f_mul o y 1) (x * 1) (a * 1).
Proof.
  intros (-> & Hi & Ha) HB. rewrite !Rmult_1_r. split; [|split; assumption].
  rewrite (proj1 Ex) by (rewrite ?Rmult_1_r; auto using int1; lra). ring.
Qed.

(** One extended letter at one time. *)
Lemma letter_good z e f' f fd t : (0 <= e)%Z -> is_int z -> good f' f fd ->
  fd * Rmax 1 (Rabs z) ^ Z.to_nat e <= B ->
  good (@letterF R Fl (fun _ => z) e (fun _ => f') t) (f * z ^ Z.to_nat e) (fd * Rmax 1 (Rabs z) ^ Z.to_nat e).
Proof.
  intros He Hz Hf HB.
  assert (M1 : 1 <= Rmax 1 (Rabs z)) by apply Rmax_l. assert (M2 : Rabs z <= Rmax 1 (Rabs z)) by apply Rmax_r.
  set (m := Rmax 1 (Rabs z)) in *. clearbody m.
  assert (P : 0 <= fd) by (destruct Hf as (_ & _ & Hf); pose proof (Rabs_pos f); lra).
  assert (G : forall k, fd * m ^ k <= B -> good (Nat.iter k (fun g => f_mul o g z) f') (f * z ^ k) (fd * m ^ k)).
  { intros k. induction k as [|k IH]; intros Hk. { cbn [Nat.iter nat_rect pow]. rewrite !Rmult_1_r. exact Hf. }
    assert (Pk : 0 <= fd * m ^ k) by (apply Rmult_le_pos; [exact P|apply pow_le; lra]).
    cbn [pow] in Hk. destruct IH as (E & Hi & Ha); [nra|]. change (Nat.iter (S k) (fun g => f_mul o g z) f') with (f_mul o (Nat.iter k (fun g => f_mul o g z) f') z). rewrite E. cbn [pow].
    assert (A : Rabs (f * z ^ k * z) <= fd * m ^ k * m) by (rewrite Rabs_mult; apply Rmult_le_compat; auto using Rabs_pos).
    replace (f * (z * z ^ k)) with (f * z ^ k * z) by ring. replace (fd * (m * m ^ k)) with (fd * m ^ k * m) by ring.
    split; [|split; [now apply is_int_mul|exact A]]. apply (proj1 Ex); auto. lra. }
  unfold letterF. destruct (0 <? e)%Z eqn:Q1.
  - specialize (G (Z.to_nat e) HB). unfold pt_iter.
    assert (E : forall k, Nat.iter k (fun g t => f_mul o (g t) z) (fun _ : nat => f') t = Nat.iter k (fun g => f_mul o g z) f').
    { intros k. induction k as [|k IH]; [reflexivity|]. cbn [Nat.iter nat_rect]. f_equal. exact IH. }
    specialize (E (Z.to_nat e)). change (@nmul R Fl) with (f_mul o). rewrite E. exact G.
  - apply Z.ltb_ge in Q1. replace e with 0%Z in * by lia. cbn [Z.ltb Z.compare Z.to_nat pow] in *. rewrite !Rmult_1_r. exact Hf.
Qed.
Definition int_at (X : list (list R)) (el : list Z) (d t : nat) : Prop :=
  forall j, (j < length el)%nat -> nth j el 0%Z <> 0%Z ->
    is_int (@rowF R RNum X (d + j) t) /\ (d + j < length X)%nat /\ (t < length (nth (d + j) X []))%nat.
Lemma int_at_tail X e el d t : int_at X (e :: el) d t -> int_at X el (S d) t.
Proof.
  intros H j Hj Hn. replace (S d + j)%nat with (d + S j)%nat by lia. apply H; [cbn; lia|exact Hn].
Qed.
Lemma int_at_head X e el d t : int_at X (e :: el) d t -> e <> 0%Z -> is_int (@rowF R RNum X d t) /\ @rowF R RNum (max1 X) d t = Rmax 1 (Rabs (@rowF R RNum X d t)).
Proof.
  intros H He. specialize (H 0%nat ltac:(cbn; lia) He). rewrite Nat.add_0_r in H. destruct H as (Hi & Hd & Ht).
  split; [exact Hi|]. rewrite rowF_max1. apply Nat.ltb_lt in Hd, Ht. now rewrite Hd, Ht.
Qed.
Lemma max1_pow_ge1 x k : 1 <= Rmax 1 x ^ k.
Proof. apply pow_R1_Rle. apply Rmax_l. Qed.
Lemma ext_dom X el t : forall d fd, Forall (fun e => 0 <= e)%Z el -> int_at X el d t -> 0 <= fd t ->
  fd t <= @extF R RNum (max1 X) d el fd t.
Proof.
  induction el as [|e el IH]; intros d fd Hel Hx Hf; [cbn; lra|]. cbn [extF]. inversion Hel as [|? ? He Hel' E1]; subst.
  assert (L : fd t <= @letterF R RNum (rowF (max1 X) d) e fd t).
  { rewrite letterF_at, letterF_pow by exact He. destruct (Z.eq_dec e 0) as [->|Hn]; [cbn; lra|].
    rewrite (proj2 (int_at_head _ _ _ _ _ Hx Hn)). pose proof (max1_pow_ge1 (Rabs (@rowF R RNum X d t)) (Z.to_nat e)). nra. }
  eapply Rle_trans; [exact L|]. apply IH; [exact Hel'|eapply int_at_tail; exact Hx|lra].
Qed.
Lemma ext_good X el t : forall d f' f fd, Forall (fun e => 0 <= e)%Z el -> int_at X el d t ->
  good (f' t) (f t) (fd t) -> @extF R RNum (max1 X) d el fd t <= B ->
  good (@extF R Fl X d el f' t) (@extF R RNum X d el f t) (@extF R RNum (max1 X) d el fd t).
Proof.
  induction el as [|e el IH]; intros d f' f fd Hel Hx Hf HB; [exact Hf|]. cbn [extF] in *. inversion Hel as [|? ? He Hel' E1]; subst.
  assert (P : 0 <= fd t) by (destruct Hf as (_ & _ & Hf); pose proof (Rabs_pos (f t)); lra).
  destruct (Z.eq_dec e 0) as [->|Hn].
  { apply IH; [exact Hel'|eapply int_at_tail; exact Hx|exact Hf|exact HB]. }
  destruct (int_at_head _ _ _ _ _ Hx Hn) as [Hi Hm].
  assert (Em : @letterF R RNum (rowF (max1 X) d) e fd t = fd t * Rmax 1 (Rabs (@rowF R RNum X d t)) ^ Z.to_nat e).
  { rewrite letterF_at, letterF_pow by exact He. now rewrite Hm. }
  assert (P2 : 0 <= @letterF R RNum (rowF (max1 X) d) e fd t).
  { rewrite Em. pose proof (max1_pow_ge1 (Rabs (@rowF R RNum X d t)) (Z.to_nat e)). nra. }
  apply IH; [exact Hel'|eapply int_at_tail; exact Hx| |exact HB].
  pose proof (ext_dom X el t (S d) _ Hel' (int_at_tail _ _ _ _ _ Hx) P2) as D.
  rewrite Em. rewrite (letterF_at (H := RNum)), letterF_pow by exact He. rewrite (letterF_at (H := Fl)).
  apply letter_good; [exact He|exact Hi|exact Hf|]. rewrite <- Em. lra.
Qed.
Lemma ext_nonneg0 X el t : forall d fd, Forall (fun e => 0 <= e)%Z el -> 0 <= fd t -> 0 <= @extF R RNum (max1 X) d el fd t.
Proof.
  induction el as [|e el IH]; intros d fd Hel Hf; [exact Hf|]. cbn [extF]. inversion Hel as [|? ? He Hel' E1]; subst.
  apply IH; [exact Hel'|]. rewrite letterF_at, letterF_pow by exact He. apply Rmult_le_pos; [exact Hf|]. apply pow_le.
  rewrite rowF_max1. destruct (_ && _); [|lra]. pose proof (Rmax_l 1 (Rabs (@rowF R RNum X d t))). lra.
Qed.

(** Sums. *)
Lemma accum_pos fd t : (forall s, 0 <= fd s) -> 0 <= accum Rplus fd t.
Proof. intros Hf. induction t as [|t IH]; cbn [accum]; [apply Hf|]. pose proof (Hf (S t)). lra. Qed.
Lemma accum_mono fd s t : (forall s, 0 <= fd s) -> (s <= t)%nat -> accum Rplus fd s <= accum Rplus fd t.
Proof. intros Hf L. induction L as [|t L IH]; [lra|]. cbn [accum]. pose proof (Hf (S t)). lra. Qed.
Lemma accum_ge fd s : (forall s, 0 <= fd s) -> fd s <= accum Rplus fd s.
Proof. intros Hf. destruct s as [|s]; cbn [accum]; [lra|]. pose proof (accum_pos fd s Hf). lra. Qed.
Lemma accum_good f' f fd t : (forall s, 0 <= fd s) -> (forall s, (s <= t)%nat -> good (f' s) (f s) (fd s)) -> accum Rplus fd t <= B ->
  good (accum (f_add o) f' t) (accum Rplus f t) (accum Rplus fd t).
Proof.
  intros Hp. induction t as [|t IH]; intros Hf HB; cbn [accum] in *; [apply Hf; lia|].
  destruct IH as (E & Hi & Ha); [intros s Hs; apply Hf; lia|pose proof (Hp (S t)); lra|].
  destruct (Hf (S t) ltac:(lia)) as (E2 & Hi2 & Ha2).
  assert (A : Rabs (accum Rplus f t + f (S t)) <= accum Rplus fd t + fd (S t)) by (eapply Rle_trans; [apply Rabs_triang|lra]).
  split; [|split; [now apply is_int_add|exact A]]. rewrite E, E2. apply (proj1 (proj2 Ex)); auto. lra.
Qed.
Definition cR (X : list (list R)) el fd := accum Rplus (fun t => @extF R RNum (max1 X) 0 el fd t * 1).
Lemma finR_dom X w : Forall (Forall (fun e => 0 <= e)%Z) w -> w <> [] -> forall T, 
  Forall (fun el => forall t, (t <= T)%nat -> int_at X el 0 t) w -> forall fd, (forall s, 0 <= fd s) ->
  forall s, (s + length w <= T + 1)%nat -> fd s <= @finR R RNum (max1 X) w fd T.
Proof.
  intros Hw Hne T. induction w as [|el w IH]; [congruence|]. intros Hx fd Hp s Hs.
  inversion Hw as [|? ? Hel Hw' E1]; inversion Hx as [|? ? Hxe Hxw E2]; subst.
  destruct ex_e0 as (_ & E & _ & En).
  assert (Pe : forall t, 0 <= @extF R RNum (max1 X) 0 el fd t * 1) by (intros t; rewrite Rmult_1_r; apply ext_nonneg0; [exact Hel|apply Hp]).
  assert (L : fd s <= accum Rplus (fun t => @extF R RNum (max1 X) 0 el fd t * 1) s).
  { eapply Rle_trans; [|apply accum_ge; exact Pe]. rewrite Rmult_1_r. apply ext_dom; [exact Hel|apply Hxe; cbn [length] in Hs; lia|apply Hp]. }
  destruct w as [|el2 w].
  - cbn [finR]. cbn [nadd nmul RNum]. rewrite E, En, Rmult_1_r. cbn [length] in Hs.
    eapply Rle_trans; [exact L|]. apply accum_mono; [exact Pe|lia].
  - change (fd s <= @finR R RNum (max1 X) (el2 :: w) (fun t => @shiftF R RNum (accum Rplus (fun t => @extF R RNum (max1 X) 0 el fd t * @e0 R RNum)) t * @e0n R RNum) T).
    rewrite E, En. eapply Rle_trans; [|apply (IH Hw' ltac:(discriminate) Hxw) with (s := S s)].
    + cbn [shiftF]. rewrite Rmult_1_r. exact L.
    + intros [|r]; cbn [shiftF]; cbn [nzero RNum]; [lra|]. rewrite Rmult_1_r. apply accum_pos. exact Pe.
    + cbn [length] in *. lia.
Qed.
Lemma finR_exact X w : Forall (Forall (fun e => 0 <= e)%Z) w -> w <> [] -> forall T, 
  Forall (fun el => forall t, (t <= T)%nat -> int_at X el 0 t) w -> forall f' f fd, (forall s, 0 <= fd s) ->
  (forall s, (s + length w <= T + 1)%nat -> good (f' s) (f s) (fd s)) ->
  @finR R RNum (max1 X) w fd T <= B -> @finR R Fl X w f' T = @finR R RNum X w f T.
Proof.
  intros Hw Hne T. induction w as [|el w IH]; [congruence|]. intros Hx f' f fd Hp Hf HB.
  inversion Hw as [|? ? Hel Hw' E1]; inversion Hx as [|? ? Hxe Hxw E2]; subst.
  destruct ex_e0 as (F & E & Fn & En).
  assert (Pe : forall t, 0 <= @extF R RNum (max1 X) 0 el fd t * 1) by (intros t; rewrite Rmult_1_r; apply ext_nonneg0; [exact Hel|apply Hp]).
  (* the partial sums *)
  assert (G : forall s, (s + length (el :: w) <= T + 1)%nat -> accum Rplus (fun t => @extF R RNum (max1 X) 0 el fd t * 1) s <= B ->
    good (accum (f_add o) (fun t => f_mul o (@extF R Fl X 0 el f' t) 1) s) (accum Rplus (fun t => @extF R RNum X 0 el f t * 1) s)
         (accum Rplus (fun t => @extF R RNum (max1 X) 0 el fd t * 1) s)).
  { intros s Hs HBs. apply accum_good; [exact Pe| |exact HBs]. intros r Hr.
    assert (Q : @extF R RNum (max1 X) 0 el fd r <= B).
    { pose proof (accum_ge _ r Pe) as Q1. cbn beta in Q1; rewrite Rmult_1_r in Q1. pose proof (accum_mono _ r s Pe Hr). lra. }
    apply ex_mul1; [|exact Q]. apply ext_good; [exact Hel|apply Hxe; cbn [length] in Hs; lia|apply Hf; lia|exact Q]. }
  destruct w as [|el2 w].
  - cbn [finR] in *. cbn [nadd nmul RNum] in *. change (@nadd R Fl) with (f_add o). change (@nmul R Fl) with (f_mul o).
    rewrite E, En in *. rewrite F, Fn. rewrite Rmult_1_r in HB.
    apply (ex_mul1 _ _ (accum Rplus (fun t => @extF R RNum (max1 X) 0 el fd t * 1) T)); [|exact HB]. apply G; [cbn; lia|exact HB].
  - change (@finR R RNum (max1 X) (el2 :: w) (fun t => @shiftF R RNum (accum Rplus (fun t => @extF R RNum (max1 X) 0 el fd t * @e0 R RNum)) t * @e0n R RNum) T <= B) in HB.
    change (@finR R Fl X (el2 :: w) (fun t => f_mul o (@shiftF R Fl (accum (f_add o) (fun t => f_mul o (@extF R Fl X 0 el f' t) (@e0 R Fl))) t) (@e0n R Fl)) T
      = @finR R RNum X (el2 :: w) (fun t => @shiftF R RNum (accum Rplus (fun t => @extF R RNum X 0 el f t * @e0 R RNum)) t * @e0n R RNum) T).
    rewrite E, En in *. rewrite F, Fn.
    assert (Pn : forall s, 0 <= @shiftF R RNum (accum Rplus (fun t => @extF R RNum (max1 X) 0 el fd t * 1)) s * 1).
    { intros [|r]; cbn [shiftF]; cbn [nzero RNum]; [lra|]. rewrite Rmult_1_r. apply accum_pos. exact Pe. }
    eapply (IH Hw' ltac:(discriminate) Hxw _ _ _ Pn); [|exact HB].
    intros s Hs.
    assert (Dm : @shiftF R RNum (accum Rplus (fun t => @extF R RNum (max1 X) 0 el fd t * 1)) s * 1 <= B).
    { eapply Rle_trans; [|exact HB]. apply (finR_dom X (el2 :: w) Hw' ltac:(discriminate) T Hxw _ Pn s Hs). }
    rewrite Rmult_1_r in Dm. apply ex_mul1; [|exact Dm]. destruct s as [|s]; cbn [shiftF] in *.
    + cbn [nzero RNum Fl FlNum]. split; [reflexivity|]. split; [apply int0|]. rewrite Rabs_R0. lra.
    + apply G; [cbn [length] in *; lia|exact Dm].
Qed.

(** Maxima. *)
Lemma amax_pos fd t : (forall s, 0 <= fd s) -> 0 <= accum (@nmax R RNum) fd t.
Proof. intros Hf. induction t as [|t IH]; cbn [accum]; [apply Hf|]. rewrite nmax_R. pose proof (Rmax_l (accum nmax fd t) (fd (S t))). lra. Qed.
Lemma amax_mono fd s t : (s <= t)%nat -> accum (@nmax R RNum) fd s <= accum (@nmax R RNum) fd t.
Proof. intros L. induction L as [|t L IH]; [lra|]. cbn [accum]. rewrite nmax_R. pose proof (Rmax_l (accum nmax fd t) (fd (S t))). lra. Qed.
Lemma amax_ge fd s : fd s <= accum (@nmax R RNum) fd s.
Proof. destruct s as [|s]; cbn [accum]; [lra|]. rewrite nmax_R. apply Rmax_r. Qed.
Lemma amax_good f' f fd t : (forall s, (s <= t)%nat -> good (f' s) (f s) (fd s)) ->
  good (accum (@nmax R Fl) f' t) (accum (@nmax R RNum) f t) (accum (@nmax R RNum) fd t).
Proof.
  induction t as [|t IH]; intros Hf; cbn [accum] in *; [apply Hf; lia|].
  destruct IH as (E & Hi & Ha); [intros s Hs; apply Hf; lia|]. destruct (Hf (S t) ltac:(lia)) as (E2 & Hi2 & Ha2).
  change (@nmax R Fl) with (@nmax R RNum) in *. rewrite !nmax_R. rewrite E, E2.
  split; [reflexivity|]. split; [now apply is_int_max|].
  pose proof (Rmax_l (accum nmax fd t) (fd (S t))). pose proof (Rmax_r (accum nmax fd t) (fd (S t))).
  unfold Rmax at 1. destruct (Rle_dec _ _); lra.
Qed.
Lemma finB_dom X w : Forall (Forall (fun e => 0 <= e)%Z) w -> forall T, 
  Forall (fun el => forall t, (t <= T)%nat -> int_at X el 0 t) w -> forall fd, (forall s, 0 <= fd s) ->
  fd T <= @finB R RNum (max1 X) w fd T /\ forall s, 0 <= @finB R RNum (max1 X) w fd s.
Proof.
  intros Hw T. induction w as [|el w IH]; intros Hx fd Hp; [split; [cbn; lra|exact Hp]|].
  inversion Hw as [|? ? Hel Hw' E1]; inversion Hx as [|? ? Hxe Hxw E2]; subst.
  destruct ex_e0 as (_ & E & _ & En). cbn [finB]. cbn [nmul RNum]. rewrite E, En.
  assert (Pe : forall t, 0 <= @extF R RNum (max1 X) 0 el fd t * 1) by (intros t; rewrite Rmult_1_r; apply ext_nonneg0; [exact Hel|apply Hp]).
  assert (Pc : forall t, 0 <= accum (@nmax R RNum) (fun t => @extF R RNum (max1 X) 0 el fd t * 1) t * 1) by (intros t; rewrite Rmult_1_r; apply amax_pos; exact Pe).
  destruct (IH Hw' Hxw _ Pc) as [I1 I2]. split; [|exact I2].
  eapply Rle_trans; [|exact I1]. rewrite Rmult_1_r. eapply Rle_trans; [|apply amax_ge]. rewrite Rmult_1_r.
  apply ext_dom; [exact Hel|apply Hxe; lia|apply Hp].
Qed.
Lemma finB_mono_aux X w T fd el : Forall (Forall (fun e => 0 <= e)%Z) w ->
  Forall (fun el => forall t, (t <= T)%nat -> int_at X el 0 t) w -> (forall s, 0 <= fd s) -> Forall (fun e => 0 <= e)%Z el ->
  accum (@nmax R RNum) (fun t => @extF R RNum (max1 X) 0 el fd t * 1) T * 1 <=
  @finB R RNum (max1 X) w (fun t => accum (@nmax R RNum) (fun t => @extF R RNum (max1 X) 0 el fd t * 1) t * 1) T.
Proof.
  intros Hw Hx Hp Hel. apply (finB_dom X w Hw T Hx (fun t => accum (@nmax R RNum) (fun t => @extF R RNum (max1 X) 0 el fd t * 1) t * 1)).
  intros t. rewrite Rmult_1_r. apply amax_pos. intros s. rewrite Rmult_1_r. apply ext_nonneg0; [exact Hel|apply Hp].
Qed.
Lemma finB_exact X w : Forall (Forall (fun e => 0 <= e)%Z) w -> forall T, 
  Forall (fun el => forall t, (t <= T)%nat -> int_at X el 0 t) w -> forall f' f fd, (forall s, 0 <= fd s) ->
  (forall s, (s <= T)%nat -> good (f' s) (f s) (fd s)) ->
  @finB R RNum (max1 X) w fd T <= B -> @finB R Fl X w f' T = @finB R RNum X w f T.
Proof.
  intros Hw T. induction w as [|el w IH]; intros Hx f' f fd Hp Hf HB. { cbn [finB]. apply Hf. lia. }
  inversion Hw as [|? ? Hel Hw' E1]; inversion Hx as [|? ? Hxe Hxw E2]; subst.
  destruct ex_e0 as (F & E & Fn & En). cbn [finB] in *. cbn [nmul RNum] in *. change (@nmul R Fl) with (f_mul o).
  rewrite E, En in *. rewrite F, Fn.
  assert (Pe : forall t, 0 <= @extF R RNum (max1 X) 0 el fd t * 1) by (intros t; rewrite Rmult_1_r; apply ext_nonneg0; [exact Hel|apply Hp]).
  assert (Pc : forall t, 0 <= accum (@nmax R RNum) (fun t => @extF R RNum (max1 X) 0 el fd t * 1) t * 1) by (intros t; rewrite Rmult_1_r; apply amax_pos; exact Pe).
  eapply (IH Hw' Hxw _ _ _ Pc); [|exact HB].
  pose proof (finB_mono_aux X w T fd el Hw' Hxw Hp Hel) as Dm. rewrite Rmult_1_r in Dm.
  intros s Hs. assert (Ds : accum (@nmax R RNum) (fun t => @extF R RNum (max1 X) 0 el fd t * 1) s <= B).
  { pose proof (amax_mono (fun t => @extF R RNum (max1 X) 0 el fd t * 1) s T Hs). lra. }
  apply ex_mul1; [|exact Ds]. apply amax_good. intros r Hr.
  assert (Dr : @extF R RNum (max1 X) 0 el fd r <= B).
  { pose proof (amax_mono (fun t => @extF R RNum (max1 X) 0 el fd t * 1) r s Hr).
    pose proof (amax_ge (fun t => @extF R RNum (max1 X) 0 el fd t * 1) r). cbn beta in *. lra. }
  apply ex_mul1; [|exact Dr]. apply ext_good; [exact Hel|apply Hxe; lia|apply Hf; lia|exact Dr].
Qed.

(** Arctic *)
Definition int_rows (X : list (list R)) : Prop := Forall (Forall is_int) X.
Lemma int_row X d t : int_rows X -> is_int (@rowF R RNum X d t).
Proof.
  intros Hx. unfold rowF. cbn [nzero RNum]. destruct (Nat.lt_ge_cases d (length X)) as [L|L].
  - destruct (Nat.lt_ge_cases t (length (nth d X []))) as [L2|L2].
    + unfold int_rows in Hx. rewrite Forall_forall in Hx. specialize (Hx _ (nth_In _ [] L)). rewrite Forall_forall in Hx. apply Hx. now apply nth_In.
    + rewrite nth_overflow by exact L2. apply int0.
  - rewrite (nth_overflow X) by exact L. destruct t; apply int0.
Qed.
Lemma aext_dom X el t : forall d fd, fd t <= @aextF R RNum (absS X) d (map Z.abs el) fd t.
Proof.
  induction el as [|e el IH]; intros d fd; [cbn; lra|]. cbn [aextF map]. eapply Rle_trans; [|apply IH].
  cbn [nadd nmul nofZ RNum]. rewrite rowF_abs, abs_IZR. pose proof (Rabs_pos (@rowF R RNum X d t)). pose proof (Rabs_pos (IZR e)). nra.
Qed.
Lemma aext_good X el t : int_rows X -> forall d f' f fd, good (f' t) (f t) (fd t) ->
  @aextF R RNum (absS X) d (map Z.abs el) fd t <= B ->
  good (@aextF R Fl X d el f' t) (@aextF R RNum X d el f t) (@aextF R RNum (absS X) d (map Z.abs el) fd t).
Proof.
  intros Hx. induction el as [|e el IH]; intros d f' f fd Hf HB; [exact Hf|]. cbn [aextF map] in *.
  apply IH; [|exact HB]. pose proof (aext_dom X el t (S d) (fun t => nadd (fd t) (nmul (@rowF R RNum (absS X) d t) (nofZ (Z.abs e))))) as D.
  cbn [nadd nmul nofZ RNum] in *. change (@nadd R Fl) with (f_add o). change (@nmul R Fl) with (f_mul o). change (@nofZ R Fl) with IZR.
  change (@rowF R Fl) with (@rowF R RNum). rewrite rowF_abs, abs_IZR in *. destruct Hf as (Ef & Hi & Ha).
  pose proof (Rabs_pos (f t)) as Pf.
  assert (M : Rabs (@rowF R RNum X d t * IZR e) = Rabs (@rowF R RNum X d t) * Rabs (IZR e)) by apply Rabs_mult.
  pose proof (Rabs_pos (@rowF R RNum X d t * IZR e)) as Pm. pose proof (Rabs_triang (f t) (@rowF R RNum X d t * IZR e)) as Tr.
  rewrite (proj1 Ex); [|apply int_row; exact Hx|apply is_int_IZR|lra].
  assert (Im : is_int (@rowF R RNum X d t * IZR e)) by (apply is_int_mul; [apply int_row; exact Hx|apply is_int_IZR]).
  rewrite Ef. rewrite (proj1 (proj2 Ex)); [|exact Hi|exact Im|lra].
  split; [reflexivity|]. split; [now apply is_int_add|lra].
Qed.
Lemma finA_dom X w T : forall fd, fd T <= @finA R RNum (absS X) (absW w) fd T.
Proof.
  induction w as [|el w IH]; intros fd; [cbn; lra|]. cbn [finA absW map]. eapply Rle_trans; [|apply IH].
  assert (Z1 : @z0 R RNum = 0) by (unfold z0; cbn; ring). cbn [nadd nsub RNum]. rewrite Z1, Rminus_0_r.
  eapply Rle_trans; [|apply amax_ge]. rewrite Rplus_0_r. apply aext_dom.
Qed.
Lemma finA_exact X w T : int_rows X -> forall f' f fd,
  (forall s, (s <= T)%nat -> good (f' s) (f s) (fd s)) ->
  @finA R RNum (absS X) (absW w) fd T <= B -> @finA R Fl X w f' T = @finA R RNum X w f T.
Proof.
  intros Hx. induction w as [|el w IH]; intros f' f fd Hf HB. { cbn [finA]. apply Hf. lia. }
  cbn [finA absW map] in *. fold (absW w) in HB. eapply IH; [|exact HB].
  pose proof (finA_dom X w T (fun t => nsub (accum nmax (fun t => nadd (@aextF R RNum (absS X) 0 (map Z.abs el) fd t) z0) t) z0)) as Dm.
  assert (Z1 : @z0 R RNum = 0) by (unfold z0; cbn; ring).
  assert (Z' : @z0 R Fl = 0) by exact ex_mul00.
  cbn [nadd nsub RNum] in *. change (@nadd R Fl) with (f_add o). change (@nsub R Fl) with (f_sub o). rewrite Z1 in *. rewrite Z'. rewrite Rminus_0_r in Dm.
  set (fs := fun t => @aextF R RNum (absS X) 0 (map Z.abs el) fd t + 0) in *.
  intros s Hs. assert (Ds : accum nmax fs s <= B) by (pose proof (amax_mono fs s T Hs); lra).
  assert (G : good (accum (@nmax R Fl) (fun t => f_add o (@aextF R Fl X 0 el f' t) 0) s) (accum nmax (fun t => @aextF R RNum X 0 el f t + 0) s) (accum nmax fs s)).
  { apply amax_good. intros r Hr. assert (Dr : fs r <= B) by (pose proof (amax_mono fs r s Hr); pose proof (amax_ge fs r); lra).
    unfold fs in Dr |- *. rewrite Rplus_0_r in Dr.
    destruct (aext_good X el r Hx 0 f' f fd (Hf r ltac:(lia)) Dr) as (Ea & Hi & Ha). rewrite !Rplus_0_r. rewrite Ea.
    split; [|split; assumption]. rewrite (proj1 (proj2 Ex)); [ring|exact Hi|apply int0|rewrite Rplus_0_r; lra]. }
  destruct G as (Eg & Hi & Ha). rewrite Eg. rewrite (proj1 (proj2 (proj2 Ex))); [|exact Hi|apply int0|rewrite Rminus_0_r; lra].
  split; [reflexivity|]. rewrite !Rminus_0_r. split; assumption.
Qed.
End Ints.
