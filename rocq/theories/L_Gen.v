(** Causality and independence of samples, for every number type. *)
From Coq Require Import List Arith ZArith Bool Lia.
From Verif Require Import Num Arr L_Arr M_Str M_Semiring M_Words M_ISS L_ISS.
Import ListNotations.

Lemma removelast_firstn_ {A} (l : list A) k : k <= length l -> removelast (firstn k l) = firstn (k - 1) l.
Proof.
  revert k. induction l as [|x l IH]; intros [|k] Hk; cbn [firstn length] in *; try reflexivity; try lia.
  destruct k as [|k]; [reflexivity|]. destruct l as [|y l]; [cbn in Hk; lia|].
  specialize (IH (S k) ltac:(lia)). cbn [firstn Nat.sub] in *.
  change (x :: removelast (y :: firstn k l) = x :: firstn k (y :: l)). f_equal.
  rewrite IH. now rewrite Nat.sub_0_r.
Qed.
Lemma firstn_removelast_ {A} (l : list A) k : k < length l -> firstn k (removelast l) = firstn k l.
Proof.
  revert k. induction l as [|x l IH]; intros [|k] Hk; cbn [length] in *; try lia; [reflexivity|].
  destruct l as [|y l]; [cbn in Hk; lia|].
  change (removelast (x :: y :: l)) with (x :: removelast (y :: l)). cbn [firstn].
  f_equal. apply IH. lia.
Qed.

Section Gen.
Context {T : Type} `{Num T}.
Variable m n : nat.
Hypothesis Hmn : m <= n.
Let cut {A} (l : list A) := firstn m l.

Definition good (l : list T) := length l = n \/ l = [].

Lemma cut_map2 {A B C} (f : A -> B -> C) l1 l2 : cut (map2 f l1 l2) = map2 f (cut l1) (cut l2).
Proof. symmetry. apply map2_firstn. Qed.
Lemma cut_map {A B} (f : A -> B) l : cut (map f l) = map f (cut l).
Proof. unfold cut. clear. revert m. induction l as [|x l IH]; intros [|k]; cbn; congruence. Qed.
Lemma firstn_scan {A} (op : A -> A -> A) l : forall k a, firstn k (scan op a l) = scan op a (firstn k l).
Proof. induction l as [|x l IH]; intros [|k] a; cbn; try reflexivity. now rewrite IH. Qed.
Lemma firstn_accumulate {A} (op : A -> A -> A) k l : firstn k (accumulate op l) = accumulate op (firstn k l).
Proof. destruct l as [|x l], k; cbn; try reflexivity. now rewrite firstn_scan. Qed.
Lemma cut_accumulate {A} (op : A -> A -> A) l : cut (accumulate op l) = accumulate op (cut l).
Proof. apply firstn_accumulate. Qed.
Lemma firstn_repeat_ {A} (x : A) k j : firstn k (repeat x j) = repeat x (Nat.min k j).
Proof. revert j. induction k; intros [|j]; cbn; congruence. Qed.
Lemma shift0_cons (x : T) l : shift0 (x :: l) = nzero :: removelast (x :: l).
Proof. reflexivity. Qed.
Lemma cut_shift0 (l : list T) : good l -> cut (shift0 l) = shift0 (cut l).
Proof.
  assert (E0 : cut (shift0 (@nil T)) = shift0 (cut (@nil T))).
  { unfold cut. change (shift0 (@nil T)) with (@nil T). now rewrite !firstn_nil. }
  intros [Hl| ->]; [|exact E0]. destruct l as [|x l]; [exact E0|].
  unfold cut. destruct m as [|k] eqn:Em; [reflexivity|].
  rewrite shift0_cons. cbn [firstn]. rewrite (shift0_cons x (firstn k l)). f_equal.
  change (x :: firstn k l) with (firstn (S k) (x :: l)).
  rewrite removelast_firstn_ by lia. rewrite firstn_removelast_ by lia. f_equal. lia.
Qed.
Lemma good_map2 (f : T -> T -> T) a b : good a -> good b -> good (map2 f a b).
Proof.
  intros [Ha| ->] [Hb| ->]; [|right..]; try reflexivity; [|now destruct a].
  left. now rewrite map2_length, Ha, Hb, Nat.min_id.
Qed.
Lemma good_map (f : T -> T) a : good a -> good (map f a).
Proof. intros [Ha| ->]; [left; now rewrite map_length|now right]. Qed.
Lemma good_accumulate (f : T -> T -> T) a : good a -> good (accumulate f a).
Proof. intros [Ha| ->]; [left; now rewrite accumulate_length|now right]. Qed.
Lemma shift0_length (l : list T) : length (shift0 l) = length l.
Proof.
  destruct l as [|x l]; [reflexivity|]. rewrite shift0_cons. cbn [length]. f_equal.
  revert x. induction l as [|y l IH]; intros x; [reflexivity|].
  change (removelast (x :: y :: l)) with (x :: removelast (y :: l)). cbn [length]. f_equal. apply IH.
Qed.
Lemma good_shift0 a : good a -> good (shift0 a).
Proof. intros [Ha| ->]; [left; now rewrite shift0_length|now right]. Qed.
Lemma good_repeat (x : T) : good (repeat x n).
Proof. left. apply repeat_length. Qed.

Variable Z : mts T.
Hypothesis HZ : Z <> [] /\ Forall (fun x => length x = n) Z.
Let Z' := map cut Z.

Lemma tlen_n : tlen Z = n.
Proof. destruct HZ as [Hne HF]. destruct Z as [|x r]; [congruence|]. now inversion HF. Qed.
Lemma tlen_cut : tlen Z' = m.
Proof.
  destruct HZ as [Hne HF]. unfold Z'. destruct Z as [|x r]; [congruence|]. inversion HF; subst.
  cbn. unfold cut. rewrite firstn_length. lia.
Qed.
Lemma row_cut d : nth d Z' [] = cut (nth d Z []).
Proof.
  unfold Z'. assert (E : cut (@nil T) = []) by (unfold cut; apply firstn_nil).
  rewrite <- E at 1. apply map_nth.
Qed.
Lemma row_good d : good (nth d Z []).
Proof.
  destruct (Nat.ltb_spec d (length Z)) as [Hd|Hd].
  - left. destruct HZ as [_ HF]. rewrite Forall_forall in HF. apply HF. now apply nth_In.
  - right. now apply nth_overflow.
Qed.
Lemma cut_repeat (x : T) : cut (repeat x n) = repeat x m.
Proof. unfold cut. rewrite firstn_repeat_. f_equal. lia. Qed.

Lemma apply_letter_cut d o tmp : good tmp ->
  cut (apply_letter (nth d Z []) o tmp) = apply_letter (cut (nth d Z [])) o (cut tmp)
  /\ good (apply_letter (nth d Z []) o tmp).
Proof.
  intros Hg. unfold apply_letter. pose proof (row_good d) as Hr.
  destruct (0 <? o)%Z; [|destruct (o <? 0)%Z; [|auto]].
  - generalize (Z.to_nat o) as k. induction k as [|k [IH1 IH2]]; [auto|].
    split; [|exact (good_map2 _ _ _ IH2 Hr)].
    change (cut (map2 nmul (Nat.iter k (fun t => vmul t (nth d Z [])) tmp) (nth d Z []))
      = map2 nmul (Nat.iter k (fun t => vmul t (cut (nth d Z []))) (cut tmp)) (cut (nth d Z []))).
    now rewrite cut_map2, IH1.
  - generalize (Z.to_nat (- o)) as k. induction k as [|k [IH1 IH2]]; [auto|].
    split; [|exact (good_map2 _ _ _ IH2 Hr)].
    change (cut (map2 ndiv (Nat.iter k (fun t => vdiv t (nth d Z [])) tmp) (nth d Z []))
      = map2 ndiv (Nat.iter k (fun t => vdiv t (cut (nth d Z []))) (cut tmp)) (cut (nth d Z []))).
    now rewrite cut_map2, IH1.
Qed.
Lemma apply_ext_cut el : forall d tmp, good tmp ->
  cut (apply_ext Z d el tmp) = apply_ext Z' d el (cut tmp) /\ good (apply_ext Z d el tmp).
Proof.
  induction el as [|o el IH]; intros d tmp Hg; cbn [apply_ext]; [auto|].
  destruct (apply_letter_cut d o tmp Hg) as [E1 E2]. rewrite row_cut, <- E1. now apply IH.
Qed.
Lemma arctic_ext_cut el : forall d tmp, good tmp ->
  cut (arctic_ext Z d el tmp) = arctic_ext Z' d el (cut tmp) /\ good (arctic_ext Z d el tmp).
Proof.
  induction el as [|o el IH]; intros d tmp Hg; cbn [arctic_ext]; [auto|].
  rewrite row_cut. unfold vadd at 2, vscale at 2. rewrite <- cut_map, <- cut_map2.
  apply IH. apply good_map2; auto. apply good_map, row_good.
Qed.

Variable g : list T.
Hypothesis Hg : length g = n.
Let g' := cut g.
Lemma good_g : good g. Proof. now left. Qed.
Lemma expw_cut a : cut (expw g a) = expw g' a.
Proof. unfold expw, vexp, vscale. now rewrite !cut_map. Qed.
Lemma expwn_cut a : cut (expwn g a) = expwn g' a.
Proof. unfold expwn, vexp, vscale, vneg. now rewrite !cut_map. Qed.
Lemma vscale_cut a : cut (vscale g a) = vscale g' a.
Proof. unfold vscale. now rewrite cut_map. Qed.
Lemma good_expw a : good (expw g a). Proof. unfold expw, vexp, vscale. now repeat apply good_map; apply good_g. Qed.
Lemma good_expwn a : good (expwn g a). Proof. unfold expwn, vexp, vscale, vneg. now repeat apply good_map; apply good_g. Qed.
Lemma good_vscale a : good (vscale g a). Proof. unfold vscale. apply good_map, good_g. Qed.

Lemma map_upd {A B} (f : A -> B) i v l : map f (upd i v l) = upd i (f v) (map f l).
Proof. revert i. induction l as [|x l IH]; intros [|i]; cbn; congruence. Qed.
Lemma save_cut len k ext (row : list T) result :
  map cut (save len k ext row result) = save len k ext (cut row) (map cut result).
Proof. unfold save. destruct (len - k <=? ext); [apply map_upd|reflexivity]. Qed.
Lemma map_repeat_ {A B} (f : A -> B) x k : map f (repeat x k) = repeat (f x) k.
Proof. induction k; cbn; congruence. Qed.

Lemma cut_cumsum (l : list T) : cut (cumsum l) = cumsum (cut l).
Proof. apply cut_accumulate. Qed.
Lemma cut_cummax (l : list T) : cut (cummax l) = cummax (cut l).
Proof. apply cut_accumulate. Qed.
Lemma cut_vmul (a b : list T) : cut (vmul a b) = vmul (cut a) (cut b).
Proof. apply cut_map2. Qed.
Lemma cut_vadd (a b : list T) : cut (vadd a b) = vadd (cut a) (cut b).
Proof. apply cut_map2. Qed.
Lemma cut_vsub (a b : list T) : cut (vsub a b) = vsub (cut a) (cut b).
Proof. apply cut_map2. Qed.
Ltac cuts := rewrite ?save_cut, ?cut_cumsum, ?cut_cummax, ?cut_vmul, ?cut_vadd, ?cut_vsub,
   ?expw_cut, ?expwn_cut, ?vscale_cut.

Hint Resolve good_map2 good_map good_accumulate good_shift0 good_repeat row_good good_g good_expw good_expwn good_vscale : good.
Ltac fin IH := rewrite IH; [rewrite save_cut|]; auto with good.

Lemma reals_loop_cut alpha len ext word : forall k tmp result, good tmp ->
  map cut (reals_loop Z alpha g len ext k word tmp result)
  = reals_loop Z' alpha g' len ext k word (cut tmp) (map cut result).
Proof.
  induction word as [|el word IH]; intros k tmp result Ht; cbn [reals_loop]; [reflexivity|].
  set (t1 := if (0 <? k)%nat then shift0 tmp else tmp).
  assert (E1 : cut t1 = (if (0 <? k)%nat then shift0 (cut tmp) else cut tmp) /\ good t1).
  { unfold t1. destruct (0 <? k)%nat; split; auto with good. now apply cut_shift0. }
  destruct E1 as [E1 G1]. rewrite <- E1.
  destruct (apply_ext_cut el 0 t1 G1) as [E2 G2]. rewrite <- E2.
  set (t2 := apply_ext Z 0 el t1) in *.
  set (t3 := if (0 <? k)%nat then vmul t2 (expwn g (nth (k - 1) alpha nzero)) else t2).
  assert (E3 : cut t3 = (if (0 <? k)%nat then vmul (cut t2) (expwn g' (nth (k - 1) alpha nzero)) else cut t2) /\ good t3).
  { unfold t3. destruct (0 <? k)%nat; split; auto with good; [|now apply good_map2; auto with good].
    unfold vmul. now rewrite cut_map2, expwn_cut. }
  destruct E3 as [E3 G3]. rewrite <- E3.
  rewrite IH.
  - destruct (k <? len - 1)%nat; cuts; rewrite ?cut_shift0 by assumption; reflexivity.
  - destruct (k <? len - 1)%nat; [|exact G3]. unfold cumsum, vmul. auto with good.
Qed.
Lemma total_reals_loop_cut alpha len ext word : forall k tmp result, good tmp ->
  map cut (total_reals_loop Z alpha g len ext k word tmp result)
  = total_reals_loop Z' alpha g' len ext k word (cut tmp) (map cut result).
Proof.
  induction word as [|el word IH]; intros k tmp result Ht; cbn [total_reals_loop]; [reflexivity|].
  destruct (apply_ext_cut el 0 tmp Ht) as [E2 G2]. rewrite <- E2.
  set (t2 := apply_ext Z 0 el tmp) in *.
  set (t3 := cumsum (vmul t2 (expw g (nth k alpha nzero)))).
  assert (G3 : good t3) by (unfold t3, cumsum, vmul; auto with good).
  assert (E3 : cut t3 = cumsum (vmul (cut t2) (expw g' (nth k alpha nzero)))).
  { unfold t3, cumsum, vmul. now rewrite cut_accumulate, cut_map2, expw_cut. }
  rewrite <- E3. rewrite IH.
  - destruct (k <? len - 1)%nat; cuts; rewrite ?cut_shift0 by assumption; reflexivity.
  - destruct (k <? len - 1)%nat; [|exact G3]. unfold vmul. auto with good.
Qed.
Lemma arctic_loop_cut alpha len ext word : forall k tmp result, good tmp ->
  map cut (arctic_loop Z alpha g len ext k word tmp result)
  = arctic_loop Z' alpha g' len ext k word (cut tmp) (map cut result).
Proof.
  induction word as [|el word IH]; intros k tmp result Ht; cbn [arctic_loop]; [reflexivity|].
  destruct (arctic_ext_cut el 0 tmp Ht) as [E2 G2]. rewrite <- E2.
  set (t2 := arctic_ext Z 0 el tmp) in *.
  set (t3 := if (0 <? k)%nat then vsub t2 (vscale g (nth (k - 1) alpha nzero)) else t2).
  assert (E3 : cut t3 = (if (0 <? k)%nat then vsub (cut t2) (vscale g' (nth (k - 1) alpha nzero)) else cut t2) /\ good t3).
  { unfold t3. destruct (0 <? k)%nat; split; auto with good; [|now apply good_map2; auto with good].
    unfold vsub. now rewrite cut_map2, vscale_cut. }
  destruct E3 as [E3 G3]. rewrite <- E3.
  rewrite IH.
  - destruct (k <? len - 1)%nat; cuts; rewrite ?cut_shift0 by assumption; reflexivity.
  - destruct (k <? len - 1)%nat; [|exact G3]. unfold cummax, vadd. auto with good.
Qed.
Lemma total_arctic_loop_cut alpha len ext word : forall k tmp result, good tmp ->
  map cut (total_arctic_loop Z alpha g len ext k word tmp result)
  = total_arctic_loop Z' alpha g' len ext k word (cut tmp) (map cut result).
Proof.
  induction word as [|el word IH]; intros k tmp result Ht; cbn [total_arctic_loop]; [reflexivity|].
  destruct (arctic_ext_cut el 0 tmp Ht) as [E2 G2]. rewrite <- E2.
  set (t2 := arctic_ext Z 0 el tmp) in *.
  set (t3 := cummax (vadd t2 (vscale g (nth k alpha nzero)))).
  assert (G3 : good t3) by (unfold t3, cummax, vadd; auto with good).
  assert (E3 : cut t3 = cummax (vadd (cut t2) (vscale g' (nth k alpha nzero)))).
  { unfold t3, cummax, vadd. now rewrite cut_accumulate, cut_map2, vscale_cut. }
  rewrite <- E3. rewrite IH.
  - destruct (k <? len - 1)%nat; cuts; rewrite ?cut_shift0 by assumption; reflexivity.
  - destruct (k <? len - 1)%nat; [|exact G3]. unfold vsub. auto with good.
Qed.
Lemma bayesian_loop_cut alpha len ext word : forall k tmp result, good tmp ->
  map cut (bayesian_loop Z alpha g len ext k word tmp result)
  = bayesian_loop Z' alpha g' len ext k word (cut tmp) (map cut result).
Proof.
  induction word as [|el word IH]; intros k tmp result Ht; cbn [bayesian_loop]; [reflexivity|].
  destruct (apply_ext_cut el 0 tmp Ht) as [E2 G2]. rewrite <- E2.
  set (t2 := apply_ext Z 0 el tmp) in *.
  set (t3 := if (0 <? k)%nat then vmul t2 (expwn g (nth (k - 1) alpha nzero)) else t2).
  assert (E3 : cut t3 = (if (0 <? k)%nat then vmul (cut t2) (expwn g' (nth (k - 1) alpha nzero)) else cut t2) /\ good t3).
  { unfold t3. destruct (0 <? k)%nat; split; auto with good; [|now apply good_map2; auto with good].
    unfold vmul. now rewrite cut_map2, expwn_cut. }
  destruct E3 as [E3 G3]. rewrite <- E3.
  rewrite IH.
  - destruct (k <? len - 1)%nat; cuts; rewrite ?cut_shift0 by assumption; reflexivity.
  - destruct (k <? len - 1)%nat; [|exact G3]. unfold cummax, vmul. auto with good.
Qed.
Lemma total_bayesian_loop_cut alpha len ext word : forall k tmp result, good tmp ->
  map cut (total_bayesian_loop Z alpha g len ext k word tmp result)
  = total_bayesian_loop Z' alpha g' len ext k word (cut tmp) (map cut result).
Proof.
  induction word as [|el word IH]; intros k tmp result Ht; cbn [total_bayesian_loop]; [reflexivity|].
  destruct (apply_ext_cut el 0 tmp Ht) as [E2 G2]. rewrite <- E2.
  set (t2 := apply_ext Z 0 el tmp) in *.
  set (t3 := cummax (vmul t2 (expw g (nth k alpha nzero)))).
  assert (G3 : good t3) by (unfold t3, cummax, vmul; auto with good).
  assert (E3 : cut t3 = cummax (vmul (cut t2) (expw g' (nth k alpha nzero)))).
  { unfold t3, cummax, vmul. now rewrite cut_accumulate, cut_map2, expw_cut. }
  rewrite <- E3. rewrite IH.
  - destruct (k <? len - 1)%nat; cuts; rewrite ?cut_shift0 by assumption; reflexivity.
  - destruct (k <? len - 1)%nat; [|exact G3]. unfold vmul. auto with good.
Qed.

Lemma fast_single_cut s word alpha ext total : is_argmax s = false ->
  map cut (fast_single s Z word alpha g ext total) = fast_single s Z' word alpha g' ext total.
Proof.
  intros Hs. destruct s as [|[]|]; try discriminate; cbn [fast_single]; destruct total.
  - unfold total_reals_single. rewrite total_reals_loop_cut; rewrite tlen_n; unfold ones, zeros; auto with good.
    now rewrite tlen_cut, map_repeat_, !cut_repeat.
  - unfold reals_single. rewrite reals_loop_cut; rewrite tlen_n; unfold ones, zeros; auto with good.
    now rewrite tlen_cut, map_repeat_, !cut_repeat.
  - unfold total_arctic_single. rewrite total_arctic_loop_cut; rewrite tlen_n; unfold ones, zeros; auto with good.
    now rewrite tlen_cut, map_repeat_, !cut_repeat.
  - unfold arctic_single. rewrite arctic_loop_cut; rewrite tlen_n; unfold ones, zeros; auto with good.
    now rewrite tlen_cut, map_repeat_, !cut_repeat.
  - unfold total_bayesian_single. rewrite total_bayesian_loop_cut; rewrite tlen_n; unfold ones, zeros; auto with good.
    now rewrite tlen_cut, map_repeat_, !cut_repeat.
  - unfold bayesian_single. rewrite bayesian_loop_cut; rewrite tlen_n; unfold ones, zeros; auto with good.
    now rewrite tlen_cut, map_repeat_, !cut_repeat.
Qed.

(** General words. *)
Definition causal_letter (l : bletter T) := l Z' = cut (l Z) /\ length (l Z) = n.

Lemma ext_value_cut o el : Forall causal_letter el ->
  cut (ext_value o Z el) = ext_value o Z' el /\ length (ext_value o Z el) = n.
Proof.
  intros Hel. unfold ext_value. rewrite tlen_n, tlen_cut.
  rewrite <- (cut_repeat (sr_one o)). generalize (repeat_length (sr_one o) n).
  generalize (repeat (sr_one o) n) as C. induction Hel as [|l el [Hl1 Hl2] Hel IH]; intros C HC; cbn [fold_left]; [auto|].
  rewrite Hl1, <- cut_map2. apply IH. rewrite map2_length. lia.
Qed.

Lemma firstn_mid (f : T -> T -> T) a : forall q k c,
  firstn q (firstn k a ++ map2 f (skipn k a) (skipn k c))
  = firstn k (firstn q a) ++ map2 f (skipn k (firstn q a)) (skipn k (firstn q c)).
Proof.
  induction a as [|x a IH]; intros q k c.
  - rewrite !firstn_nil, !skipn_nil. cbn. now rewrite firstn_nil.
  - destruct k as [|k].
    + cbn [firstn skipn app]. symmetry. apply map2_firstn.
    + destruct q as [|q].
      * cbn [firstn]. rewrite skipn_nil. reflexivity.
      * cbn [firstn skipn app]. f_equal. destruct c as [|y c].
        -- specialize (IH q k []). rewrite !firstn_nil, !skipn_nil in IH. exact IH.
        -- cbn [skipn firstn]. apply IH.
Qed.
Lemma firstn_tail (F : list T -> list T) (HF : forall k l, firstn k (F l) = F (firstn k l)) a : forall q k,
  firstn q (firstn k a ++ F (skipn k a)) = firstn k (firstn q a) ++ F (skipn k (firstn q a)).
Proof.
  assert (F0 : F [] = []).
  { pose proof (HF 0 []) as E. cbn in E. congruence. }
  induction a as [|x a IH]; intros q k.
  - rewrite !firstn_nil, !skipn_nil. cbn. rewrite F0. now rewrite firstn_nil.
  - destruct k as [|k]; [cbn; apply HF|]. destruct q as [|q]; cbn [firstn skipn app].
    + symmetry. apply F0.
    + f_equal. apply IH.
Qed.

Lemma slow_loop_cut o (Hcum : forall k l, firstn k (sr_cum o l) = sr_cum o (firstn k l))
    (Hcl : forall l, length (sr_cum o l) = length l) len ext word :
  Forall (Forall causal_letter) word -> forall k tmp result, length tmp = n ->
  map cut (slow_loop o Z len ext k word tmp result)
  = slow_loop o Z' len ext k word (cut tmp) (map cut result).
Proof.
  induction 1 as [|el word Hel Hw IH]; intros k tmp result Ht; cbn [slow_loop]; [reflexivity|].
  destruct (ext_value_cut o el Hel) as [E1 G1]. rewrite <- E1.
  set (C := ext_value o Z el) in *.
  set (t1 := if (0 <? k)%nat then shift0 tmp else tmp).
  assert (E2 : cut t1 = (if (0 <? k)%nat then shift0 (cut tmp) else cut tmp) /\ length t1 = n).
  { unfold t1. destruct (0 <? k)%nat; split; auto; [apply cut_shift0; now left|now rewrite shift0_length]. }
  destruct E2 as [E2 G2]. rewrite <- E2.
  set (t2 := firstn k t1 ++ map2 (sr_op o) (skipn k t1) (skipn k C)).
  assert (E3 : cut t2 = firstn k (cut t1) ++ map2 (sr_op o) (skipn k (cut t1)) (skipn k (cut C)))
    by apply firstn_mid.
  rewrite <- E3.
  rewrite IH.
  - rewrite save_cut.
    assert (E4 : cut (firstn k t2 ++ sr_cum o (skipn k t2)) = firstn k (cut t2) ++ sr_cum o (skipn k (cut t2)))
      by apply (firstn_tail (sr_cum o) Hcum).
    rewrite E4. reflexivity.
  - rewrite app_length, Hcl, <- app_length, firstn_skipn. unfold t2.
    rewrite app_length, map2_length, firstn_length, !skipn_length. lia.
Qed.

Lemma slow_arctic_loop_cut o (Hcum : forall k l, firstn k (sr_cum o l) = sr_cum o (firstn k l))
    (Hcl : forall l, length (sr_cum o l) = length l) len ext word :
  Forall (Forall causal_letter) word -> forall k tmp result, length tmp = n ->
  map cut (slow_arctic_loop o Z len ext k word tmp result)
  = slow_arctic_loop o Z' len ext k word (cut tmp) (map cut result).
Proof.
  induction 1 as [|el word Hel Hw IH]; intros k tmp result Ht; cbn [slow_arctic_loop]; [reflexivity|].
  destruct (ext_value_cut o el Hel) as [E1 G1]. rewrite <- E1.
  rewrite IH.
  - rewrite save_cut.
    assert (E4 : cut (sr_cum o (map2 (sr_op o) tmp (ext_value o Z el)))
               = sr_cum o (map2 (sr_op o) (cut tmp) (cut (ext_value o Z el)))).
    { unfold cut at 1. rewrite Hcum. f_equal. apply cut_map2. }
    rewrite E4. reflexivity.
  - rewrite Hcl, map2_length. lia.
Qed.

Lemma general_single_cut s word ext : Forall (Forall causal_letter) word ->
  map cut (general_single s Z word ext) = general_single s Z' word ext.
Proof.
  intros Hw. destruct s as [|b|]; cbn [general_single].
  - unfold slow_single. rewrite slow_loop_cut; auto.
    + rewrite tlen_n, tlen_cut, map_repeat_. unfold zeros. now rewrite !cut_repeat.
    + intros. apply firstn_accumulate.
    + intros. apply accumulate_length.
    + rewrite tlen_n. apply repeat_length.
  - unfold slow_arctic_single. rewrite slow_arctic_loop_cut; auto.
    + rewrite tlen_n, tlen_cut, map_repeat_. unfold zeros. now rewrite !cut_repeat.
    + intros. apply firstn_accumulate.
    + intros. apply accumulate_length.
    + rewrite tlen_n. apply repeat_length.
  - unfold slow_single. rewrite slow_loop_cut; auto.
    + rewrite tlen_n, tlen_cut, map_repeat_. unfold zeros. now rewrite !cut_repeat.
    + intros. apply firstn_accumulate.
    + intros. apply accumulate_length.
    + rewrite tlen_n. apply repeat_length.
Qed.
End Gen.

(** * Samples *)
Section Samples.
Context {T : Type} `{Num T}.

(** The rows of one sample. [wt]: its lookup row and [total]. *)
Definition sample_sums (s : semiring) (w : wordv T) (ext : nat) (wt : option bool) (Z : mts T) (g : list T)
  : list (list T) :=
  match w with
  | WSimple exts alpha =>
      fast_single s Z exts (match wt with Some _ => alpha | None => zeros (length exts) end)
                  (match wt with Some _ => g | None => zeros (tlen Z) end) ext
                  (match wt with Some b => b | None => true end)
  | WGeneral exts => general_single s Z exts ext
  end.
Definition lookups (wt : option (weighting T)) (X : dataset T) : list (list T) :=
  match wt with Some w => wg_lookup w X | None => map (fun _ => []) X end.
Definition totals (wt : option (weighting T)) : option bool :=
  match wt with Some w => Some (wg_total w) | None => None end.

Lemma iterated_sums_samples s X w ext wt : length (lookups wt X) = length X ->
  iterated_sums s X w ext wt = map2 (sample_sums s w ext (totals wt)) X (lookups wt X).
Proof.
  intros Hl. unfold iterated_sums, sample_sums, lookups, totals in *. destruct w as [e a|e].
  - destruct wt as [wt|]; [reflexivity|]. clear Hl. induction X as [|x X IH]; cbn; [reflexivity|].
    f_equal. exact IH.
  - revert Hl. generalize (match wt with Some w => wg_lookup w X | None => map (fun _ => []) X end) as l.
    induction X as [|x X IH]; intros [|y l] Hl; cbn in *; try discriminate; [reflexivity|].
    f_equal. apply IH. lia.
Qed.

Lemma iterated_sums_length s X w ext wt : length (lookups wt X) = length X ->
  length (iterated_sums s X w ext wt) = length X.
Proof. intros Hl. rewrite iterated_sums_samples by exact Hl. rewrite map2_length. lia. Qed.
End Samples.
