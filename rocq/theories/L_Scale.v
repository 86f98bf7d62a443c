(** Lemmas for C99: multiplying all numbers by a positive factor. *)
From Coq Require Import Ascii String List Arith ZArith Bool Lia Reals Lra.
From Verif Require Import Num Arr M_Str M_Np M_Prep M_Cache M_Sieve L_Prep2.
Import ListNotations.
Local Open Scope R_scope.

Notation sc k := (map (Rmult k)) (only parsing).
Definition rmap {A B} (f : A -> B) (r : res A) : res B := match r with Ok a => Ok (f a) | Err e => Err e end.
Lemma rmap_bind {A B C} (f : A -> B) (r : res A) (g : B -> res C) : (let! b := rmap f r in g b) = let! a := r in g (f a).
Proof. destruct r; reflexivity. Qed.
Lemma bind_ext {A B} (r : res A) (f g : A -> res B) : (forall a, f a = g a) -> (let! a := r in f a) = let! a := r in g a.
Proof. intros E. destruct r; cbn; auto. Qed.
Lemma rmap_bind_out {A B C} (f : B -> C) (r : res A) (g : A -> res B) : rmap f (let! a := r in g a) = let! a := r in rmap f (g a).
Proof. destruct r; reflexivity. Qed.
Lemma mapM_map {A B C} (f : A -> B) (g : B -> res C) l : mapM g (map f l) = mapM (fun a => g (f a)) l.
Proof. induction l as [|a l IH]; cbn; [reflexivity|]. now rewrite IH. Qed.
Lemma mapM_rmap {A B C} (f : A -> res B) (g : B -> C) l : mapM (fun a => rmap g (f a)) l = rmap (map g) (mapM f l).
Proof. induction l as [|a l IH]; cbn; [reflexivity|]. rewrite IH. destruct (f a); cbn; [|reflexivity]. destruct (mapM f l); reflexivity. Qed.
Lemma mapM_ext {A B} (f g : A -> res B) l : (forall a, f a = g a) -> mapM f l = mapM g l.
Proof. intros E. induction l as [|a l IH]; cbn; [reflexivity|]. now rewrite E, IH. Qed.

Lemma map_rep {A B} (f : A -> B) a n : map f (repeat a n) = repeat (f a) n.
Proof. induction n; cbn; congruence. Qed.
Section Lin.
Variable k : R.
Lemma sc_length x : length (sc k x) = length x.
Proof. apply map_length. Qed.
Lemma sc_nth x i : nth i (sc k x) 0 = k * nth i x 0.
Proof. rewrite <- (Rmult_0_r k) at 1. apply map_nth. Qed.
Lemma sc_zeros n : sc k (@zeros R RNum n) = zeros n.
Proof. unfold zeros. cbn [nzero RNum]. induction n; cbn; [reflexivity|]. rewrite Rmult_0_r. f_equal. exact IHn. Qed.
Lemma sc_app x y : sc k (x ++ y) = sc k x ++ sc k y.
Proof. apply map_app. Qed.
Lemma sc_firstn n x : firstn n (sc k x) = sc k (firstn n x).
Proof. apply firstn_map. Qed.
Lemma sc_skipn n x : skipn n (sc k x) = sc k (skipn n x).
Proof. apply skipn_map. Qed.
Lemma sc_slice a b x : py_slice a b (sc k x) = sc k (py_slice a b x).
Proof. unfold py_slice. rewrite sc_length. now rewrite sc_skipn, sc_firstn. Qed.
Lemma sc_set_slice a b v x : py_set_slice a b (sc k v) (sc k x) = rmap (sc k) (py_set_slice a b v x).
Proof.
  unfold py_set_slice. rewrite !sc_length. destruct (length v =? _)%nat.
  - cbn [rmap]. now rewrite !sc_app, sc_firstn, sc_skipn.
  - destruct v as [|x0 [|y v]]; try reflexivity. cbn [map rmap]. rewrite !sc_app, sc_firstn, sc_skipn.
    do 3 f_equal. symmetry. apply map_rep.
Qed.
Lemma sc_sub x y : map2 (@nsub R RNum) (sc k x) (sc k y) = sc k (map2 nsub x y).
Proof. revert y. induction x as [|a x IH]; intros [|b y]; try reflexivity. cbn [map map2]. rewrite IH. f_equal. cbn. ring. Qed.
Lemma sc_increments s x : @increments1 R RNum s (sc k x) = rmap (sc k) (increments1 s x).
Proof.
  unfold increments1. rewrite !sc_slice, !sc_length, sc_sub. destruct (_ =? _)%nat; [|reflexivity].
  rewrite <- (sc_zeros (length x)) at 1. apply sc_set_slice.
Qed.
Lemma sc_inc1 x : inc1 (sc k x) = sc k (inc1 x).
Proof. unfold inc1. rewrite sc_increments. destruct (increments1 1 x); reflexivity. Qed.
Lemma sc_scan acc x : scan (@nadd R RNum) (k * acc) (sc k x) = sc k (scan nadd acc x).
Proof. revert acc. induction x as [|a x IH]; intros acc; [reflexivity|].
  change (nadd (k * acc) (k * a) :: scan nadd (nadd (k * acc) (k * a)) (sc k x) = k * nadd acc a :: sc k (scan nadd (nadd acc a) x)).
  replace (nadd (k * acc) (k * a)) with (k * nadd acc a) by (cbn; ring). now rewrite IH. Qed.
Lemma sc_cumsum x : cumsum (sc k x) = sc k (cumsum x).
Proof. destruct x as [|a x]; cbn; [reflexivity|]. f_equal. apply sc_scan. Qed.
Lemma sc_times n (f : list R -> list R) x : (forall y, f (sc k y) = sc k (f y)) -> times n f (sc k x) = sc k (times n f x).
Proof. intros E. revert x. induction n as [|n IH]; intros x; cbn; [reflexivity|]. now rewrite E, IH. Qed.
Lemma sc_pre1 i x : pre1 i (sc k x) = sc k (pre1 i x).
Proof. unfold pre1. destruct (0 <? i)%Z; [apply sc_times, sc_inc1|]. destruct (i <? 0)%Z; [apply sc_times, sc_cumsum|reflexivity]. Qed.
Lemma sc_fold acc x : fold_left Rplus (sc k x) (k * acc) = k * fold_left Rplus x acc.
Proof. revert acc. induction x as [|a x IH]; intros acc; cbn; [reflexivity|]. rewrite <- IH. f_equal. ring. Qed.
Lemma sc_vsum x : @vsum R RNum (sc k x) = k * vsum x.
Proof. unfold vsum. cbn [nadd nzero RNum]. rewrite <- (sc_fold 0 x). f_equal. ring. Qed.
Lemma sc_vmean x : @vmean R RNum (sc k x) = k * vmean x.
Proof. unfold vmean. rewrite sc_vsum, sc_length. cbn [ndiv RNum]. unfold Rdiv. ring. Qed.
Lemma sc_squares x : map (fun v => @nmul R RNum v v) (sc k x) = map (Rmult (k * k)) (map (fun v => nmul v v) x).
Proof. rewrite !map_map. apply map_ext. intros a. cbn. ring. Qed.
Lemma sc_last x : last (sc k x) (@nzero R RNum) = k * last x nzero.
Proof. cbn. induction x as [|a [|b x] IH]; cbn; [ring|reflexivity|]. exact IH. Qed.
End Lin.

Section Pos.
Variable k : R.
Hypothesis Hk : 0 < k.
Lemma leb_sc a b : @nleb R RNum (k * a) (k * b) = nleb a b.
Proof.
  destruct (Rleb_spec a b) as [L|L], (Rleb_spec (k * a) (k * b)) as [M|M]; try reflexivity; exfalso.
  - apply M. now apply Rmult_le_compat_l; [lra|].
  - apply L. now apply (Rmult_le_reg_l k).
Qed.
Lemma ltb_sc a b : @nltb R RNum (k * a) (k * b) = nltb a b.
Proof.
  destruct (Rltb_spec' a b) as [L|L], (Rltb_spec' (k * a) (k * b)) as [M|M]; try reflexivity; exfalso.
  - apply M. now apply Rmult_lt_compat_l.
  - apply L. now apply (Rmult_lt_reg_l k).
Qed.
Lemma max_sc a b : @nmax R RNum (k * a) (k * b) = k * nmax a b.
Proof. unfold nmax. rewrite leb_sc. destruct (nleb a b); reflexivity. Qed.
Lemma min_sc a b : @nmin R RNum (k * a) (k * b) = k * nmin a b.
Proof. unfold nmin. rewrite leb_sc. destruct (nleb a b); reflexivity. Qed.
Lemma vmax_sc x : @vmax R RNum (sc k x) = rmap (Rmult k) (vmax x).
Proof.
  destruct x as [|a x]; cbn; [reflexivity|]. f_equal. revert a. induction x as [|b x IH]; intros a; cbn; [reflexivity|]. now rewrite max_sc, IH.
Qed.
Lemma vmin_sc x : @vmin R RNum (sc k x) = rmap (Rmult k) (vmin x).
Proof.
  destruct x as [|a x]; cbn; [reflexivity|]. f_equal. revert a. induction x as [|b x IH]; intros a; cbn; [reflexivity|]. now rewrite min_sc, IH.
Qed.
Lemma tsort_sc x : @tsort R RNum (sc k x) = sc k (tsort x).
Proof.
  unfold tsort. induction x as [|a x IH]; cbn [map fold_right]; [reflexivity|]. rewrite IH. generalize (fold_right tinsert [] x). intros l.
  induction l as [|b l IHl]; cbn [map tinsert]; [reflexivity|]. rewrite leb_sc. destruct (nleb a b); cbn [map]; [reflexivity|]. now rewrite IHl.
Qed.
Lemma quantile_sc a b x : @np_quantile R RNum a b (sc k x) = k * np_quantile a b x.
Proof.
  unfold np_quantile. rewrite tsort_sc, sc_length. cbn [nzero RNum]. rewrite !sc_nth. cbn [nadd nmul nsub RNum]. ring.
Qed.

(** Bin edges *)
Definition xsc (q : xnum R) : xnum R := match q with Fin v => Fin (k * v) | _ => q end.
Lemma xlt_sc q v : @xlt R RNum (xsc q) (k * v) = xlt q v.
Proof. destruct q; cbn; auto. apply ltb_sc. Qed.
Lemma xge_sc q v : @xge R RNum (xsc q) (k * v) = xge q v.
Proof. destruct q; cbn; auto. apply leb_sc. Qed.
Lemma in_bin_sc lo hi v : @in_bin R RNum (xsc lo) (xsc hi) (k * v) = in_bin lo hi v.
Proof. unfold in_bin. now rewrite xlt_sc, xge_sc. Qed.
Lemma xsort_sc l : @xsort R RNum (map xsc l) = map xsc (xsort l).
Proof.
  unfold xsort. induction l as [|a l IH]; cbn [map fold_right]; [reflexivity|]. rewrite IH. generalize (fold_right xinsert [] l). intros m.
  assert (LE : forall a b, @xleb R RNum (xsc a) (xsc b) = xleb a b) by (intros [|u|] [|v|]; cbn; try reflexivity; apply leb_sc).
  induction m as [|b m IHm]; cbn [map xinsert]; [reflexivity|]. rewrite LE. destruct (xleb a b); cbn [map]; [reflexivity|]. now rewrite IHm.
Qed.
Lemma filter_bin lo hi x : filter (@in_bin R RNum (xsc lo) (xsc hi)) (sc k x) = sc k (filter (in_bin lo hi) x).
Proof. induction x as [|a x IH]; cbn [map filter]; [reflexivity|]. rewrite in_bin_sc. destruct (in_bin lo hi a); cbn [map]; now rewrite IH. Qed.
Lemma map_bin lo hi x : map (@in_bin R RNum (xsc lo) (xsc hi)) (sc k x) = map (in_bin lo hi) x.
Proof. rewrite map_map. apply map_ext. intros a. apply in_bin_sc. Qed.
Lemma edge_fit_sc data q : @edge_fit R RNum (sc k data) q = xsc (edge_fit data q).
Proof. destruct q; cbn; try reflexivity; f_equal; [ring|apply quantile_sc]. Qed.
Lemma edge_plain_sc q : @edge_plain R RNum q = rmap xsc (edge_plain q).
Proof. destruct q; cbn; try reflexivity. do 2 f_equal. ring. Qed.
End Pos.

(** Coquantiles do not see the factor. *)
Lemma coquantile_sc k q y : 0 < k -> @coquantile1 R RNum q (sc k y) = coquantile1 q y.
Proof.
  intros Hk. unfold coquantile1, vcount. rewrite sc_last. replace (@nmul R RNum q (k * last y nzero)) with (k * @nmul R RNum q (last y nzero)) by (cbn; ring).
  generalize (@nmul R RNum q (last y nzero)). intros c. induction y as [|a y IH]; cbn [map filter]; [reflexivity|]. rewrite leb_sc by exact Hk.
  destruct (nleb a c); cbn [length]; now rewrite IH.
Qed.
Definition scM (k : R) (X : mts R) : mts R := map (sc k) X.
Definition scD (k : R) (X : dataset R) : dataset R := map (scM k) X.
Lemma inc_first_sc k x : inc_first (scM k x) = sc k (inc_first x).
Proof.
  unfold inc_first, scM. rewrite (map_nth (sc k) x []). rewrite sc_increments. destruct (increments1 1 (nth 0 x [])); reflexivity.
Qed.
Lemma abs_sc k v : @nabs R RNum (k * v) = Rabs k * nabs v.
Proof.
  assert (E : forall w, @nabs R RNum w = Rabs w).
  { intros w. unfold nabs. cbn [nzero nopp RNum]. destruct (Rleb_spec 0 w); [now rewrite Rabs_pos_eq|]. rewrite Rabs_left; lra. }
  now rewrite !E, Rabs_mult.
Qed.
Lemma L1_sc k X : L1_sum (scD k X) = map (sc (Rabs k)) (L1_sum X).
Proof.
  unfold L1_sum, scD. rewrite !map_map. apply map_ext. intros x. rewrite inc_first_sc, <- sc_cumsum. f_equal. rewrite !map_map. apply map_ext. intros v. apply abs_sc.
Qed.
Lemma L2_sc k X : L2_sum (scD k X) = map (sc (k * k)) (L2_sum X).
Proof. unfold L2_sum, scD. rewrite !map_map. apply map_ext. intros x. rewrite inc_first_sc, sc_squares, <- sc_cumsum. reflexivity. Qed.
Lemma get_on_sc parse k X key : k <> 0 -> @get_on R RNum parse (scD k X) key = get_on parse X key.
Proof.
  intros Hk. unfold get_on, cache_fresh, compute. destruct (split_on colon key) as [|c [|norm [|z r]]]; try reflexivity.
  rewrite L1_sc, L2_sc. assert (C : forall j q Y, 0 < j -> coquantile q (map (sc j) Y) = coquantile q Y).
  { intros j q Y Hj. unfold coquantile. rewrite map_map. apply map_ext. intros y. now apply coquantile_sc. }
  destruct (eqs norm (str "L1")); [|destruct (eqs norm (str "L2")); [|reflexivity]].
  - destruct (parse c); cbn; [|reflexivity]. rewrite C; [reflexivity|]. now apply Rabs_pos_lt.
  - destruct (parse c); cbn; [|reflexivity]. rewrite C; [reflexivity|]. nra.
Qed.
