(** Lemmas on the numpy operations of [M_Np] in terms of [tab]. *)
From Coq Require Import List Arith ZArith Lia Bool.
From Verif Require Import Num Arr M_Str M_Np L_Arr.
Import ListNotations.

Lemma py_bound_le n z : py_bound n z <= n.
Proof. unfold py_bound. destruct (z <? 0)%Z eqn:E; lia. Qed.
Lemma lo_bound_le n o : lo_bound n o <= n.
Proof. destruct o; cbn; [apply py_bound_le|lia]. Qed.
Lemma hi_bound_le n o : hi_bound n o <= n.
Proof. destruct o; cbn; [apply py_bound_le|lia]. Qed.
Lemma py_bound_nat n a : py_bound n (Z.of_nat a) = Nat.min a n.
Proof. unfold py_bound. destruct (Z.of_nat a <? 0)%Z eqn:E; lia. Qed.
Lemma py_bound_opp n a : 1 <= a -> py_bound n (- Z.of_nat a) = n - a.
Proof. intros Ha. unfold py_bound. destruct (- Z.of_nat a <? 0)%Z eqn:E; lia. Qed.
Lemma py_bound_pos n z : (0 <= z)%Z -> py_bound n z = Nat.min (Z.to_nat z) n.
Proof. intros Ha. unfold py_bound. destruct (z <? 0)%Z eqn:E; lia. Qed.

Lemma py_slice_tab {A} lo hi n (f : nat -> A) :
  py_slice lo hi (tab n f) =
  tab (hi_bound n hi - lo_bound n lo) (fun i => f (lo_bound n lo + i)).
Proof.
  unfold py_slice. rewrite tab_length, skipn_tab, firstn_tab; [reflexivity|].
  pose proof (hi_bound_le n hi). lia.
Qed.

Lemma splice_tab {A} a m n (f g : nat -> A) :
  a + m <= n ->
  firstn a (tab n f) ++ tab m g ++ skipn (a + m) (tab n f) =
  tab n (fun i => if (a <=? i) && (i <? a + m) then g (i - a) else f i).
Proof.
  intros Hm. rewrite firstn_tab by lia. rewrite skipn_tab, !app_tab.
  replace (a + (m + (n - (a + m)))) with n by lia.
  apply tab_ext. intros i Hi.
  destruct (i <? a) eqn:E1.
  - apply Nat.ltb_lt in E1. replace (a <=? i) with false; [reflexivity|].
    symmetry. apply Nat.leb_gt. lia.
  - apply Nat.ltb_ge in E1. replace (a <=? i) with true by (symmetry; apply Nat.leb_le; lia).
    cbn [andb]. destruct (i - a <? m) eqn:E2.
    + apply Nat.ltb_lt in E2. replace (i <? a + m) with true; [reflexivity|].
      symmetry. apply Nat.ltb_lt. lia.
    + apply Nat.ltb_ge in E2. replace (i <? a + m) with false.
      * f_equal. lia.
      * symmetry. apply Nat.ltb_ge. lia.
Qed.

Lemma py_set_slice_tab {A} lo hi n m (f g : nat -> A) :
  m = hi_bound n hi - lo_bound n lo ->
  py_set_slice lo hi (tab m g) (tab n f) =
  Ok (tab n (fun i => if (lo_bound n lo <=? i) && (i <? hi_bound n hi)
                      then g (i - lo_bound n lo) else f i)).
Proof.
  intros ->. unfold py_set_slice. rewrite !tab_length, Nat.eqb_refl.
  pose proof (hi_bound_le n hi). pose proof (lo_bound_le n lo).
  rewrite splice_tab by lia. f_equal. apply tab_ext. intros i Hi.
  destruct (lo_bound n lo <=? i) eqn:E1; [|reflexivity]. cbn [andb].
  apply Nat.leb_le in E1.
  destruct (Nat.ltb_spec i (hi_bound n hi)), (Nat.ltb_spec i (lo_bound n lo + (hi_bound n hi - lo_bound n lo))); try reflexivity; lia.
Qed.

Lemma py_fill_slice_tab {A} lo hi n (f : nat -> A) x :
  py_fill_slice lo hi x (tab n f) =
  tab n (fun i => if (lo_bound n lo <=? i) && (i <? hi_bound n hi) then x else f i).
Proof.
  unfold py_fill_slice. rewrite tab_length, tab_repeat.
  pose proof (hi_bound_le n hi). pose proof (lo_bound_le n lo).
  rewrite splice_tab by lia. apply tab_ext. intros i Hi.
  destruct (lo_bound n lo <=? i) eqn:E1; [|reflexivity]. cbn [andb].
  apply Nat.leb_le in E1.
  destruct (Nat.ltb_spec i (hi_bound n hi)), (Nat.ltb_spec i (lo_bound n lo + (hi_bound n hi - lo_bound n lo))); try reflexivity; lia.
Qed.

Lemma py_fill_slice_length {A} lo hi (x : A) l : length (py_fill_slice lo hi x l) = length l.
Proof.
  destruct l as [|y l].
  - unfold py_fill_slice. pose proof (hi_bound_le 0 hi). pose proof (lo_bound_le 0 lo).
    cbn [length] in *. rewrite !app_length, firstn_length, repeat_length, skipn_length.
    cbn [length]. lia.
  - rewrite (tab_eta y (y :: l)) at 1. rewrite py_fill_slice_tab. apply tab_length.
Qed.

(** * [mapM] *)
Lemma mapM_ok {A B} (f : A -> res B) (g : A -> B) l :
  (forall x, In x l -> f x = Ok (g x)) -> mapM f l = Ok (map g l).
Proof.
  induction l as [|x l IH]; intros E; [reflexivity|].
  cbn [mapM map]. rewrite E by now left. cbn [bind].
  rewrite IH; [reflexivity|]. intros y Hy. apply E. now right.
Qed.
Lemma mapM_err {A B} (f : A -> res B) e l :
  l <> [] -> (forall x, In x l -> f x = Err e) -> mapM f l = Err e.
Proof.
  destruct l as [|x l]; intros Hl E; [contradiction|]. cbn [mapM].
  rewrite E by now left. reflexivity.
Qed.
Lemma mapM_length {A B} (f : A -> res B) l r : mapM f l = Ok r -> length r = length l.
Proof.
  revert r. induction l as [|x l IH]; intros r E; cbn [mapM] in E.
  - now injection E as <-.
  - destruct (f x) as [y|]; cbn [bind] in E; [|discriminate].
    destruct (mapM f l) as [ys|]; cbn [bind] in E; [|discriminate].
    injection E as <-. cbn [length]. f_equal. now apply IH.
Qed.
Lemma mapM_nth {A B} (f : A -> res B) l r i da db :
  mapM f l = Ok r -> i < length l -> f (nth i l da) = Ok (nth i r db).
Proof.
  revert r i. induction l as [|x l IH]; intros r i E Hi; cbn [mapM length] in *; [lia|].
  destruct (f x) as [y|] eqn:Ex; cbn [bind] in E; [|discriminate].
  destruct (mapM f l) as [ys|]; cbn [bind] in E; [|discriminate].
  injection E as <-. destruct i as [|i]; cbn [nth]; [exact Ex|]. apply IH; [reflexivity|lia].
Qed.
Lemma mapM_ext {A B} (f g : A -> res B) l :
  (forall x, In x l -> f x = g x) -> mapM f l = mapM g l.
Proof.
  induction l as [|x l IH]; intros E; [reflexivity|]. cbn [mapM].
  rewrite E by now left. rewrite IH; [reflexivity|]. intros y Hy. apply E. now right.
Qed.
Lemma mapM_app {A B} (f : A -> res B) l1 l2 r1 r2 :
  mapM f l1 = Ok r1 -> mapM f l2 = Ok r2 -> mapM f (l1 ++ l2) = Ok (r1 ++ r2).
Proof.
  revert r1. induction l1 as [|x l IH]; intros r1 E1 E2; cbn [mapM app] in *.
  - injection E1 as <-. exact E2.
  - destruct (f x) as [y|]; cbn [bind] in *; [|discriminate].
    destruct (mapM f l) as [ys|]; cbn [bind] in *; [|discriminate].
    injection E1 as <-. rewrite (IH ys eq_refl E2). reflexivity.
Qed.

(** * Sums *)
From Coq Require Import Reals Lra.
From Verif Require Import L_Tuples.
Open Scope R_scope.
