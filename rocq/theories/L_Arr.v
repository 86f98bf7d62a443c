(** Lemmas about the list model of numpy arrays: an array of length [n] is
    written [tab n f], its entries being [f 0 .. f (n-1)]. *)
From Coq Require Import List Arith ZArith Lia Reals Lra.
From Verif Require Import Num Arr.
Import ListNotations.

Definition tab {A} (n : nat) (f : nat -> A) : list A := map f (seq 0 n).

Lemma tab_length {A} n (f : nat -> A) : length (tab n f) = n.
Proof. unfold tab. now rewrite map_length, seq_length. Qed.

Lemma tab_ext {A} n (f g : nat -> A) :
  (forall i, i < n -> f i = g i) -> tab n f = tab n g.
Proof.
  intros Hfg. unfold tab. apply map_ext_in. intros i Hi. apply in_seq in Hi.
  apply Hfg. lia.
Qed.

Lemma tab_nth {A} n (f : nat -> A) d i : i < n -> nth i (tab n f) d = f i.
Proof.
  intros Hi. unfold tab.
  rewrite (nth_indep _ d (f 0)) by (now rewrite map_length, seq_length).
  rewrite map_nth, seq_nth by lia. f_equal.
Qed.

Lemma tab_eta {A} (d : A) l : l = tab (length l) (fun i => nth i l d).
Proof.
  unfold tab. induction l as [|x l IH]; [reflexivity|].
  cbn [length seq map nth]. f_equal. rewrite <- seq_shift, map_map.
  exact IH.
Qed.

Lemma tab_eta' {A} (d : A) n l : length l = n -> l = tab n (fun i => nth i l d).
Proof. intros <-. apply tab_eta. Qed.

Lemma tab_inj {A} n (f g : nat -> A) :
  tab n f = tab n g -> forall i, i < n -> f i = g i.
Proof.
  intros E i Hi. rewrite <- (tab_nth n f (f 0) i Hi), <- (tab_nth n g (f 0) i Hi).
  now rewrite E.
Qed.

Lemma tab_S {A} n (f : nat -> A) : tab (S n) f = f 0 :: tab n (fun i => f (S i)).
Proof. unfold tab. cbn [seq map]. now rewrite <- seq_shift, map_map. Qed.

Lemma tab_snoc {A} n (f : nat -> A) : tab (S n) f = tab n f ++ [f n].
Proof. unfold tab. now rewrite seq_S, map_app. Qed.

Lemma tab_map {A B} n (f : nat -> A) (h : A -> B) :
  map h (tab n f) = tab n (fun i => h (f i)).
Proof. unfold tab. now rewrite map_map. Qed.

Lemma tab_map2 {A B C} n (h : A -> B -> C) f g :
  map2 h (tab n f) (tab n g) = tab n (fun i => h (f i) (g i)).
Proof.
  revert f g. induction n as [|n IH]; intros f g; [reflexivity|].
  rewrite !tab_S. cbn [map2]. f_equal. apply IH.
Qed.

Lemma tab_repeat {A} n (x : A) : repeat x n = tab n (fun _ => x).
Proof.
  induction n as [|n IH]; [reflexivity|]. rewrite tab_S. cbn [repeat]. now rewrite IH.
Qed.

Lemma map2_length {A B C} (h : A -> B -> C) l1 l2 :
  length (map2 h l1 l2) = Nat.min (length l1) (length l2).
Proof.
  revert l2. induction l1 as [|x l1 IH]; intros [|y l2]; cbn; auto.
Qed.

Lemma map2_app {A B C} (h : A -> B -> C) l1 l2 m1 m2 :
  length l1 = length m1 ->
  map2 h (l1 ++ l2) (m1 ++ m2) = map2 h l1 m1 ++ map2 h l2 m2.
Proof.
  revert m1. induction l1 as [|x l1 IH]; intros [|y m1] E; try discriminate; cbn; auto.
  f_equal. apply IH. now injection E.
Qed.

Lemma map2_nth {A B C} (h : A -> B -> C) l1 l2 i d d1 d2 :
  i < length l1 -> i < length l2 ->
  nth i (map2 h l1 l2) d = h (nth i l1 d1) (nth i l2 d2).
Proof.
  revert l2 i. induction l1 as [|x l1 IH]; intros [|y l2] [|i] H1 H2; cbn in *; try lia; auto.
  apply IH; lia.
Qed.

Lemma map2_map_l {A A' B C} (h : A' -> B -> C) (k : A -> A') l1 l2 :
  map2 h (map k l1) l2 = map2 (fun a b => h (k a) b) l1 l2.
Proof. revert l2. induction l1 as [|x l1 IH]; intros [|y l2]; cbn; auto. now rewrite IH. Qed.

Lemma map2_map_r {A B B' C} (h : A -> B' -> C) (k : B -> B') l1 l2 :
  map2 h l1 (map k l2) = map2 (fun a b => h a (k b)) l1 l2.
Proof. revert l2. induction l1 as [|x l1 IH]; intros [|y l2]; cbn; auto. now rewrite IH. Qed.

Lemma map2_same_map {A B C} (h : A -> B -> C) (k : A -> B) l :
  map2 h l (map k l) = map (fun a => h a (k a)) l.
Proof. induction l; cbn; auto. now rewrite IHl. Qed.

Lemma map_map2 {A B C D} (f : C -> D) (h : A -> B -> C) l1 l2 :
  map f (map2 h l1 l2) = map2 (fun a b => f (h a b)) l1 l2.
Proof. revert l2. induction l1 as [|x l1 IH]; intros [|y l2]; cbn; auto. now rewrite IH. Qed.

Lemma map2_ext_in {A B C} (h k : A -> B -> C) l1 l2 :
  (forall a b, In a l1 -> In b l2 -> h a b = k a b) -> map2 h l1 l2 = map2 k l1 l2.
Proof.
  revert l2. induction l1 as [|x l1 IH]; intros [|y l2] E; cbn; auto.
  f_equal; [apply E; now left|]. apply IH. intros a b Ha Hb. apply E; now right.
Qed.

Lemma map2_firstn {A B C} (h : A -> B -> C) n l1 l2 :
  map2 h (firstn n l1) (firstn n l2) = firstn n (map2 h l1 l2).
Proof.
  revert l1 l2. induction n as [|n IH]; intros [|x l1] [|y l2]; cbn; auto. now rewrite IH.
Qed.

Lemma upd_length {A} i (v : A) l : length (upd i v l) = length l.
Proof. revert i. induction l as [|x l IH]; intros [|i]; cbn; auto. Qed.

Lemma upd_nth_eq {A} i (v d : A) l : i < length l -> nth i (upd i v l) d = v.
Proof. revert i. induction l as [|x l IH]; intros [|i] Hi; cbn in *; try lia; auto. apply IH. lia. Qed.

Lemma upd_nth_neq {A} i j (v d : A) l : i <> j -> nth j (upd i v l) d = nth j l d.
Proof.
  revert i j. induction l as [|x l IH]; intros [|i] [|j] Hij; cbn; auto; try lia.
Qed.

Lemma upd_tab {A} i (v : A) n f :
  upd i v (tab n f) = tab n (fun j => if j =? i then v else f j).
Proof.
  revert i f. induction n as [|n IH]; intros i f; [destruct i; reflexivity|].
  rewrite !tab_S. destruct i as [|i]; cbn [upd].
  - f_equal. 
  - f_equal. rewrite IH. apply tab_ext. intros j _. reflexivity.
Qed.

(** Recursive running sum / maximum. *)
Fixpoint accum {A} (op : A -> A -> A) (f : nat -> A) (n : nat) : A :=
  match n with O => f 0 | S m => op (accum op f m) (f (S m)) end.

Lemma scan_length {A} op (a : A) l : length (scan op a l) = length l.
Proof. revert a. induction l as [|x l IH]; intros a; cbn; auto. Qed.

Lemma accumulate_length {A} op (l : list A) : length (accumulate op l) = length l.
Proof. destruct l; cbn; auto. now rewrite scan_length. Qed.

Lemma scan_tab {A} op n (f : nat -> A) a :
  scan op a (tab n f) =
  tab n (fun i => accum op (fun j => match j with O => a | S j' => f j' end) (S i)).
Proof.
  revert f a. induction n as [|n IH]; intros f a; [reflexivity|].
  rewrite !tab_S. cbn [scan]. f_equal. rewrite IH. apply tab_ext. intros i _.
  clear IH n. cbn [accum]. induction i as [|i IHi]; [reflexivity|].
  cbn [accum] in *. rewrite <- IHi. reflexivity.
Qed.

Lemma accumulate_tab {A} op n (f : nat -> A) :
  accumulate op (tab n f) = tab n (accum op f).
Proof.
  destruct n as [|n]; [reflexivity|]. rewrite !tab_S. cbn [accumulate accum]. f_equal.
  rewrite scan_tab. apply tab_ext. intros i _.
  induction i as [|i IH]; [reflexivity|]. cbn [accum] in *. now rewrite IH.
Qed.

Lemma accum_ext {A} op (f g : nat -> A) n :
  (forall i, i <= n -> f i = g i) -> accum op f n = accum op g n.
Proof.
  induction n as [|n IH]; intros E; cbn [accum]; [apply E; lia|].
  rewrite IH by (intros; apply E; lia). now rewrite E by lia.
Qed.

Lemma roll1_tab {A} n (f : nat -> A) :
  roll1 (tab n f) = tab n (fun i => match i with O => f (n - 1) | S j => f j end).
Proof.
  destruct n as [|n]; [reflexivity|].
  assert (E : roll1 (tab (S n) f) = last (tab (S n) f) (f 0) :: removelast (tab (S n) f)).
  { rewrite tab_S. reflexivity. }
  rewrite E, (tab_snoc n f), removelast_last, last_last.
  rewrite tab_S. cbn [Nat.sub]. now rewrite Nat.sub_0_r.
Qed.

Section NumTab.
Context {T : Type} `{Num T}.
Lemma vadd_tab n (f g : nat -> T) : vadd (tab n f) (tab n g) = tab n (fun i => nadd (f i) (g i)).
Proof. apply tab_map2. Qed.
Lemma vsub_tab n (f g : nat -> T) : vsub (tab n f) (tab n g) = tab n (fun i => nsub (f i) (g i)).
Proof. apply tab_map2. Qed.
Lemma vmul_tab n (f g : nat -> T) : vmul (tab n f) (tab n g) = tab n (fun i => nmul (f i) (g i)).
Proof. apply tab_map2. Qed.
Lemma vdiv_tab n (f g : nat -> T) : vdiv (tab n f) (tab n g) = tab n (fun i => ndiv (f i) (g i)).
Proof. apply tab_map2. Qed.
Lemma vscale_tab n (f : nat -> T) a : vscale (tab n f) a = tab n (fun i => nmul (f i) a).
Proof. apply tab_map. Qed.
Lemma vexp_tab n (f : nat -> T) : vexp (tab n f) = tab n (fun i => nexp (f i)).
Proof. apply tab_map. Qed.
Lemma vneg_tab n (f : nat -> T) : vneg (tab n f) = tab n (fun i => nopp (f i)).
Proof. apply tab_map. Qed.
Lemma zeros_tab n : zeros n = tab n (fun _ => @nzero T _).
Proof. apply tab_repeat. Qed.
Lemma ones_tab n : ones n = tab n (fun _ => @nunit T _).
Proof. apply tab_repeat. Qed.
Lemma cumsum_tab n (f : nat -> T) : cumsum (tab n f) = tab n (accum nadd f).
Proof. apply accumulate_tab. Qed.
Lemma cummax_tab n (f : nat -> T) : cummax (tab n f) = tab n (accum nmax f).
Proof. apply accumulate_tab. Qed.
End NumTab.

Lemma firstn_tab {A} m n (f : nat -> A) : m <= n -> firstn m (tab n f) = tab m f.
Proof.
  revert m f. induction n as [|n IH]; intros [|m] f Hm; try lia; auto.
  rewrite !tab_S. cbn [firstn]. f_equal. apply IH. lia.
Qed.

Lemma skipn_tab {A} m n (f : nat -> A) : skipn m (tab n f) = tab (n - m) (fun i => f (m + i)).
Proof.
  revert m f. induction n as [|n IH]; intros [|m] f; auto.
  rewrite tab_S. cbn [skipn]. rewrite IH. cbn [Nat.sub]. apply tab_ext. reflexivity.
Qed.

Lemma app_tab {A} m n (f g : nat -> A) :
  tab m f ++ tab n g = tab (m + n) (fun i => if i <? m then f i else g (i - m)).
Proof.
  revert f. induction m as [|m IH]; intros f; cbn [Nat.add].
  - cbn. apply tab_ext. intros i _. now rewrite Nat.sub_0_r.
  - rewrite !tab_S. cbn [app]. f_equal. rewrite IH. apply tab_ext. intros i _.
    reflexivity.
Qed.

Lemma concat_map_length {A B} (f : A -> list B) l :
  length (flat_map f l) = list_sum (map (fun a => length (f a)) l).
Proof. induction l; cbn; auto. now rewrite app_length, IHl. Qed.
