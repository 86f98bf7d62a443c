(** Facts about increasing tuples and sums over them. *)
From Coq Require Import List Arith ZArith Reals Sorting Lia Lra.
From Verif Require Import Num Arr L_Arr S_ISS.
Import ListNotations.
Open Scope R_scope.

Lemma Rsum_app l m : Rsum (l ++ m) = Rsum l + Rsum m.
Proof. unfold Rsum. induction l; cbn; [lra|rewrite IHl; lra]. Qed.
Lemma Rprod_app l m : Rprod (l ++ m) = Rprod l * Rprod m.
Proof. unfold Rprod. induction l; cbn; [lra|rewrite IHl; lra]. Qed.
Lemma Rsum_scal c l : Rsum (map (fun x => c * x) l) = c * Rsum l.
Proof. unfold Rsum. induction l; cbn; [lra|rewrite IHl; lra]. Qed.
Lemma Rsum_map_scal {A} c (f : A -> R) l : Rsum (map (fun x => c * f x) l) = c * Rsum (map f l).
Proof. unfold Rsum. induction l; cbn; [lra|rewrite IHl; lra]. Qed.
Lemma Rsum_map_scal_r {A} c (f : A -> R) l : Rsum (map (fun x => f x * c) l) = Rsum (map f l) * c.
Proof. unfold Rsum. induction l; cbn; [lra|rewrite IHl; lra]. Qed.
Lemma Rsum_map_plus {A} (f g : A -> R) l :
  Rsum (map (fun x => f x + g x) l) = Rsum (map f l) + Rsum (map g l).
Proof. unfold Rsum. induction l; cbn; [lra|rewrite IHl; lra]. Qed.
Lemma Rprod_map_mult {A} (f g : A -> R) l :
  Rprod (map (fun x => f x * g x) l) = Rprod (map f l) * Rprod (map g l).
Proof. unfold Rprod. induction l; cbn; [lra|rewrite IHl; lra]. Qed.
Lemma Rsum_cons x l : Rsum (x :: l) = x + Rsum l.
Proof. reflexivity. Qed.
Lemma Rprod_cons x l : Rprod (x :: l) = x * Rprod l.
Proof. reflexivity. Qed.
Lemma Rsum_nil : Rsum [] = 0. Proof. reflexivity. Qed.
Lemma Rprod_nil : Rprod [] = 1. Proof. reflexivity. Qed.
Lemma Rsum_zero {A} (f : A -> R) l : (forall x, In x l -> f x = 0) -> Rsum (map f l) = 0.
Proof.
  induction l as [|x l IH]; intros E; cbn; [reflexivity|].
  rewrite E by now left. change (0 + Rsum (map f l) = 0). rewrite IH; [lra|].
  intros y Hy. apply E. now right.
Qed.
Lemma exp_Rsum l : exp (Rsum l) = Rprod (map exp l).
Proof.
  induction l as [|x l IH]; [apply exp_0|].
  cbn [map]. now rewrite Rsum_cons, Rprod_cons, exp_plus, IH.
Qed.
Lemma Rprod_pos_ge0 l : Forall (fun x => 0 <= x) l -> 0 <= Rprod l.
Proof.
  induction 1 as [|x l Hx Hl IH]; cbn; [lra|]. now apply Rmult_le_pos.
Qed.

Lemma itup_0 n : itup 0 n = [[]].
Proof. destruct n; reflexivity. Qed.
Lemma itup_S_0 k : itup (S k) 0 = [].
Proof. reflexivity. Qed.
Lemma itup_S_S k n : itup (S k) (S n) = itup (S k) n ++ map (fun tau => tau ++ [n]) (itup k n).
Proof. reflexivity. Qed.

Lemma sorted_snoc (R : nat -> nat -> Prop) l x :
  StronglySorted R l -> Forall (fun y => R y x) l -> StronglySorted R (l ++ [x]).
Proof.
  induction 1 as [|y l Hl IH Hy]; intros Hx; cbn.
  - repeat constructor.
  - inversion Hx; subst. constructor; [now apply IH|].
    apply Forall_app. split; auto.
Qed.

Lemma sorted_snoc_inv (R : nat -> nat -> Prop) l x :
  StronglySorted R (l ++ [x]) -> StronglySorted R l /\ Forall (fun y => R y x) l.
Proof.
  induction l as [|y l IH]; cbn; intros Hs; [split; constructor|].
  inversion Hs as [|? ? Hs' Hy]; subst. destruct (IH Hs') as [H1 H2].
  apply Forall_app in Hy. destruct Hy as [Hy1 Hy2]. inversion Hy2; subst.
  split; constructor; auto.
Qed.

Lemma snoc_cases {A} (l : list A) : l = [] \/ exists l' x, l = l' ++ [x].
Proof. destruct l using rev_ind; [now left|right; eauto]. Qed.

Lemma itup_In k n tau :
  In tau (itup k n) <->
  length tau = k /\ StronglySorted lt tau /\ Forall (fun i => (i < n)%nat) tau.
Proof.
  revert k tau. induction n as [|n IH]; intros [|k] tau.
  - rewrite itup_0. cbn. split.
    + intros [<-|[]]. repeat constructor.
    + intros (Hl & _). destruct tau; [now left|discriminate].
  - cbn. split; [tauto|]. intros (Hl & _ & Hf). destruct tau; [discriminate|].
    inversion Hf; subst; lia.
  - rewrite itup_0. cbn. split.
    + intros [<-|[]]. repeat constructor.
    + intros (Hl & _). destruct tau; [now left|discriminate].
  - rewrite itup_S_S, in_app_iff, IH, in_map_iff. split.
    + intros [(Hl & Hs & Hf)|(t & <- & Ht)].
      * repeat split; auto. eapply Forall_impl; [|exact Hf]. cbn; intros; lia.
      * apply IH in Ht. destruct Ht as (Hl & Hs & Hf).
        repeat split.
        -- rewrite app_length; cbn; lia.
        -- now apply sorted_snoc.
        -- apply Forall_app. split; [|repeat constructor].
           eapply Forall_impl; [|exact Hf]. cbn; intros; lia.
    + intros (Hl & Hs & Hf).
      destruct (snoc_cases tau) as [->|(t & x & ->)]; [discriminate|].
      rewrite app_length in Hl; cbn in Hl.
      apply sorted_snoc_inv in Hs. destruct Hs as [Hs Hx].
      apply Forall_app in Hf. destruct Hf as [Hf Hfx]. inversion Hfx as [|? ? Hxn _]; subst.
      destruct (Nat.eq_dec x n) as [->|Hne].
      * right. exists t. split; auto. apply IH. repeat split; auto; lia.
      * left. repeat split.
        -- rewrite app_length; cbn; lia.
        -- now apply sorted_snoc.
        -- apply Forall_app. split; [|repeat constructor; lia].
           eapply Forall_impl; [|exact Hx]. cbn; intros; lia.
Qed.

Lemma NoDup_app' {A} (l m : list A) :
  NoDup l -> NoDup m -> (forall x, In x l -> ~ In x m) -> NoDup (l ++ m).
Proof.
  induction 1 as [|x l Hx Hl IH]; cbn; intros Hm Hd; auto.
  constructor.
  - rewrite in_app_iff. intros [H|H]; [tauto|]. apply (Hd x); auto; now left.
  - apply IH; [assumption|]. intros y Hy. apply Hd. now right.
Qed.

Lemma itup_NoDup k n : NoDup (itup k n).
Proof.
  revert k. induction n as [|n IH]; intros [|k].
  - rewrite itup_0. constructor; [intros []|constructor].
  - constructor.
  - rewrite itup_0. constructor; [intros []|constructor].
  - rewrite itup_S_S. apply NoDup_app'; [apply IH| |].
    + apply FinFun.Injective_map_NoDup; [|apply IH].
      intros a b E. now apply app_inv_tail in E.
    + intros x Hi Hx. apply in_map_iff in Hx. destruct Hx as (t & <- & _).
      apply itup_In in Hi. destruct Hi as (_ & _ & Hf). apply Forall_app in Hf.
      destruct Hf as [_ Hf]. inversion Hf; subst; lia.
Qed.

(** Generic iterated sum of a list of functions of time. *)
Definition fapp (fs : list (nat -> R)) (tau : list nat) : list R := map2 (fun f i => f i) fs tau.
Definition gsum (fs : list (nat -> R)) (n : nat) : R :=
  Rsum (map (fun tau => Rprod (fapp fs tau)) (itup (length fs) n)).

(** sum_{i<n} f i *)
Definition csum (f : nat -> R) (n : nat) : R := Rsum (map f (seq 0 n)).
Lemma csum_S f n : csum f (S n) = csum f n + f n.
Proof. unfold csum. rewrite seq_S, map_app, Rsum_app. cbn. lra. Qed.
Lemma csum_0 f : csum f 0 = 0. Proof. reflexivity. Qed.
Lemma csum_ext f g n : (forall i, (i < n)%nat -> f i = g i) -> csum f n = csum g n.
Proof. induction n; intros E; [reflexivity|]. rewrite !csum_S, IHn, E; auto. Qed.
Lemma accum_csum f n : accum Rplus f n = csum f (S n).
Proof. induction n; cbn [accum]; [unfold csum; cbn; lra|]. now rewrite IHn, (csum_S f (S n)). Qed.

Lemma gsum_nil n : gsum [] n = 1.
Proof. unfold gsum. cbn [length]. rewrite itup_0. cbn. lra. Qed.

Lemma fapp_snoc fs f tau i :
  length tau = length fs -> fapp (fs ++ [f]) (tau ++ [i]) = fapp fs tau ++ [f i].
Proof. intros E. unfold fapp. rewrite map2_app by auto. reflexivity. Qed.

Lemma gsum_snoc_S fs f n : gsum (fs ++ [f]) (S n) = gsum (fs ++ [f]) n + gsum fs n * f n.
Proof.
  unfold gsum. rewrite app_length. cbn [length]. rewrite Nat.add_1_r, itup_S_S.
  rewrite map_app, Rsum_app. f_equal. rewrite map_map, <- Rsum_map_scal_r.
  f_equal. apply map_ext_in. intros tau Ht. apply itup_In in Ht. destruct Ht as (Hl & _).
  rewrite fapp_snoc by auto. rewrite Rprod_app. cbn. lra.
Qed.

Lemma gsum_snoc_0 fs f : gsum (fs ++ [f]) 0 = 0.
Proof. unfold gsum. rewrite app_length. cbn [length]. rewrite Nat.add_1_r, itup_S_0. reflexivity. Qed.

Lemma gsum_snoc fs f n : gsum (fs ++ [f]) n = csum (fun i => gsum fs i * f i) n.
Proof.
  induction n as [|n IH]; [apply gsum_snoc_0|].
  now rewrite gsum_snoc_S, csum_S, IH.
Qed.

(** Too few time steps: no tuple. *)
Lemma itup_short k n : (n < k)%nat -> itup k n = [].
Proof.
  revert k. induction n as [|n IH]; intros [|k] Hk; try lia; [reflexivity|].
  rewrite itup_S_S, !IH by lia. reflexivity.
Qed.
