(** Lemmas on [np_quantile]. *)
From Coq Require Import List Arith ZArith Bool Reals Permutation Sorting Lia Lra.
From Verif Require Import Num Arr M_Str M_Np M_Sieve S_ISS S_Prep S_Sieve L_Arr L_Tuples L_Np L_Prep L_Prep2.
Import ListNotations.
Open Scope R_scope.

Lemma tinsert_perm x l : Permutation (@tinsert R RNum x l) (x :: l).
Proof.
  induction l as [|y l IH]; cbn [tinsert]; [reflexivity|]. destruct (nleb x y); [reflexivity|].
  rewrite IH. apply perm_swap.
Qed.
Lemma tsort_perm l : Permutation (@tsort R RNum l) l.
Proof. induction l as [|x l IH]; cbn; [reflexivity|]. rewrite tinsert_perm. now constructor. Qed.
Lemma tinsert_sorted x l : StronglySorted Rle l -> StronglySorted Rle (@tinsert R RNum x l).
Proof.
  induction 1 as [|y l Hs IH Hy]; cbn [tinsert]; [repeat constructor|].
  destruct (Rleb_spec x y).
  - constructor; [now constructor|]. constructor; [lra|]. eapply Forall_impl; [|exact Hy]. cbn; intros; lra.
  - constructor; [exact IH|]. eapply Permutation_Forall; [symmetry; apply tinsert_perm|]. constructor; [lra|exact Hy].
Qed.
Lemma tsort_sorted l : StronglySorted Rle (@tsort R RNum l).
Proof. induction l as [|x l IH]; cbn; [constructor|]. now apply tinsert_sorted. Qed.

Lemma np_quantile_spec a b (data : list R) : (0 < b)%nat -> is_quantile a b data (np_quantile a b data).
Proof.
  intros Hb. set (h := (a * (length data - 1))%nat). exists (tsort data), (h / b)%nat, (h mod b)%nat.
  split; [apply tsort_perm|]. split; [apply tsort_sorted|]. split; [|split].
  - fold h. pose proof (Nat.div_mod h b ltac:(lia)). lia.
  - apply Nat.mod_upper_bound. lia.
  - unfold np_quantile. fold h. rewrite !nofnat_INR. reflexivity.
Qed.

Lemma sorted_R_nth s i j : StronglySorted Rle s -> (i <= j)%nat -> (j < length s)%nat -> nth i s 0 <= nth j s 0.
Proof.
  intros Hs. revert i j. induction Hs as [|x s Hs IH Hx]; intros i j Hij Hj; cbn [length] in *; [lia|].
  destruct i as [|i], j as [|j]; cbn [nth]; try lra; try lia.
  - rewrite Forall_forall in Hx. apply Hx, nth_In. lia.
  - apply IH; lia.
Qed.
Lemma filter_perm_length {A} (p : A -> bool) l m : Permutation l m -> length (filter p l) = length (filter p m).
Proof.
  induction 1 as [|x l m P IH|x y l|l m k P1 IH1 P2 IH2]; cbn [filter]; [reflexivity| | |congruence].
  - destruct (p x); cbn; congruence.
  - destruct (p x), (p y); reflexivity.
Qed.
Lemma filter_prefix (p : R -> bool) s m : (m <= length s)%nat -> (forall i, (i < m)%nat -> p (nth i s 0) = true) ->
  (m <= length (filter p s))%nat.
Proof.
  revert m. induction s as [|x s IH]; intros m Hm Hp; cbn [length] in *; [lia|]. destruct m as [|m]; [lia|].
  cbn [filter]. pose proof (Hp 0%nat ltac:(lia)) as H0. cbn in H0. rewrite H0. cbn [length]. apply le_n_S, IH; [lia|].
  intros i Hi. apply (Hp (S i)). lia.
Qed.
Lemma filter_suffix (p : R -> bool) s m : (forall i, (m <= i < length s)%nat -> p (nth i s 0) = true) ->
  (length s - m <= length (filter p s))%nat.
Proof.
  revert m. induction s as [|x s IH]; intros m Hp; cbn [length] in *; [lia|]. cbn [filter]. destruct m as [|m].
  - pose proof (Hp 0%nat ltac:(lia)) as H0. cbn in H0. rewrite H0. cbn [length].
    pose proof (IH 0%nat (fun i Hi => Hp (S i) ltac:(lia))). lia.
  - pose proof (IH m (fun i Hi => Hp (S i) ltac:(lia))). destruct (p x); cbn [length]; lia.
Qed.

(** Rank of a quantile. *)
Definition count_le (v : R) (data : list R) : nat := length (filter (fun x => if Rle_dec x v then true else false) data).
Definition count_ge (v : R) (data : list R) : nat := length (filter (fun x => if Rle_dec v x then true else false) data).
Lemma quantile_rank a b data v : is_quantile a b data v -> (0 < b)%nat -> (a <= b)%nat -> data <> [] ->
  (a * (length data - 1) < b * count_le v data)%nat /\ ((b - a) * (length data - 1) <= b * count_ge v data)%nat.
Proof.
  intros [s [k [r [P [S1 [E [Hr Ev]]]]]]] Hb Hab Hne.
  assert (L : length s = length data) by now apply Permutation_length.
  assert (Ln : (1 <= length data)%nat) by (destruct data; [contradiction|cbn; lia]).
  assert (Hk : (k <= length data - 1)%nat) by nia.
  assert (HkS : (Nat.min (S k) (length data - 1) < length s)%nat) by lia.
  assert (Q : 0 <= INR r / INR b <= 1).
  { assert (0 < INR b) by (apply lt_0_INR; lia). pose proof (pos_INR r). assert (INR r < INR b) by (apply lt_INR; lia).
    split; [apply Rmult_le_pos; [lra|left; now apply Rinv_0_lt_compat]|]. apply (Rmult_le_reg_r (INR b)); [lra|].
    unfold Rdiv. rewrite Rmult_assoc, Rinv_l by lra. lra. }
  pose proof (sorted_R_nth s k (Nat.min (S k) (length data - 1)) S1 ltac:(lia) HkS) as M.
  set (lo := nth k s 0) in *. set (hi := nth (Nat.min (S k) (length data - 1)) s 0) in *.
  assert (B : lo <= v <= hi) by (rewrite Ev; nra).
  split.
  - assert (C : (S k <= count_le v data)%nat).
    { unfold count_le. rewrite <- (filter_perm_length _ _ _ P). apply filter_prefix; [lia|]. intros i Hi.
      pose proof (sorted_R_nth s i k S1 ltac:(lia) ltac:(lia)) as W. fold lo in W.
      destruct (Rle_dec (nth i s 0) v); [reflexivity|lra]. }
    nia.
  - assert (C : (length data - S k <= count_ge v data)%nat).
    { unfold count_ge. rewrite <- (filter_perm_length _ _ _ P), <- L. apply filter_suffix. intros i Hi.
      pose proof (sorted_R_nth s (Nat.min (S k) (length data - 1)) i S1 ltac:(lia) ltac:(lia)) as W. fold hi in W.
      destruct (Rle_dec v (nth i s 0)); [reflexivity|lra]. }
    nia.
Qed.
