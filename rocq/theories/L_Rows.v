(** Closed forms of the rows of all kernels, and what they depend on. *)
From Coq Require Import List Arith ZArith Bool Lia Reals Lra FunctionalExtensionality.
From Verif Require Import Num Arr L_Arr S_ISS M_Semiring L_Tuples L_Reals L_Max L_Slow L_Gen.
Import ListNotations.
Open Scope R_scope.

Definition kernel_ok (s : semiring) (X : mts R) (n : nat) (w : list (list Z)) : Prop :=
  match s with Arctic _ => tables_in (length X) w | _ => word_ok X n w end.

Definition row_of (s : semiring) (X : mts R) (n : nat) (alpha g : list R) (total : bool) (p : list (list Z)) : list R :=
  match s with
  | Reals => if total then row_total X n alpha g p else row_plain X n alpha g p
  | Arctic _ => if total then arow_total X n alpha g p else arow_plain X n alpha g p
  | Bayesian => if total then brow_total X n alpha g p else brow_plain X n alpha g p
  end.

Lemma row_of_length s X n alpha g total p : length (row_of s X n alpha g total p) = n.
Proof. destruct s, total; cbn; apply tab_length. Qed.

Lemma fast_single_row s X n w alpha g ext total r :
  is_argmax s = false -> wf_series X n -> kernel_ok s X n w -> length g = n ->
  (ext <= length w)%nat -> (r < ext)%nat ->
  nth r (fast_single s X w alpha g ext total) []
  = row_of s X n alpha g total (firstn (length w - ext + r + 1) w).
Proof.
  intros Hs HX Hk Hg He Hr. destruct s as [|[]|]; try discriminate; cbn [fast_single row_of kernel_ok] in *; destruct total.
  - rewrite (total_reals_single_row X n) by auto. symmetry. apply row_total_spec; auto.
    rewrite Nat.add_1_r. apply firstn_S_ne. lia.
  - rewrite (reals_single_row X n) by auto. symmetry. apply row_plain_spec; auto.
    rewrite Nat.add_1_r. apply firstn_S_ne. lia.
  - unfold total_arctic_single. change 0%nat with (length (@nil (list Z))) at 1.
    rewrite (total_arctic_loop_rows X n HX alpha g Hg _ _ _ [] _ _ Hk).
    + cbn [length]. now rewrite rows_nth by auto.
    + reflexivity.
    + rewrite (tlen_wf X n HX), zeros_tab. apply tab_ext. intros i Hi. cbn. ring.
  - unfold arctic_single. change 0%nat with (length (@nil (list Z))) at 1.
    rewrite (arctic_loop_rows X n HX alpha g Hg _ _ _ [] _ _ Hk).
    + cbn [length]. now rewrite rows_nth by auto.
    + reflexivity.
    + now rewrite (tlen_wf X n HX), zeros_tab.
  - apply word_ok_el in Hk. unfold total_bayesian_single. change 0%nat with (length (@nil (list Z))) at 1.
    rewrite (total_bayesian_loop_rows X n HX alpha g Hg _ _ _ [] _ _ Hk).
    + cbn [length]. now rewrite rows_nth by auto.
    + reflexivity.
    + rewrite (tlen_wf X n HX), ones_tab. apply tab_ext. intros i Hi. cbn. ring.
  - apply word_ok_el in Hk. unfold bayesian_single. change 0%nat with (length (@nil (list Z))) at 1.
    rewrite (bayesian_loop_rows X n HX alpha g Hg _ _ _ [] _ _ Hk).
    + cbn [length]. now rewrite rows_nth by auto.
    + reflexivity.
    + now rewrite (tlen_wf X n HX), ones_tab.
Qed.

(** What a row depends on. *)
Section Congr.
Variables (X : mts R) (n : nat) (alpha alpha' g : list R).

Lemma Ffun_congr e e' k : (forall i, ext_val X e i = ext_val X e' i) ->
  (forall j, (j <= k)%nat -> nth j alpha 0 = nth j alpha' 0) ->
  Ffun X alpha g e k = Ffun X alpha' g e' k.
Proof.
  intros He Ha. apply functional_extensionality. intros i. unfold Ffun. rewrite He, (Ha k) by lia.
  destruct k as [|k]; cbn [inw]; [reflexivity|]. now rewrite (Ha k) by lia.
Qed.
Lemma Gfun_congr e e' k : (forall i, ext_val X e i = ext_val X e' i) ->
  (forall j, (j <= k)%nat -> nth j alpha 0 = nth j alpha' 0) ->
  Gfun X alpha g e k = Gfun X alpha' g e' k.
Proof.
  intros He Ha. apply functional_extensionality. intros i. unfold Gfun. rewrite He.
  destruct k as [|k]; cbn [inw]; [reflexivity|]. now rewrite (Ha k) by lia.
Qed.
Lemma AF_congr e e' k : (forall i, ext_val_plus X e i = ext_val_plus X e' i) ->
  (forall j, (j <= k)%nat -> nth j alpha 0 = nth j alpha' 0) ->
  AF X alpha g e k = AF X alpha' g e' k.
Proof.
  intros He Ha. apply functional_extensionality. intros i. unfold AF. rewrite He, (Ha k) by lia.
  destruct k as [|k]; cbn [inwp]; [reflexivity|]. now rewrite (Ha k) by lia.
Qed.
Lemma AG_congr e e' k : (forall i, ext_val_plus X e i = ext_val_plus X e' i) ->
  (forall j, (j <= k)%nat -> nth j alpha 0 = nth j alpha' 0) ->
  AG X alpha g e k = AG X alpha' g e' k.
Proof.
  intros He Ha. apply functional_extensionality. intros i. unfold AG. rewrite He.
  destruct k as [|k]; cbn [inwp]; [reflexivity|]. now rewrite (Ha k) by lia.
Qed.

Lemma removelast_length_ {A} (l : list A) : length (removelast l) = (length l - 1)%nat.
Proof.
  destruct (snoc_cases l) as [->|(q & x & ->)]; [reflexivity|].
  rewrite removelast_last, app_length. cbn. lia.
Qed.
Lemma removelast_nth_ {A} (l : list A) j d : (j < length l - 1)%nat -> nth j (removelast l) d = nth j l d.
Proof.
  destruct (snoc_cases l) as [->|(q & x & ->)]; [reflexivity|].
  rewrite app_length. cbn. intros Hj. rewrite removelast_last, app_nth1 by lia. reflexivity.
Qed.

(** Words [p], [p'] with letters of equal value at every time. *)
Definition same_val (val : mts R -> list Z -> nat -> R) (p p' : list (list Z)) : Prop :=
  length p = length p' /\ forall j i, (j < length p)%nat -> val X (nth j p []) i = val X (nth j p' []) i.

Lemma Fs_congr p p' : same_val ext_val p p' ->
  (forall j, (j < length p)%nat -> nth j alpha 0 = nth j alpha' 0) ->
  Fs X alpha g p = Fs X alpha' g p'.
Proof.
  intros [Hl Hv] Ha. unfold Fs. rewrite <- Hl. apply map_ext_in. intros j Hj. apply in_seq in Hj.
  apply Ffun_congr; [intros i; apply Hv; lia|intros; apply Ha; lia].
Qed.
Lemma AFs_congr p p' : same_val ext_val_plus p p' ->
  (forall j, (j < length p)%nat -> nth j alpha 0 = nth j alpha' 0) ->
  AFs X alpha g p = AFs X alpha' g p'.
Proof.
  intros [Hl Hv] Ha. unfold AFs. rewrite <- Hl. apply map_ext_in. intros j Hj. apply in_seq in Hj.
  apply AF_congr; [intros i; apply Hv; lia|intros; apply Ha; lia].
Qed.
Lemma same_val_removelast val p p' : same_val val p p' -> same_val val (removelast p) (removelast p').
Proof.
  intros [Hl Hv]. split; [now rewrite !removelast_length_, Hl|].
  intros j i Hj. rewrite removelast_length_ in Hj. rewrite !removelast_nth_ by lia. apply Hv. lia.
Qed.
Lemma same_val_last val p p' i : p <> [] -> same_val val p p' -> val X (last p []) i = val X (last p' []) i.
Proof.
  intros Hp [Hl Hv]. rewrite !last_nth, <- Hl. apply Hv. destruct p; [congruence|cbn; lia].
Qed.

Definition sr_val (s : semiring) := match s with Arctic _ => ext_val_plus | _ => ext_val end.

Lemma row_of_congr s total p p' : p <> [] -> same_val (sr_val s) p p' ->
  (forall j, (j < length p)%nat -> nth j alpha 0 = nth j alpha' 0) ->
  row_of s X n alpha g total p = row_of s X n alpha' g total p'.
Proof.
  intros Hp HS Ha. assert (Hl : length p = length p') by apply HS.
  assert (Hlen : (0 < length p)%nat) by (destruct p; [congruence|cbn; lia]).
  assert (Ha' : forall j, (j < length (removelast p))%nat -> nth j alpha 0 = nth j alpha' 0).
  { intros j Hj. rewrite removelast_length_ in Hj. apply Ha. lia. }
  destruct s; cbn [row_of sr_val] in *; destruct total.
  - unfold row_total. rewrite (Fs_congr p p') by auto. apply tab_ext. intros t _.
    rewrite <- Hl, (Ha (length p - 1)%nat) by lia. reflexivity.
  - unfold row_plain. rewrite (Fs_congr (removelast p) (removelast p')) by auto using same_val_removelast.
    rewrite (Gfun_congr (last p []) (last p' [])), Hl; [reflexivity| |].
    + intros i. now apply same_val_last.
    + intros j Hj. apply Ha. lia.
  - unfold arow_total. rewrite (AFs_congr p p') by auto. apply tab_ext. intros t _.
    rewrite <- Hl, (Ha (length p - 1)%nat) by lia. reflexivity.
  - unfold arow_plain. rewrite (AFs_congr (removelast p) (removelast p')) by auto using same_val_removelast.
    rewrite (AG_congr (last p []) (last p' [])), Hl; [reflexivity| |].
    + intros i. now apply same_val_last.
    + intros j Hj. apply Ha. lia.
  - unfold brow_total. rewrite (Fs_congr p p') by auto. apply tab_ext. intros t _.
    rewrite <- Hl, (Ha (length p - 1)%nat) by lia. reflexivity.
  - unfold brow_plain. rewrite (Fs_congr (removelast p) (removelast p')) by auto using same_val_removelast.
    rewrite (Gfun_congr (last p []) (last p' [])), Hl; [reflexivity| |].
    + intros i. now apply same_val_last.
    + intros j Hj. apply Ha. lia.
Qed.
End Congr.

(** Padding an extended letter with zeros changes nothing. *)
Lemma ext_val_pad X e k i : ext_val X (e ++ repeat 0%Z k) i = ext_val X e i.
Proof.
  unfold ext_val. rewrite app_length, repeat_length, seq_app, map_app, Rprod_app.
  rewrite (map_ext_in _ (fun d => powerRZ (at_ X d i) (nth d e 0%Z)) (seq 0 (length e))).
  2:{ intros d Hd. apply in_seq in Hd. now rewrite app_nth1 by lia. }
  assert (E : Rprod (map (fun d => powerRZ (at_ X d i) (nth d (e ++ repeat 0%Z k) 0%Z)) (seq (0 + length e) k)) = 1).
  { assert (HH : forall l, (forall d, In d l -> (length e <= d)%nat) ->
       Rprod (map (fun d => powerRZ (at_ X d i) (nth d (e ++ repeat 0%Z k) 0%Z)) l) = 1).
    { induction l as [|d l IH]; intros Hd; [reflexivity|]. cbn [map]. rewrite Rprod_cons, IH by (intros; apply Hd; now right).
      rewrite app_nth2 by (apply Hd; now left). rewrite nth_repeat. cbn. ring. }
    apply HH. intros d Hd. apply in_seq in Hd. lia. }
  rewrite E. ring.
Qed.
Lemma ext_val_plus_pad X e k i : ext_val_plus X (e ++ repeat 0%Z k) i = ext_val_plus X e i.
Proof.
  unfold ext_val_plus. rewrite app_length, repeat_length, seq_app, map_app, Rsum_app.
  rewrite (map_ext_in _ (fun d => IZR (nth d e 0%Z) * at_ X d i) (seq 0 (length e))).
  2:{ intros d Hd. apply in_seq in Hd. now rewrite app_nth1 by lia. }
  rewrite (Rsum_zero _ (seq (0 + length e) k)); [ring|].
  intros d Hd. apply in_seq in Hd. rewrite app_nth2 by lia. rewrite nth_repeat. ring.
Qed.

Lemma ext_val_nonneg X e i : (forall d, 0 <= at_ X d i) -> 0 <= ext_val X e i.
Proof.
  intros Hd. unfold ext_val. apply Rprod_pos_ge0. rewrite Forall_forall. intros v Hv.
  apply in_map_iff in Hv. destruct Hv as (d & <- & _). specialize (Hd d).
  destruct (nth d e 0%Z) as [|p|p]; cbn; [lra|apply pow_le; auto|].
  destruct (Req_dec (at_ X d i) 0) as [->|Hne].
  - rewrite pow_ne_zero; [rewrite Rinv_0; lra|]. pose proof (Pos2Nat.is_pos p). lia.
  - apply Rlt_le, Rinv_0_lt_compat, pow_lt. lra.
Qed.
Lemma at_nonneg X d i : Forall (Forall (fun v => 0 <= v)) X -> 0 <= at_ X d i.
Proof.
  intros HF. unfold at_. destruct (Nat.ltb_spec d (length X)) as [Hd|Hd].
  - rewrite Forall_forall in HF. assert (Hr := HF _ (nth_In X [] Hd)).
    destruct (Nat.ltb_spec i (length (nth d X []))) as [Hi|Hi].
    + rewrite Forall_forall in Hr. apply Hr. now apply nth_In.
    + rewrite nth_overflow by assumption. lra.
  - rewrite (nth_overflow X) by assumption. destruct i; cbn; lra.
Qed.
