(** C66: the parallel loops give the same result under every schedule. *)
From Coq Require Import List Arith ZArith Lia Bool Reals Lra.
From Verif Require Import Num Arr M_Str M_Np M_Semiring M_Prep M_Cache M_Sieve M_Words M_Cos M_Par S_Par L_Fruit L_Par.
Import ListNotations.

Section C66.
Context {T : Type} `{Num T}.

(** *** Helpers *)
Lemma keyed {V K} (key : addr -> option K) (f : K -> prog V) (ks : list K) (m0 : mem V) :
  NoDup ks -> (forall k, In k ks -> within (own key k) (f k)) ->
  every_schedule m0 (map f ks) (fun m => (forall a k, In k ks -> key a = Some k -> m a = exec (f k) m0 a) /\
                                         (forall a, (forall k, In k ks -> key a <> Some k) -> m a = m0 a)).
Proof.
  intros Hnd Hw.
  assert (E1 : map f ks = map snd (map (fun k => (k, f k)) ks)) by (rewrite map_map; reflexivity).
  rewrite E1. eapply every_schedule_impl; [|apply (independent key m0 (map (fun k => (k, f k)) ks))].
  - intros m (A & B). split.
    + intros a k Hk Ha. apply (A a k (f k)); [|exact Ha]. apply in_map_iff. eauto.
    + intros a Ha. apply B. intros k p Hin. apply in_map_iff in Hin. destruct Hin as (k' & E & Hk). injection E as <- <-. apply Ha. exact Hk.
  - rewrite map_map. cbn. rewrite map_id. exact Hnd.
  - rewrite Forall_map. apply Forall_forall. exact Hw.
Qed.
Lemma exec_writes_val {V} (l : list (addr * V)) : forall (m : mem V) a w, (forall v, In (a, v) l -> v = w) -> (In a (map fst l) \/ m a = w) ->
  exec (writes l) m a = w.
Proof.
  induction l as [|[b v] l IH]; intros m a w Hv Hin.
  - destruct Hin as [[]|Hm]; exact Hm.
  - change (exec (writes l) (store m b v) a = w). apply IH; [intros; apply Hv; now right|].
    destruct (list_eq_dec Nat.eq_dec b a) as [->|Hn].
    + right. rewrite store_eq. apply Hv. now left.
    + destruct Hin as [[E|Hin]|Hm]; [cbn in E; congruence|now left|right; now rewrite store_neq].
Qed.
Lemma within_cells {V} (A : addr -> Prop) (l : list (addr * V)) : (forall a v, In (a, v) l -> A a) -> within A (writes l).
Proof. intro Ha. apply within_writes. apply Forall_forall. intros [a v] Hin. eapply Ha; eassumption. Qed.

Lemma in_row_cells pre (r : list T) a v : In (a, v) (row_cells pre r) <-> exists t, t < length r /\ a = pre ++ [t] /\ v = nth t r nzero.
Proof.
  unfold row_cells. rewrite in_map_iff. split.
  - intros (t & E & Ht). injection E as <- <-. apply in_seq in Ht. exists t. repeat split; auto; lia.
  - intros (t & Ht & -> & ->). exists t. split; [reflexivity|]. apply in_seq. lia.
Qed.
Lemma in_matrix_cells pre (M : list (list T)) a v : In (a, v) (matrix_cells pre M) <->
  exists r t, r < length M /\ t < length (nth r M []) /\ a = pre ++ [r; t] /\ v = nth t (nth r M []) nzero.
Proof.
  unfold matrix_cells. rewrite in_flat_map. split.
  - intros (r & Hr & Hin). apply in_seq in Hr. apply in_row_cells in Hin. destruct Hin as (t & Ht & -> & ->).
    exists r, t. rewrite <- app_assoc. repeat split; auto; lia.
  - intros (r & t & Hr & Ht & -> & ->). exists r. split; [apply in_seq; lia|]. apply in_row_cells. exists t. rewrite <- app_assoc. auto.
Qed.
Lemma in_fst {V} (a : addr) (v : V) l : In (a, v) l -> In a (map fst l).
Proof. intro Hin. apply in_map_iff. exists (a, v). auto. Qed.
Lemma matrix_read pre M r t : exec (writes (matrix_cells pre M)) zero_mem (pre ++ [r; t]) = nth t (nth r M []) nzero.
Proof.
  apply exec_writes_val.
  - intros v Hin. apply in_matrix_cells in Hin. destruct Hin as (r' & t' & _ & _ & E & ->).
    apply app_inv_head in E. injection E as -> ->. reflexivity.
  - destruct (le_lt_dec (length M) r) as [Hr|Hr].
    { right. rewrite (nth_overflow M) by exact Hr. destruct t; reflexivity. }
    destruct (le_lt_dec (length (nth r M [])) t) as [Ht|Ht].
    { right. rewrite (nth_overflow (nth r M [])) by exact Ht. reflexivity. }
    left. eapply in_fst. apply in_matrix_cells. exists r, t. eauto.
Qed.
Lemma row_read pre r t : exec (writes (row_cells pre r)) zero_mem (pre ++ [t]) = nth t r nzero.
Proof.
  apply exec_writes_val.
  - intros v Hin. apply in_row_cells in Hin. destruct Hin as (t' & _ & E & ->).
    apply app_inv_head in E. injection E as ->. reflexivity.
  - destruct (le_lt_dec (length r) t) as [Ht|Ht].
    { right. rewrite (nth_overflow r) by exact Ht. reflexivity. }
    left. eapply in_fst. apply in_row_cells. exists t. eauto.
Qed.
Lemma map2_nth {A B C} (f : A -> B -> C) l1 l2 i a b c : length l1 = length l2 -> i < length l1 ->
  nth i (map2 f l1 l2) c = f (nth i l1 a) (nth i l2 b).
Proof.
  revert l2 i; induction l1 as [|x l1 IH]; intros [|y l2] [|i] Hl Hi; cbn in *; try lia; auto. apply IH; lia.
Qed.
Lemma map2_len {A B C} (f : A -> B -> C) l1 l2 : length l1 = length l2 -> length (map2 f l1 l2) = length l1.
Proof. revert l2; induction l1 as [|x l1 IH]; intros [|y l2] Hl; cbn in *; try lia. now rewrite IH by lia. Qed.

Definition first_key (a : addr) : option nat := match a with [] => None | i :: _ => Some i end.

(** Threads indexed by samples that write [result[i, ...]]. *)
Lemma by_sample {V} (f : nat -> prog V) n (m0 : mem V) : (forall i, i < n -> within (own first_key i) (f i)) ->
  every_schedule m0 (map f (seq 0 n))
    (fun m => (forall i a, i < n -> m (i :: a) = exec (f i) m0 (i :: a)) /\ (forall i a, n <= i -> m (i :: a) = m0 (i :: a))).
Proof.
  intro Hw. eapply every_schedule_impl; [|apply (keyed first_key f (seq 0 n) m0)].
  - intros m (A & B). split.
    + intros i a Hi. apply (A (i :: a) i); [apply in_seq; lia|reflexivity].
    + intros i a Hi. apply B. intros k Hk. apply in_seq in Hk. cbn. intro E. injection E as ->. lia.
  - apply seq_NoDup.
  - intros k Hk. apply Hw. apply in_seq in Hk. lia.
Qed.

(** *** C66, iterated sums *)
Theorem C66_iterated_sums (s : semiring) (X : dataset T) (word : list (list int)) (alpha : list T)
    (lookup : list (list T)) (ext : nat) (total : bool) :
  length lookup = length X ->
  every_schedule zero_mem (iss_threads s X word alpha lookup ext total)
    (reads3 (iterated_sums s X (WSimple word alpha) ext (Some {| wg_lookup := fun _ => lookup; wg_total := total |}))).
Proof.
  intro Hl. unfold iss_threads. eapply every_schedule_impl; [|apply (by_sample _ (length X))].
  - intros m (A & B) i j k. cbn [iterated_sums wg_lookup wg_total].
    destruct (le_lt_dec (length X) i) as [Hi|Hi].
    + rewrite B by exact Hi. rewrite (nth_overflow (map2 _ _ _)) by (now rewrite map2_len). destruct j, k; reflexivity.
    + rewrite A by exact Hi. unfold iss_iter. change [i; j; k] with ([i] ++ [j; k]). rewrite matrix_read.
      now rewrite (map2_nth _ X lookup i [] []) by auto.
  - intros i Hi. unfold iss_iter. apply within_cells. intros a v Hin. apply in_matrix_cells in Hin.
    destruct Hin as (r & t & _ & _ & -> & _). reflexivity.
Qed.
(** The same without a weighting. *)
Theorem C66_iterated_sums_unweighted (s : semiring) (X : dataset T) (word : list (list int)) (alpha : list T) (ext : nat) :
  every_schedule zero_mem (iss_threads s X word (zeros (length word)) (map (fun Z => zeros (tlen Z)) X) ext true)
    (reads3 (iterated_sums s X (WSimple word alpha) ext None)).
Proof.
  apply (C66_iterated_sums s X word (zeros (length word)) (map (fun Z => zeros (tlen Z)) X) ext true). apply map_length.
Qed.

(** *** C66, cosine weighted sums *)
Definition second_key (a : addr) : option nat := match a with _ :: i :: _ => Some i | _ => None end.
Lemma cos_reads nf single X : every_schedule zero_mem (cos_threads nf single X)
  (reads3 (map (fun f => map (single f) X) (seq 0 nf))).
Proof.
  unfold cos_threads. eapply every_schedule_impl; [|apply (keyed second_key _ (seq 0 (length X)))].
  - intros m (A & B) f i t. destruct (le_lt_dec nf f) as [Hf|Hf].
    + rewrite (nth_overflow (map _ (seq 0 nf))) by (rewrite map_length, seq_length; exact Hf).
      replace (nth t (nth i [] []) nzero) with (nzero : T) by (destruct i, t; reflexivity).
      destruct (le_lt_dec (length X) i) as [Hi|Hi].
      * rewrite B; [reflexivity|]. intros k Hk. apply in_seq in Hk. cbn. intro E. injection E as ->. lia.
      * rewrite (A [f; i; t] i) by (try apply in_seq; try lia; reflexivity). unfold cos_iter. rewrite exec_writes_out; [reflexivity|].
        intro Hin. apply in_map_iff in Hin. destruct Hin as ([a v] & E & Hin). cbn in E. subst a. apply in_flat_map in Hin.
        destruct Hin as (f' & Hf' & Hin). apply in_row_cells in Hin. destruct Hin as (t' & _ & E & _). injection E as -> ->.
        apply in_seq in Hf'. lia.
    + rewrite (nth_indep _ [] (map (single 0) X)) by (rewrite map_length, seq_length; exact Hf).
      rewrite (map_nth (fun f => map (single f) X)), seq_nth by exact Hf. cbn [Nat.add].
      destruct (le_lt_dec (length X) i) as [Hi|Hi].
      * rewrite B by (intros k Hk; apply in_seq in Hk; cbn; intro E; injection E as ->; lia).
        rewrite (nth_overflow (map _ X)) by (now rewrite map_length). destruct t; reflexivity.
      * rewrite (A [f; i; t] i) by (try apply in_seq; try lia; reflexivity). unfold cos_iter.
        rewrite (nth_indep _ [] (single f [])) by (now rewrite map_length). rewrite (map_nth (single f)).
        apply exec_writes_val.
        -- intros v Hin. apply in_flat_map in Hin. destruct Hin as (f' & _ & Hin). apply in_row_cells in Hin.
           destruct Hin as (t' & _ & E & ->). injection E as -> ->. reflexivity.
        -- destruct (le_lt_dec (length (single f (nth i X []))) t) as [Ht|Ht].
           { right. rewrite nth_overflow by exact Ht. reflexivity. }
           left. eapply in_fst. apply in_flat_map. exists f. split; [apply in_seq; lia|]. apply in_row_cells. exists t. eauto.
  - apply seq_NoDup.
  - intros i Hi. apply within_cells. intros a v Hin. apply in_flat_map in Hin. destruct Hin as (f & _ & Hin).
    apply in_row_cells in Hin. destruct Hin as (t & _ & -> & _). reflexivity.
Qed.
Lemma rows_seq {A} (freqs : list T) (g : nat -> T -> A) :
  map (fun jf => g (fst jf) (snd jf)) (combine (seq 0 (length freqs)) freqs) = map (fun f => g f (nth f freqs nzero)) (seq 0 (length freqs)).
Proof.
  assert (G : forall k pre, k = length pre -> map (fun jf => g (fst jf) (snd jf)) (combine (seq k (length freqs)) freqs)
              = map (fun f => g f (nth f (pre ++ freqs) nzero)) (seq k (length freqs))).
  { induction freqs as [|x r IH]; intros k pre Hk; cbn [length seq combine map fst snd]; [reflexivity|]. f_equal.
    - f_equal. subst k. rewrite app_nth2 by lia. now rewrite Nat.sub_diag.
    - rewrite (IH (S k) (pre ++ [x])) by (rewrite app_length; cbn; lia). now rewrite <- app_assoc. }
  apply (G 0 []). reflexivity.
Qed.
Theorem C66_cosine_sums (c : cos_cfg T) (st : cos_state T) (X : dataset T) (w : nat) (word : sword T) (rows : list (mts T)) :
  cos_word c st X w word = Ok rows ->
  every_schedule zero_mem (cos_threads (length (cw_freqs c)) (cos_call c st w word) X) (reads3 rows).
Proof.
  intro E. assert (rows = map (fun f => map (cos_call c st w word f) X) (seq 0 (length (cw_freqs c)))) as ->; [|apply cos_reads].
  unfold cos_word in E. unfold cos_call. cbv zeta in E |- *.
  set (W := get_weightings _ _ _) in *.
  destruct (cw_ffn c).
  - destruct (cs_ffn st) as [net|]; [|discriminate]. injection E as <-.
    exact (rows_seq (cw_freqs c) (fun j f => map (fun x => cos_single (cos_ffn (net w j) x) (sw_exts word) f W (fun _ => [])) X)).
  - destruct (cw_drop c).
    + destruct (cs_drop st) as [idx|]; [|discriminate]. injection E as <-.
      exact (rows_seq (cw_freqs c) (fun j f => map (fun x => cos_single x (sw_exts word) f W (idx w j)) X)).
    + injection E as <-. exact (rows_seq (cw_freqs c) (fun _ f => map (fun x => cos_single x (sw_exts word) f W (fun _ => [])) X)).
Qed.

(** *** C66, preparateurs *)
Lemma NoDup_prod {A B} (l1 : list A) (l2 : list B) : NoDup l1 -> NoDup l2 -> NoDup (list_prod l1 l2).
Proof.
  induction 1 as [|x l1 Hx Hn IH]; intro H2; cbn; [constructor|].
  assert (G : forall l, NoDup l -> NoDup (map (fun y : B => (x, y)) l)).
  { induction 1; cbn; constructor; auto. intro Hin. apply in_map_iff in Hin. destruct Hin as (y & E & Hy). injection E as ->. contradiction. }
  specialize (IH H2). revert IH. generalize (G l2 H2). clear G.
  assert (D : forall p, In p (map (fun y : B => (x, y)) l2) -> ~ In p (list_prod l1 l2)).
  { intros p Hp Hq. apply in_map_iff in Hp. destruct Hp as (y & <- & _). apply in_prod_iff in Hq. tauto. }
  revert D. generalize (map (fun y : B => (x, y)) l2) (list_prod l1 l2). intros L1 L2 D N1 N2.
  induction N1 as [|p L1 Hp N1 IH]; [exact N2|]. cbn. constructor.
  - intro Hin. apply in_app_iff in Hin. destruct Hin; [contradiction|]. apply (D p); [now left|assumption].
  - apply IH. intros q Hq. apply D. now right.
Qed.
Definition key12 (a : addr) : option (nat * nat) := match a with [i; j; _] => Some (i, j) | _ => None end.
Definition key13 (a : addr) : option (nat * nat) := match a with [i; _; k] => Some (i, k) | _ => None end.

Lemma nth_map_rows (g : list T -> list T) (X : dataset T) i j : g [] = [] ->
  nth j (nth i (map (map g) X) []) [] = g (nth j (nth i X []) []).
Proof.
  intro Hg. change (@nil (list T)) with (map g []) at 1. rewrite (map_nth (map g)).
  rewrite <- Hg at 1. now rewrite (map_nth g).
Qed.
Theorem C66_moving_average (width : nat) (X : dataset T) (n d l : nat) :
  array3 X n d l -> 0 < width ->
  every_schedule zero_mem (mav_threads width X n d l) (reads3 (map (map (mav_row width)) X)).
Proof.
  intros (Hn & Hx) Hw. unfold mav_threads. eapply every_schedule_impl; [|apply (keyed key12)].
  - intros m (A & B) i j k. rewrite nth_map_rows by reflexivity.
    destruct (le_lt_dec n i) as [Hi|Hi].
    { rewrite B; [|intros [i' j'] Hin E; injection E as -> ->; apply in_prod_iff in Hin; rewrite !in_seq in Hin; lia].
      rewrite (nth_overflow X) by lia. destruct j, k; reflexivity. }
    destruct (Hx (nth i X []) (nth_In X [] (eq_ind_r (fun z => i < z) Hi Hn))) as (Hd & Hr).
    destruct (le_lt_dec d j) as [Hj|Hj].
    { rewrite B; [|intros [i' j'] Hin E; injection E as -> ->; apply in_prod_iff in Hin; rewrite !in_seq in Hin; lia].
      rewrite (nth_overflow (nth i X [])) by lia. destruct k; reflexivity. }
    specialize (Hr (nth j (nth i X []) []) (nth_In (nth i X []) [] (eq_ind_r (fun z => j < z) Hj Hd))).
    rewrite (A [i; j; k] (i, j)); [|apply in_prod_iff; rewrite !in_seq; lia|reflexivity].
    unfold mav_iter. set (x := nth j (nth i X []) []) in *. apply exec_writes_val.
    + intros v Hin. apply in_map_iff in Hin. destruct Hin as (k' & E & Hk). apply in_seq in Hk. injection E as E <-.
      assert (k' = S k) as -> by lia. unfold mav_row.
      rewrite (nth_indep _ nzero ((fun t => if width <=? S t then ndiv (vsum (firstn width (skipn (S t - width) x))) (nofnat width) else nzero) 0))
        by (rewrite map_length, seq_length; lia).
      rewrite (map_nth (fun t => if width <=? S t then ndiv (vsum (firstn width (skipn (S t - width) x))) (nofnat width) else nzero)).
      rewrite seq_nth by lia. cbn [Nat.add]. rewrite (proj2 (Nat.leb_le width (S k))) by lia.
      now replace (S k - (S k - width)) with width by lia.
    + destruct (le_lt_dec l k) as [Hk|Hk].
      { right. unfold mav_row. rewrite nth_overflow by (rewrite map_length, seq_length; lia). reflexivity. }
      destruct (le_lt_dec width (S k)) as [Hwk|Hwk].
      * left. apply in_map_iff. eexists. split; [|apply in_map_iff; exists (S k); split; [reflexivity|apply in_seq; lia]].
        cbn. now rewrite Nat.sub_0_r.
      * right. unfold mav_row.
        rewrite (nth_indep _ nzero ((fun t => if width <=? S t then ndiv (vsum (firstn width (skipn (S t - width) x))) (nofnat width) else nzero) 0))
          by (rewrite map_length, seq_length; lia).
        rewrite (map_nth (fun t => if width <=? S t then ndiv (vsum (firstn width (skipn (S t - width) x))) (nofnat width) else nzero)).
        rewrite seq_nth by lia. cbn [Nat.add]. rewrite (proj2 (Nat.leb_gt width (S k))) by lia. reflexivity.
  - apply NoDup_prod; apply seq_NoDup.
  - intros [i j] _. apply within_cells. intros a v Hin. apply in_map_iff in Hin. destruct Hin as (k & E & _). injection E as <- _. reflexivity.
Qed.

Theorem C66_rotation (den : T) (X : dataset T) (n l : nat) :
  array3 X n 2 l -> every_schedule zero_mem (rpe_threads den X n l) (reads3 (map (rpe_sample den) X)).
Proof.
  intros (Hn & Hx). unfold rpe_threads. eapply every_schedule_impl; [|apply (keyed key13)].
  - intros m (A & B) i j k.
    destruct (le_lt_dec n i) as [Hi|Hi].
    { rewrite B; [|intros [i' j'] Hin E; injection E as -> ->; apply in_prod_iff in Hin; rewrite !in_seq in Hin; lia].
      rewrite (nth_overflow (map _ X)) by (rewrite map_length; lia). destruct j, k; reflexivity. }
    destruct (Hx (nth i X []) (nth_In X [] (eq_ind_r (fun z => i < z) Hi Hn))) as (Hd & Hr).
    rewrite (nth_indep _ [] (rpe_sample den [])) by (rewrite map_length; lia). rewrite (map_nth (rpe_sample den)).
    assert (Hl : tlen (nth i X []) = l).
    { destruct (nth i X []) as [|r0 rs]; [discriminate|]. apply Hr. now left. }
    destruct (le_lt_dec l k) as [Hk|Hk].
    { rewrite B; [|intros [i' j'] Hin E; injection E as -> ->; apply in_prod_iff in Hin; rewrite !in_seq in Hin; lia].
      unfold rpe_sample. cbv zeta. rewrite Hl. destruct j as [|[|j]]; cbn [nth];
        [rewrite nth_overflow by (rewrite map_length, seq_length; lia); reflexivity
        |rewrite nth_overflow by (rewrite map_length, seq_length; lia); reflexivity|destruct j, k; reflexivity]. }
    rewrite (A [i; j; k] (i, k)); [|apply in_prod_iff; rewrite !in_seq; lia|reflexivity].
    unfold rpe_sample, rpe_iter. cbv zeta. rewrite Hl. unfold at3.
    destruct j as [|[|j]]; cbn [nth].
    + apply exec_writes_val; [|left; now left].
      match goal with |- forall v, In _ _ -> v = nth k (map ?F ?L) _ => rewrite (nth_indep (map F L) nzero (F 0)) by (rewrite map_length, seq_length; lia);
        rewrite (map_nth F), seq_nth by lia end.
      intros v [E|[E|[]]]; [now injection E as <-|discriminate].
    + apply exec_writes_val; [|left; right; now left].
      match goal with |- forall v, In _ _ -> v = nth k (map ?F ?L) _ => rewrite (nth_indep (map F L) nzero (F 0)) by (rewrite map_length, seq_length; lia);
        rewrite (map_nth F), seq_nth by lia end.
      intros v [E|[E|[]]]; [discriminate|now injection E as <-].
    + rewrite exec_writes_out; [destruct j, k; reflexivity|]. intros [E|[E|[]]]; discriminate.
  - apply NoDup_prod; apply seq_NoDup.
  - intros [i k] _. repeat split.
Qed.

Lemma rin_cells_in kernel dims x w l i : forall ndim nd0 s a v, In (a, v) (rin_cells kernel dims x w l i ndim nd0 s) <->
  exists q k, q < length ndim /\ w <= k /\ k < l /\ a = [i; nd0 + q; k] /\
    v = rin_point w kernel dims x k (seq (s + list_sum (firstn q ndim)) (nth q ndim 0)).
Proof.
  induction ndim as [|nd r IH]; intros nd0 s a v; cbn [rin_cells].
  - split; [intros []|intros (q & k & Hq & _); cbn in Hq; lia].
  - rewrite in_app_iff, IH, in_map_iff. split.
    + intros [(k & E & Hk)|(q & k & Hq & Hk & Hl & -> & ->)].
      * injection E as <- <-. apply in_seq in Hk. exists 0, k. cbn [length nth firstn list_sum fold_right]. rewrite !Nat.add_0_r.
        repeat split; try lia; reflexivity.
      * exists (S q), k. cbn [length nth firstn list_sum fold_right]. repeat split; try lia; [f_equal; f_equal; lia|].
        f_equal. f_equal. unfold list_sum. lia.
    + intros (q & k & Hq & Hk & Hl & -> & ->). destruct q as [|q].
      * left. exists k. cbn [nth firstn list_sum fold_right]. rewrite !Nat.add_0_r. split; [reflexivity|]. apply in_seq. lia.
      * right. exists q, k. cbn [length nth firstn list_sum fold_right] in Hq |- *. repeat split; try lia; [f_equal; f_equal; lia|].
        f_equal. f_equal. unfold list_sum. lia.
Qed.
Lemma starts_nth ndim : forall s q, q < length ndim -> nth q (starts s ndim) 0 = s + list_sum (firstn q ndim).
Proof.
  induction ndim as [|n r IH]; intros s [|q] Hq; cbn [length starts nth firstn] in *; try lia.
  - cbn. lia.
  - rewrite IH by lia. change (list_sum (n :: firstn q r)) with (n + list_sum (firstn q r)). lia.
Qed.
Lemma starts_len ndim : forall s, length (starts s ndim) = length ndim.
Proof. induction ndim; intro s; cbn; auto. Qed.
Lemma groups_len ndim : length (groups ndim) = length ndim.
Proof. unfold groups. rewrite map2_len; rewrite starts_len; reflexivity. Qed.
Lemma groups_nth ndim q : q < length ndim -> nth q (groups ndim) [] = seq (list_sum (firstn q ndim)) (nth q ndim 0).
Proof.
  intro Hq. unfold groups. rewrite (map2_nth _ (starts 0 ndim) ndim q 0 0) by (rewrite ?starts_len; auto).
  now rewrite starts_nth by exact Hq.
Qed.
Theorem C66_random_increments (kernel : list (list T)) (ndim dims : list nat) (X : dataset T) (n d l : nat) :
  array3 X n d l -> 0 < d ->
  every_schedule zero_mem (rin_threads kernel ndim dims X n l) (reads3 (map (rin_backend kernel ndim dims) X)).
Proof.
  intros (Hn & Hx) Hd0. unfold rin_threads. eapply every_schedule_impl; [|apply by_sample].
  - intros m (A & B) i j k.
    destruct (le_lt_dec n i) as [Hi|Hi].
    { rewrite B by exact Hi. rewrite (nth_overflow (map _ X)) by (rewrite map_length; lia). destruct j, k; reflexivity. }
    destruct (Hx (nth i X []) (nth_In X [] (eq_ind_r (fun z => i < z) Hi Hn))) as (Hd & Hr).
    rewrite (nth_indep _ [] (rin_backend kernel ndim dims [])) by (rewrite map_length; lia). rewrite (map_nth (rin_backend kernel ndim dims)).
    assert (Hl : tlen (nth i X []) = l).
    { destruct (nth i X []) as [|r0 rs]; [cbn in Hd; lia|]. apply Hr. now left. }
    rewrite A by exact Hi. unfold rin_iter, rin_backend. cbv zeta. rewrite Hl. set (w := tlen kernel). set (x := nth i X []).
    destruct (le_lt_dec (length ndim) j) as [Hj|Hj].
    { rewrite exec_writes_out.
      - rewrite (nth_overflow (map _ _)) by (rewrite map_length, groups_len; lia). destruct k; reflexivity.
      - intro Hin. apply in_map_iff in Hin. destruct Hin as ([a v] & E & Hin). cbn in E. subst a. apply rin_cells_in in Hin.
        destruct Hin as (q & k' & Hq & _ & _ & E & _). injection E as -> ->. lia. }
    match goal with |- context [nth j (map ?F (groups ndim)) []] => rewrite (nth_indep (map F (groups ndim)) [] (F [])) by (rewrite map_length, groups_len; lia);
      rewrite (map_nth F) end.
    rewrite groups_nth by exact Hj.
    destruct (le_lt_dec l k) as [Hk|Hk].
    { rewrite exec_writes_out.
      - rewrite nth_overflow by (rewrite map_length, seq_length; lia). reflexivity.
      - intro Hin. apply in_map_iff in Hin. destruct Hin as ([a v] & E & Hin). cbn in E. subst a. apply rin_cells_in in Hin.
        destruct Hin as (q & k' & Hq & _ & Hk' & E & _). injection E as -> ->. lia. }
    match goal with |- context [nth k (map ?F (seq 0 l)) nzero] => rewrite (nth_indep (map F (seq 0 l)) nzero (F 0)) by (rewrite map_length, seq_length; lia);
      rewrite (map_nth F), seq_nth by lia end.
    cbn [Nat.add]. destruct (k <? w) eqn:Ekw.
    + apply Nat.ltb_lt in Ekw. rewrite exec_writes_out; [reflexivity|].
      intro Hin. apply in_map_iff in Hin. destruct Hin as ([a v] & E & Hin). cbn in E. subst a. apply rin_cells_in in Hin.
      destruct Hin as (q & k' & Hq & Hw & _ & E & _). injection E as -> ->. lia.
    + apply Nat.ltb_ge in Ekw. apply exec_writes_val.
      * intros v Hin. apply rin_cells_in in Hin. destruct Hin as (q & k' & Hq & _ & _ & E & ->). injection E as -> ->. reflexivity.
      * left. eapply in_fst. apply rin_cells_in. exists j, k. repeat split; try lia; reflexivity.
  - intros i Hi. apply within_cells. intros a v Hin. apply rin_cells_in in Hin. destruct Hin as (q & k & _ & _ & _ & -> & _). reflexivity.
Qed.

Lemma jld_adds (f : nat -> T) a js rest : forall m : mem T, exists m1, exec (fold_right (fun j r => jld_add a (f j) r) rest js) m = exec rest m1 /\
  m1 a = fold_left (fun acc j => nadd acc (f j)) js (m a) /\ forall b, b <> a -> m1 b = m b.
Proof.
  induction js as [|j js IH]; intro m; cbn [fold_right fold_left].
  - exists m. auto.
  - unfold jld_add at 1. cbn [exec]. destruct (IH (store m a (nadd (m a) (f j)))) as (m1 & E & Ea & Eb).
    exists m1. rewrite E, Ea, store_eq. split; [reflexivity|]. split; [reflexivity|]. intros b Hb. rewrite Eb by exact Hb. now apply store_neq; congruence.
Qed.
Lemma jld_exec kernel bias dims x i k : forall ndim nd0 s m q, 
  exec (jld_body kernel bias dims x i k ndim nd0 s) m [i; q; k] =
  if (nd0 <=? q) && (q <? nd0 + length ndim) then
    fold_left (fun acc j => nadd acc (nadd (nmul (at3 x (nth j dims 0) k) (nth j kernel nzero)) (nth q bias nzero)))
              (seq (s + list_sum (firstn (q - nd0) ndim)) (nth (q - nd0) ndim 0)) (m [i; q; k])
  else m [i; q; k].
Proof.
  induction ndim as [|nd r IH]; intros nd0 s m q; cbn [jld_body].
  - cbn [length exec]. rewrite Nat.add_0_r. destruct (nd0 <=? q) eqn:E1, (q <? nd0) eqn:E2; auto.
    apply Nat.leb_le in E1. apply Nat.ltb_lt in E2. lia.
  - destruct (jld_adds (fun j => nadd (nmul (at3 x (nth j dims 0) k) (nth j kernel nzero)) (nth nd0 bias nzero)) [i; nd0; k] (seq s nd)
               (jld_body kernel bias dims x i k r (S nd0) (s + nd)) m) as (m1 & E & Ea & Eb).
    rewrite E, IH. cbn [length]. destruct (Nat.eq_dec q nd0) as [->|Hq].
    + rewrite (proj2 (Nat.leb_gt (S nd0) nd0)) by lia. cbn [andb]. rewrite (proj2 (Nat.leb_le nd0 nd0)), (proj2 (Nat.ltb_lt nd0 (nd0 + S (length r)))) by lia.
      cbn [andb]. rewrite Nat.sub_diag. cbn [firstn nth list_sum fold_right]. rewrite Nat.add_0_r. exact Ea.
    + rewrite (Eb [i; q; k]) by congruence.
      destruct (le_lt_dec nd0 q) as [Hle|Hlt].
      * rewrite (proj2 (Nat.leb_le (S nd0) q)), (proj2 (Nat.leb_le nd0 q)) by lia. cbn [andb].
        replace (nd0 + S (length r)) with (S nd0 + length r) by lia. destruct (q <? S nd0 + length r); [|reflexivity].
        destruct (q - nd0) as [|u] eqn:Eu; [lia|]. replace (q - S nd0) with u by lia.
        cbn [firstn nth]. change (list_sum (nd :: firstn u r)) with (nd + list_sum (firstn u r)). now rewrite Nat.add_assoc.
      * rewrite (proj2 (Nat.leb_gt (S nd0) q)), (proj2 (Nat.leb_gt nd0 q)) by lia. reflexivity.
Qed.
Lemma jld_within kernel bias dims x i k : forall ndim nd0 s, within (own key13 (i, k)) (jld_body kernel bias dims x i k ndim nd0 s).
Proof.
  induction ndim as [|nd r IH]; intros nd0 s; cbn [jld_body]; [exact Logic.I|].
  generalize (seq s nd). intro js. induction js as [|j js IHj]; cbn [fold_right]; [apply IH|]. cbn. repeat split. exact IHj.
Qed.
Theorem C66_projection (kernel bias : list T) (ndim dims : list nat) (X : dataset T) (n d l : nat) :
  array3 X n d l -> 0 < d -> length bias = length ndim ->
  every_schedule zero_mem (jld_threads kernel bias ndim dims X n l) (reads3 (map (jld_backend kernel bias ndim dims) X)).
Proof.
  intros (Hn & Hx) Hd0 Hb. unfold jld_threads. eapply every_schedule_impl; [|apply (keyed key13)].
  - intros m (A & B) i j k.
    destruct (le_lt_dec n i) as [Hi|Hi].
    { rewrite B; [|intros [i' j'] Hin E; injection E as -> ->; apply in_prod_iff in Hin; rewrite !in_seq in Hin; lia].
      rewrite (nth_overflow (map _ X)) by (rewrite map_length; lia). destruct j, k; reflexivity. }
    destruct (Hx (nth i X []) (nth_In X [] (eq_ind_r (fun z => i < z) Hi Hn))) as (Hd & Hr).
    rewrite (nth_indep _ [] (jld_backend kernel bias ndim dims [])) by (rewrite map_length; lia). rewrite (map_nth (jld_backend kernel bias ndim dims)).
    assert (Hl : tlen (nth i X []) = l).
    { destruct (nth i X []) as [|r0 rs]; [cbn in Hd; lia|]. apply Hr. now left. }
    unfold jld_backend. rewrite Hl. set (x := nth i X []) in *.
    destruct (le_lt_dec l k) as [Hk|Hk].
    { rewrite B; [|intros [i' j'] Hin E; injection E as -> ->; apply in_prod_iff in Hin; rewrite !in_seq in Hin; lia].
      destruct (le_lt_dec (length ndim) j) as [Hj|Hj].
      - rewrite (nth_overflow (map2 _ _ _)) by (rewrite map2_len, groups_len; rewrite ?groups_len; lia). destruct k; reflexivity.
      - rewrite (map2_nth _ (groups ndim) bias j [] nzero) by (rewrite groups_len; lia). rewrite nth_overflow by (rewrite map_length, seq_length; lia). reflexivity. }
    rewrite (A [i; j; k] (i, k)); [|apply in_prod_iff; rewrite !in_seq; lia|reflexivity].
    cbn [fst snd]. fold x. rewrite jld_exec. cbn [Nat.leb andb Nat.add]. rewrite Nat.sub_0_r.
    destruct (j <? length ndim) eqn:Ej.
    + apply Nat.ltb_lt in Ej. rewrite (map2_nth _ (groups ndim) bias j [] nzero) by (rewrite groups_len; lia).
      rewrite groups_nth by exact Ej.
      match goal with |- context [nth k (map ?F (seq 0 l)) nzero] => rewrite (nth_indep (map F (seq 0 l)) nzero (F 0)) by (rewrite map_length, seq_length; lia);
        rewrite (map_nth F), seq_nth by lia end. reflexivity.
    + apply Nat.ltb_ge in Ej. rewrite (nth_overflow (map2 _ _ _)) by (rewrite map2_len, groups_len; rewrite ?groups_len; lia). destruct k; reflexivity.
  - apply NoDup_prod; apply seq_NoDup.
  - intros [i k] _. apply jld_within.
Qed.

(** *** C66, sieves *)
Lemma mapM_len {A B} (f : A -> res B) l r : mapM f l = Ok r -> length r = length l.
Proof.
  revert r. induction l as [|x l IH]; intros r E; cbn in E; [injection E as <-; reflexivity|].
  destruct (f x); [|discriminate]. destruct (mapM f l); [|discriminate]. injection E as <-. cbn. now rewrite (IH _ eq_refl).
Qed.
Lemma bins_writes k x i ab bins rest : forall col vs, mapM (fun e => cell k x (fst ab) (snd ab) (fst e) (snd e)) bins = Ok vs ->
  bins_body k x i col ab bins rest = fold_right (fun av r => Wr (fst av) (snd av) r) rest (map (fun c => ([i; col + c], nth c vs nzero)) (seq 0 (length vs))).
Proof.
  induction bins as [|e r IH]; intros col vs E; cbn [bins_body]; [injection E as <-; reflexivity|].
  cbn in E. destruct (cell k x (fst ab) (snd ab) (fst e) (snd e)) as [v|]; [|discriminate].
  destruct (mapM _ r) as [vs'|] eqn:E'; [|discriminate]. injection E as <-.
  cbn [length seq map fold_right fst snd nth]. rewrite Nat.add_0_r. f_equal. rewrite (IH (S col) vs' eq_refl).
  rewrite <- seq_shift, map_map. f_equal. apply map_ext. intro c. cbn [nth]. do 3 f_equal; lia.
Qed.
Lemma segs_writes k x i bins : forall segs j rows,
  mapM (fun ab => mapM (fun e => cell k x (fst ab) (snd ab) (fst e) (snd e)) bins) segs = Ok rows ->
  segs_body k x i j segs bins = writes (map (fun c => ([i; j * length bins + c], nth c (concat rows) nzero)) (seq 0 (length (concat rows)))).
Proof.
  induction segs as [|ab r IH]; intros j rows E; cbn [segs_body]; [injection E as <-; reflexivity|].
  cbn in E. destruct (mapM _ bins) as [vs|] eqn:Ev; [|discriminate]. destruct (mapM _ r) as [rows'|] eqn:Er; [|discriminate]. injection E as <-.
  rewrite (bins_writes k x i ab bins _ _ vs Ev), (IH (S j) rows' eq_refl). unfold writes. rewrite <- fold_right_app. f_equal.
  cbn [concat]. rewrite app_length, seq_app, map_app. f_equal.
  - apply map_ext_in. intros c Hc. apply in_seq in Hc. rewrite app_nth1 by lia. reflexivity.
  - cbn [Nat.add].
    assert (G : seq (length vs) (length (concat rows')) = map (fun c => length vs + c) (seq 0 (length (concat rows')))).
    { clear. generalize (length vs), (length (concat rows')). intros a b.
      assert (forall s, seq (a + s) b = map (fun c => a + c) (seq s b)) as Q; [|rewrite <- (Q 0), Nat.add_0_r; reflexivity].
      induction b as [|b IHb]; intro s; cbn [seq map]; [reflexivity|]. f_equal. rewrite <- IHb. f_equal. lia. }
    rewrite G, map_map. apply map_ext. intro c. rewrite app_nth2_plus. do 3 f_equal.
    rewrite (mapM_len _ _ _ Ev). cbn [Nat.mul]. lia.
Qed.
Lemma map2M_nth {A B C} (f : A -> B -> res C) l1 l2 r i a b c : map2M f l1 l2 = Ok r -> length l1 = length l2 -> i < length l1 ->
  f (nth i l1 a) (nth i l2 b) = Ok (nth i r c).
Proof.
  revert l2 r i. induction l1 as [|x l1 IH]; intros [|y l2] r [|i] E Hl Hi; cbn in *; try lia.
  - destruct (f x y); [|discriminate]. destruct (map2M f l1 l2); [|discriminate]. injection E as <-. reflexivity.
  - destruct (f x y); [|discriminate]. destruct (map2M f l1 l2) eqn:E2; [|discriminate]. injection E as <-. cbn. eapply IH; eauto; lia.
Qed.
Lemma map2M_len {A B C} (f : A -> B -> res C) l1 : forall l2 r, map2M f l1 l2 = Ok r -> length l1 = length l2 -> length r = length l1.
Proof.
  induction l1 as [|x l1 IH]; intros [|y l2] r E Hl; cbn in *; try lia; [injection E as <-; reflexivity|].
  destruct (f x y); [|discriminate]. destruct (map2M f l1 l2) eqn:E2; [|discriminate]. injection E as <-. cbn. f_equal. eapply IH; eauto.
Qed.
Theorem C66_sieves (k : seg_kind) (edges : list (xnum T)) (X : mts T) (cuts : list (list Z)) (rows : mts T) :
  length cuts = length X -> map2M (backend_row k edges) X cuts = Ok rows ->
  every_schedule zero_mem (sieve_threads k edges X cuts) (reads2 rows).
Proof.
  intros Hc E.
  assert (R : forall i, i < length X -> segs_body k (nth i X []) i 0 (pairs (nth i cuts [])) (pairs edges) = writes (row_cells [i] (nth i rows []))).
  { intros i Hi. pose proof (map2M_nth _ _ _ _ i [] [] [] E (eq_sym Hc) Hi) as Er. unfold backend_row in Er.
    match type of Er with (let! _ := ?M in _) = _ => destruct M as [rs|] eqn:Ers; [|discriminate] end. cbn in Er. injection Er as Er.
    rewrite (segs_writes k (nth i X []) i (pairs edges) _ 0 rs Ers), Er. reflexivity. }
  unfold sieve_threads. eapply every_schedule_impl; [|apply (by_sample _ (length X))].
  - intros m (A & B) i j. destruct (le_lt_dec (length X) i) as [Hi|Hi].
    + rewrite B by exact Hi. rewrite (nth_overflow rows) by (rewrite (map2M_len _ _ _ _ E); auto). destruct j; reflexivity.
    + rewrite A by exact Hi. rewrite R by exact Hi. apply (row_read [i]).
  - intros i Hi. rewrite R by exact Hi. apply within_cells. intros a v Hin. apply in_row_cells in Hin. destruct Hin as (t & _ & -> & _). reflexivity.
Qed.

(** *** C66, the shared cache *)
Lemma rows_read (g : mts T -> list T) (X : dataset T) :
  every_schedule zero_mem (map (fun i => writes (row_cells [i] (g (nth i X [])))) (seq 0 (length X))) (reads2 (map g X)).
Proof.
  eapply every_schedule_impl; [|apply (by_sample _ (length X))].
  - intros m (A & B) i j. destruct (le_lt_dec (length X) i) as [Hi|Hi].
    + rewrite B by exact Hi. rewrite (nth_overflow (map g X)) by (now rewrite map_length). destruct j; reflexivity.
    + rewrite A by exact Hi. rewrite (nth_indep _ [] (g [])) by (now rewrite map_length). rewrite (map_nth g). apply (row_read [i]).
  - intros i Hi. apply within_cells. intros a v Hin. apply in_row_cells in Hin. destruct Hin as (t & _ & -> & _). reflexivity.
Qed.
Theorem C66_cache (X : dataset T) (q : T) (Y : list (series T)) :
  every_schedule zero_mem (l1_threads X) (reads2 (L1_sum X)) /\
  every_schedule zero_mem (l2_threads X) (reads2 (L2_sum X)) /\
  every_schedule (fun _ => 0) (coq_threads q Y) (reads1 0 (coquantile q Y)).
Proof.
  split; [apply (rows_read (fun x => cumsum (map nabs (inc_first x))))|].
  split; [apply (rows_read (fun x => cumsum (map (fun v => nmul v v) (inc_first x))))|].
  unfold coq_threads. eapply every_schedule_impl; [|apply (by_sample _ (length Y))].
  - intros m (A & B) i. destruct (le_lt_dec (length Y) i) as [Hi|Hi].
    + rewrite B by exact Hi. unfold coquantile. now rewrite nth_overflow by (now rewrite map_length).
    + rewrite A by exact Hi. unfold coquantile. cbn [writes fold_right exec fst snd]. rewrite store_eq.
      rewrite (nth_indep _ 0 (coquantile1 q [])) by (now rewrite map_length). now rewrite (map_nth (coquantile1 q)).
  - intros i Hi. split; [reflexivity|exact Logic.I].
Qed.
End C66.

(** *** The sequential loop is one of the schedules, so all of them agree with it *)
Theorem C66_sequential {V} (m : mem V) (ps : list (prog V)) (post : mem V -> Prop) :
  every_schedule m ps post -> post (in_order ps m).
Proof.
  intros (_ & _ & Hp). destruct (run_in_order ps [] m) as (ps' & Hs & Hf); [constructor|]. eapply Hp; eassumption.
Qed.

(** The semantics does see races: two iterations that add to the same cell
    can lose an update, whereas the sequential loop cannot. *)
Definition racy : list (prog nat) :=
  map (fun _ => Rd [0] (fun old => Wr [0] (old + 1) Halt)) [0; 1].
Theorem C66_race_is_visible :
  in_order racy (fun _ => 0) [0] = 2 /\ ~ every_schedule (fun _ => 0) racy (fun m => m [0] = 2).
Proof.
  split; [reflexivity|]. intros (_ & _ & Hp).
  assert (E : store (store (fun _ => 0) [0] 1) [0] 1 [0] = 2); [|discriminate].
  apply (Hp _ [Halt; Halt]); [|repeat constructor].
  eapply steps_cons; [eapply (step_rd (fun _ => 0) racy 0); reflexivity|]. cbn [upd racy map].
  eapply steps_cons; [eapply (step_rd (fun _ => 0) _ 1); reflexivity|]. cbn [upd Nat.add].
  eapply steps_cons; [eapply (step_wr (fun _ => 0) _ 0); reflexivity|]. cbn [upd].
  eapply steps_cons; [eapply (step_wr _ _ 1); reflexivity|]. cbn [upd]. constructor.
Qed.
Print Assumptions C66_iterated_sums.
Print Assumptions C66_iterated_sums_unweighted.
Print Assumptions C66_cosine_sums.
Print Assumptions C66_moving_average.
Print Assumptions C66_rotation.
Print Assumptions C66_random_increments.
Print Assumptions C66_projection.
Print Assumptions C66_sieves.
Print Assumptions C66_cache.
Print Assumptions C66_sequential.
Print Assumptions C66_race_is_visible.

(** A dataset of two samples with two dimensions, and what two interleaved
    iterations of the moving average leave in its cells. *)
Example C66_ex_shape : array3 [[[1; 2; 3]; [4; 5; 6]]; [[7; 8; 9]; [1; 1; 1]]]%R 2 2 3.
Proof. split; [reflexivity|]. intros x [<-|[<-|[]]]; (split; [reflexivity|]); intros r [<-|[<-|[]]]; reflexivity. Qed.
Example C66_ex_mav : forall m ps, 
  steps (zero_mem, mav_threads 2 [[[1; 2; 3]; [4; 5; 6]]; [[7; 8; 9]; [1; 1; 1]]]%R 2 2 3) (m, ps) -> finished ps ->
  m [0; 0; 0] = 0%R /\ m [0; 1; 1] = (9 / 2)%R /\ m [1; 0; 2] = (17 / 2)%R.
Proof.
  intros m ps Hs Hf. pose proof (proj2 (proj2 (C66_moving_average 2 _ 2 2 3 C66_ex_shape ltac:(lia))) m ps Hs Hf) as Hr.
  rewrite !Hr. cbn. repeat split; lra.
Qed.
(** A projection to one dimension with the compound assignment. *)
Example C66_ex_jld : forall m ps,
  steps (zero_mem, jld_threads [2; 3]%R [1]%R [2] [1; 0] [[[1; 2]; [4; 5]]]%R 1 2) (m, ps) -> finished ps ->
  m [0; 0; 0] = 13%R /\ m [0; 0; 1] = 18%R.
Proof.
  intros m ps Hs Hf.
  assert (Hx : array3 [[[1; 2]; [4; 5]]]%R 1 2 2) by (split; [reflexivity|]; intros x [<-|[]]; (split; [reflexivity|]); intros r [<-|[<-|[]]]; reflexivity).
  pose proof (proj2 (proj2 (C66_projection [2; 3]%R [1]%R [2] [1; 0] _ 1 2 2 Hx ltac:(lia) eq_refl)) m ps Hs Hf) as Hr.
  rewrite !Hr. cbn. split; lra.
Qed.
