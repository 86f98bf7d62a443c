(** CachePlan: depths, labels, enumeration of prefixes. *)
From Coq Require Import Ascii String List Arith ZArith Bool Lia.
From Verif Require Import Num Arr L_Arr M_Str M_Semiring M_ISS S_Plan L_Str.
Import ListNotations.
Local Open Scope char_scope.
Local Open Scope nat_scope.

Lemma wf_firstn w d : wf_bodies w -> wf_bodies (firstn d w).
Proof.
  intros Hw. unfold wf_bodies in *. rewrite Forall_forall in *. intros x Hx.
  apply Hw. rewrite <- (firstn_skipn d w). apply in_or_app. now left.
Qed.

Lemma is_prefix_firstn {A} (w v : list A) d e : e <= d ->
  is_prefix (firstn d w) v -> is_prefix (firstn e w) v.
Proof.
  intros He (r & ->).
  assert (E : firstn e w = firstn e (firstn d w)).
  { rewrite firstn_firstn. f_equal. lia. }
  rewrite E. exists (skipn e (firstn d w) ++ r).
  now rewrite app_assoc, firstn_skipn.
Qed.

Section Plan.
Variable ws : list (list pystr).
Hypothesis Hws : Forall wf_bodies ws.
Let strs := map wstring ws.
Let W (i : nat) := nth i ws [].

Lemma strs_nth i : nth i strs [] = wstring (W i).
Proof. unfold strs, W. change (@nil ascii) with (wstring []). apply map_nth. Qed.
Lemma W_wf i : wf_bodies (W i).
Proof.
  unfold W. destruct (Nat.ltb_spec i (length ws)).
  - rewrite Forall_forall in Hws. apply Hws. now apply nth_In.
  - rewrite nth_overflow by assumption. constructor.
Qed.

Lemma find_prefix_spec p : wf_bodies p -> forall cnt start,
  match find_prefix strs (wstring p) start cnt with
  | Some k => start <= k < start + cnt /\ is_prefix p (W k) /\
              (forall k', start <= k' < k -> ~ is_prefix p (W k'))
  | None => forall k', start <= k' < start + cnt -> ~ is_prefix p (W k')
  end.
Proof.
  intros Hp. induction cnt as [|c IH]; intros start; cbn [find_prefix]; [intros; lia|].
  rewrite strs_nth.
  destruct (startswith (wstring (W start)) (wstring p)) eqn:E.
  - apply startswith_wstring in E; auto using W_wf. split; [lia|]. split; [exact E|]. intros; lia.
  - specialize (IH (S start)). destruct (find_prefix strs (wstring p) (S start) c) as [k|].
    + destruct IH as (Hk & Hp1 & Hp2). split; [lia|]. split; [exact Hp1|].
      intros k' Hk'. destruct (Nat.eq_dec k' start) as [->|]; [|apply Hp2; lia].
      intros Hpre. apply startswith_wstring in Hpre; auto using W_wf. congruence.
    + intros k' Hk'. destruct (Nat.eq_dec k' start) as [->|]; [|apply IH; lia].
      intros Hpre. apply startswith_wstring in Hpre; auto using W_wf. congruence.
Qed.

(** [D] is the length of the longest prefix of word [i] shared with an earlier word. *)
Definition shared_depth (i D : nat) : Prop :=
  D <= length (W i) /\ (D = 0 \/ exists k, k < i /\ is_prefix (firstn D (W i)) (W k)) /\
  (D = length (W i) \/ forall k, k < i -> ~ is_prefix (firstn (S D) (W i)) (W k)).

Lemma els_eq i : tl (split_on "[" (nth i strs [])) = map (fun b => b ++ ["]"]) (W i).
Proof. rewrite strs_nth, split_open by apply W_wf. reflexivity. Qed.

Lemma firstn_map' {A B} (f : A -> B) k l : firstn k (map f l) = map f (firstn k l).
Proof. revert l. induction k; intros [|x l]; cbn; congruence. Qed.

Lemma pre_eq i j : j < length (W i) ->
  "[" :: join ["["] (firstn (j + 1) (map (fun b => b ++ ["]"]) (W i))) = wstring (firstn (S j) (W i)).
Proof.
  intros Hj. rewrite firstn_map', Nat.add_1_r. apply join_open.
  destruct (W i); cbn in *; [lia|congruence].
Qed.

Lemma plan_loop_spec i m : forall j start,
  j + m = length (W i) -> start <= i ->
  (j = 0 \/ exists k, k < i /\ is_prefix (firstn j (W i)) (W k)) ->
  (forall k, k < start -> ~ is_prefix (firstn j (W i)) (W k)) ->
  exists D, shared_depth i D /\ j <= D /\
    plan_loop strs i (map (fun b => b ++ ["]"]) (W i)) (seq j m) start (length (W i) - j)
    = length (W i) - D.
Proof.
  induction m as [|m IH]; intros j start Hj Hs Hex Hno; cbn [seq plan_loop].
  - exists j. repeat split; auto; lia.
  - rewrite pre_eq by lia.
    pose proof (find_prefix_spec (firstn (S j) (W i)) (wf_firstn _ _ (W_wf i)) (i - start) start) as HF.
    destruct (find_prefix strs (wstring (firstn (S j) (W i))) start (i - start)) as [k|].
    + destruct HF as (Hk & Hp1 & Hp2).
      destruct (IH (S j) k) as (D & HD & HjD & E).
      * lia.
      * lia.
      * right. exists k. split; [lia|exact Hp1].
      * intros k' Hk'. destruct (Nat.ltb_spec k' start) as [Hlt|Hge].
        -- intros Hpre. apply (Hno k' Hlt). revert Hpre. apply is_prefix_firstn. lia.
        -- apply Hp2. lia.
      * exists D. split; [exact HD|]. split; [lia|].
        replace (length (W i) - j - 1) with (length (W i) - S j) by lia. exact E.
    + exists j. split; [|split; auto]. split; [lia|]. split; [exact Hex|].
      right. intros k Hk. destruct (Nat.ltb_spec k start) as [Hlt|Hge].
      * intros Hpre. apply (Hno k Hlt). revert Hpre. apply is_prefix_firstn. lia.
      * apply HF. lia.
Qed.

Lemma plan_word_spec i : exists D, shared_depth i D /\ plan_word strs i = length (W i) - D.
Proof.
  unfold plan_word. rewrite els_eq, map_length.
  destruct (plan_loop_spec i (length (W i)) 0 0) as (D & HD & _ & E); try (now left); try (intros; lia).
  exists D. split; [exact HD|]. rewrite Nat.sub_0_r in E. exact E.
Qed.

(** The labels of word [i]. *)
Definition word_labels (i : nat) : list (list pystr) :=
  map (fun r => firstn (length (W i) - plan_word strs i + r + 1) (W i)) (seq 0 (plan_word strs i)).

Lemma plan_word_le i : plan_word strs i <= length (W i).
Proof. destruct (plan_word_spec i) as (D & (HD & _) & E). lia. Qed.

End Plan.

(** dedup *)
Section Dedup.
Context {A : Type} (dec : forall x y : A, {x = y} + {x <> y}).
Lemma dedup_ext l : forall s s', (forall x, In x s <-> In x s') -> dedup dec s l = dedup dec s' l.
Proof.
  induction l as [|x l IH]; intros s s' Hs; cbn; [reflexivity|].
  destruct (in_dec dec x s) as [H|H], (in_dec dec x s') as [H'|H'].
  - now apply IH.
  - apply Hs in H. contradiction.
  - apply Hs in H'. contradiction.
  - f_equal. apply IH. intros y. cbn. rewrite Hs. tauto.
Qed.
Lemma dedup_app l : forall s m, dedup dec s (l ++ m) = dedup dec s l ++ dedup dec (l ++ s) m.
Proof.
  induction l as [|x l IH]; intros s m; cbn; [reflexivity|].
  destruct (in_dec dec x s) as [H|H].
  - rewrite IH. f_equal. apply dedup_ext. intros y. cbn. rewrite !in_app_iff. split; [tauto|].
    intros [->|]; tauto.
  - cbn. f_equal. rewrite IH. f_equal. apply dedup_ext. intros y. cbn. rewrite !in_app_iff. cbn. tauto.
Qed.
Lemma dedup_all_in s l : (forall x, In x l -> In x s) -> dedup dec s l = [].
Proof.
  induction l as [|x l IH]; intros Hl; cbn; [reflexivity|].
  destruct (in_dec dec x s) as [H|H]; [|exfalso; apply H, Hl; now left].
  apply IH. intros y Hy. apply Hl. now right.
Qed.
Lemma dedup_none_in l : forall s, NoDup l -> (forall x, In x l -> ~ In x s) -> dedup dec s l = l.
Proof.
  induction l as [|x l IH]; intros s Hn Hl; cbn; [reflexivity|].
  inversion Hn as [|? ? Hx Hn']; subst.
  destruct (in_dec dec x s) as [H|H]; [exfalso; apply (Hl x); cbn; auto|].
  f_equal. apply IH; auto. intros y Hy [->|Hy']; [contradiction|]. apply (Hl y); cbn; auto.
Qed.
Lemma dedup_In l : forall s x, In x (dedup dec s l) <-> In x l /\ ~ In x s.
Proof.
  induction l as [|y l IH]; intros s x; cbn; [tauto|].
  destruct (in_dec dec y s) as [H|H].
  - rewrite IH. split; [tauto|]. intros [[->|Hx] Hs]; tauto.
  - cbn. rewrite IH. cbn. split.
    + intros [->|[Hx Hs]]; tauto.
    + intros [[->|Hx] Hs]; [now left|]. destruct (dec y x); [now left|]. right. tauto.
Qed.
Lemma dedup_NoDup l : forall s, NoDup (dedup dec s l).
Proof.
  induction l as [|y l IH]; intros s; cbn; [constructor|].
  destruct (in_dec dec y s) as [H|H]; [apply IH|]. constructor; [|apply IH].
  rewrite dedup_In. cbn. tauto.
Qed.
End Dedup.

Lemma NoDup_map_inj_in {A B} (f : A -> B) l :
  (forall a b, In a l -> In b l -> f a = f b -> a = b) -> NoDup l -> NoDup (map f l).
Proof.
  induction l as [|x l IH]; intros Hinj Hn; cbn; [constructor|].
  inversion Hn as [|? ? Hx Hn']; subst. constructor.
  - rewrite in_map_iff. intros (y & E & Hy). apply Hinj in E; cbn; auto. now subst.
  - apply IH; auto. intros a b Ha Hb. apply Hinj; cbn; auto.
Qed.

Lemma NoDup_app_r' {A} (l m : list A) : NoDup (l ++ m) -> NoDup m.
Proof. induction l as [|x l IH]; cbn; auto. intros H. inversion H; auto. Qed.

Lemma prefixes_In {A} (w p : list A) : In p (prefixes w) <-> p <> [] /\ is_prefix p w.
Proof.
  unfold prefixes. rewrite in_map_iff. split.
  - intros (d & <- & Hd). rewrite in_seq in Hd. split.
    + destruct w, d; cbn in *; try lia; congruence.
    + exists (skipn d w). now rewrite firstn_skipn.
  - intros (Hne & r & ->). exists (length p). split.
    + now rewrite firstn_app, Nat.sub_diag, firstn_all, firstn_O, app_nil_r.
    + apply in_seq. rewrite app_length. destruct p; cbn; [congruence|lia].
Qed.
Lemma prefixes_NoDup {A} (w : list A) : NoDup (prefixes w).
Proof.
  unfold prefixes. apply NoDup_map_inj_in; [|apply seq_NoDup].
  intros a b Ha Hb E. apply (f_equal (@length _)) in E. rewrite in_seq in Ha, Hb.
  rewrite !firstn_length in E. lia.
Qed.

Section Plan2.
Variable ws : list (list pystr).
Hypothesis Hws : Forall wf_bodies ws.

(** Fresh prefixes of the words [i .. i+m), in order. *)
Lemma word_labels_dedup i : i < length ws ->
  word_labels ws i = dedup word_eq_dec (flat_map prefixes (firstn i ws)) (prefixes (nth i ws [])).
Proof.
  intros Hi. unfold word_labels. set (w := nth i ws []).
  destruct (plan_word_spec ws Hws i) as (D & (HD & Hex & Hno) & E). fold w in HD, Hex, Hno, E.
  rewrite E. replace (length w - (length w - D)) with D by lia.
  transitivity (map (fun d => firstn d w) (seq (S D) (length w - D))).
  { assert (HH : forall m k, map (fun r => firstn (D + r + 1) w) (seq k m)
                           = map (fun d => firstn d w) (seq (S D + k) m)).
    { induction m as [|m IH]; intros k; cbn [seq map]; [reflexivity|].
      f_equal; [f_equal; lia|]. rewrite IH. do 2 f_equal. lia. }
    rewrite HH. do 2 f_equal. lia. }
  assert (Ein : forall d, 1 <= d <= length w ->
    (In (firstn d w) (flat_map prefixes (firstn i ws)) <-> d <= D)).
  { intros d Hd. rewrite in_flat_map. split.
    - intros (v & Hv & Hp). apply prefixes_In in Hp. destruct Hp as [_ Hp].
      destruct (Nat.leb_spec d D) as [|Hlt]; [assumption|]. exfalso.
      destruct Hno as [->|Hno]; [lia|].
      destruct (In_nth _ _ [] Hv) as (k & Hk & Ek). rewrite firstn_length in Hk.
      apply (Hno k); [lia|]. rewrite <- Ek in Hp.
      assert (En : nth k (firstn i ws) [] = nth k ws []).
      { rewrite <- (firstn_skipn i ws) at 2. rewrite app_nth1; [reflexivity|rewrite firstn_length; lia]. }
      rewrite En in Hp. revert Hp. apply is_prefix_firstn. lia.
    - intros HdD. destruct Hex as [->|(k & Hk & Hp)]; [lia|].
      exists (nth k ws []). split.
      + rewrite <- (firstn_skipn i ws) at 1. rewrite app_nth1 by (rewrite firstn_length; lia).
        apply nth_In. rewrite firstn_length. lia.
      + apply prefixes_In. split; [destruct w, d; cbn in *; try lia; congruence|].
        revert Hp. apply is_prefix_firstn. exact HdD. }
  unfold prefixes at 2. fold w.
  replace (length w) with (D + (length w - D)) at 2 by lia.
  rewrite seq_app, map_app, dedup_app.
  rewrite dedup_all_in.
  2:{ intros x Hx. apply in_map_iff in Hx. destruct Hx as (d & <- & Hd). apply in_seq in Hd.
      apply Ein; lia. }
  cbn [app]. rewrite dedup_none_in.
  - reflexivity.
  - pose proof (prefixes_NoDup w) as HN. unfold prefixes in HN.
    replace (length w) with (D + (length w - D)) in HN by lia.
    rewrite seq_app, map_app in HN. apply NoDup_app_r' in HN. exact HN.
  - intros x Hx Hin. apply in_map_iff in Hx. destruct Hx as (d & <- & Hd). apply in_seq in Hd.
    apply in_app_or in Hin. destruct Hin as [Hin|Hin].
    + apply in_map_iff in Hin. destruct Hin as (d' & E' & Hd'). apply in_seq in Hd'.
      apply (f_equal (@length _)) in E'. rewrite !firstn_length in E'. lia.
    + apply Ein in Hin; lia.
Qed.

Lemma firstn_S_app {A} (l : list A) i d : i < length l -> firstn (S i) l = firstn i l ++ [nth i l d].
Proof.
  revert i. induction l as [|x l IH]; intros [|i] Hi; cbn in *; try lia; [reflexivity|].
  f_equal. apply IH. lia.
Qed.

Lemma labels_upto m : m <= length ws ->
  flat_map (word_labels ws) (seq 0 m) = dedup word_eq_dec [] (flat_map prefixes (firstn m ws)).
Proof.
  induction m as [|m IH]; intros Hm; [reflexivity|].
  rewrite seq_S, flat_map_app, IH by lia. cbn [flat_map]. rewrite app_nil_r.
  rewrite word_labels_dedup by lia.
  rewrite (firstn_S_app ws m []) by lia. rewrite flat_map_app. cbn [flat_map]. rewrite app_nil_r.
  rewrite dedup_app. f_equal. apply dedup_ext. intros x. now rewrite app_nil_r.
Qed.

Definition all_labels : list (list pystr) := flat_map (word_labels ws) (seq 0 (length ws)).

Lemma all_labels_dedup : all_labels = dedup word_eq_dec [] (flat_map prefixes ws).
Proof. unfold all_labels. rewrite labels_upto by lia. now rewrite firstn_all. Qed.

Lemma word_labels_length i : length (word_labels ws i) = plan_word (map wstring ws) i.
Proof. unfold word_labels. now rewrite map_length, seq_length. Qed.

Lemma plan_total_labels : plan_total (create_plan (map wstring ws)) = length all_labels.
Proof.
  unfold plan_total, create_plan, all_labels. rewrite map_length.
  assert (HH : forall l, list_sum (map (plan_word (map wstring ws)) l)
                         = length (flat_map (word_labels ws) l)).
  { induction l as [|i l IH]; [reflexivity|]. cbn [map flat_map].
    rewrite app_length, word_labels_length, <- IH. reflexivity. }
  apply HH.
Qed.

(** The string of a single label. *)
Lemma label_string w m : wf_bodies w -> 1 <= m <= length w ->
  join ["]"] (py_prefix (split_on "]" (wstring w)) (- Z.of_nat m)) ++ ["]"]
  = wstring (firstn (length w + 1 - m) w).
Proof.
  intros Hw Hm. rewrite split_close by exact Hw. unfold py_prefix.
  destruct (Z.leb_spec 0 (- Z.of_nat m)); [lia|].
  rewrite app_length, map_length. cbn [length].
  replace (Z.to_nat (- - Z.of_nat m)) with m by lia.
  rewrite firstn_app, map_length.
  replace (length w + 1 - m - length w) with 0 by lia. rewrite firstn_O, app_nil_r, firstn_map'.
  apply join_close. intros E. apply (f_equal (@length _)) in E. rewrite firstn_length in E. cbn in E. lia.
Qed.

Lemma word_string_loop_spec m : forall i r, i + m = length ws ->
  word_string_loop (map wstring (skipn i ws)) (map (plan_word (map wstring ws)) (seq i m)) (Z.of_nat r)
  = match nth_error (flat_map (word_labels ws) (seq i m)) r with
    | Some w => Ok (wstring w)
    | None => Err IndexError
    end.
Proof.
  induction m as [|m IH]; intros i r Hi.
  - rewrite skipn_all2 by lia. cbn. destruct r; reflexivity.
  - assert (Es : skipn i ws = nth i ws [] :: skipn (S i) ws).
    { clear -Hi. revert i Hi. induction ws as [|w l IH]; intros [|i] Hi; cbn in *; try lia; [reflexivity|].
      apply IH. lia. }
    rewrite Es. cbn [map seq word_string_loop flat_map].
    set (P := plan_word (map wstring ws) i).
    destruct (Z.ltb_spec (Z.of_nat r - Z.of_nat P) 0) as [Hlt|Hge].
    + rewrite nth_error_app1 by (rewrite word_labels_length; fold P; lia).
      unfold word_labels. fold P. set (w := nth i ws []).
      pose proof (plan_word_le ws Hws i) as HP. change (P <= length w) in HP.
      erewrite map_nth_error.
      2:{ rewrite nth_error_nth' with (d := 0) by (rewrite seq_length; lia).
          rewrite seq_nth by lia. reflexivity. }
      f_equal. replace (Z.of_nat r - Z.of_nat P)%Z with (- Z.of_nat (P - r))%Z by lia.
      rewrite label_string.
      * do 2 f_equal. unfold pystr in *. lia.
      * apply (W_wf ws Hws i).
      * unfold pystr in *. lia.
    + rewrite nth_error_app2 by (rewrite word_labels_length; fold P; lia).
      rewrite word_labels_length. fold P.
      replace (Z.of_nat r - Z.of_nat P)%Z with (Z.of_nat (r - P)) by lia.
      apply IH. lia.
Qed.

Lemma word_string_spec r :
  word_string_loop (map wstring ws) (create_plan (map wstring ws)) (Z.of_nat r)
  = match nth_error (dedup word_eq_dec [] (flat_map prefixes ws)) r with
    | Some w => Ok (wstring w)
    | None => Err IndexError
    end.
Proof.
  rewrite <- all_labels_dedup. unfold create_plan. rewrite map_length.
  exact (word_string_loop_spec (length ws) 0 r eq_refl).
Qed.

Lemma plan_total_spec :
  plan_total (create_plan (map wstring ws)) = length (dedup word_eq_dec [] (flat_map prefixes ws)).
Proof. rewrite plan_total_labels. now rewrite all_labels_dedup. Qed.
End Plan2.
