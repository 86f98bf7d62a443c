(** ISS: rows, batching, independence of samples. *)
From Coq Require Import Ascii String List Arith ZArith Bool Lia Reals.
From Verif Require Import Num Arr L_Arr M_Str M_Semiring M_Words M_ISS.
Import ListNotations.
Local Open Scope nat_scope.

Lemma skipn_skipn' {A} (l : list A) : forall i j, skipn j (skipn i l) = skipn (i + j) l.
Proof.
  induction l as [|x l IH]; intros [|i] j; cbn; auto; now destruct j.
Qed.

Section Gen.
Context {T : Type} `{Num T}.

Lemma bind_assoc {A B C} (r : res A) (f : A -> res B) (g : B -> res C) :
  bind (bind r f) g = bind r (fun a => bind (f a) g).
Proof. destruct r; reflexivity. Qed.

(** batch_rows of a concatenation. *)
Lemma batch_rows_app s (X : dataset T) wt plan a : forall i b,
  batch_rows s X wt plan i (a ++ b)
  = bind (batch_rows s X wt plan i a)
      (fun ra => bind (batch_rows s X wt plan (i + length a) b) (fun rb => Ok (ra ++ rb))).
Proof.
  induction a as [|w a IH]; intros i b; cbn [app batch_rows length].
  - cbn [bind]. rewrite Nat.add_0_r. destruct (batch_rows s X wt plan i b); reflexivity.
  - rewrite bind_assoc. destruct (assign_rows _ _) as [blk|e]; cbn [bind]; [|reflexivity].
    rewrite IH. replace (S i + length a) with (i + S (length a)) by lia.
    destruct (batch_rows s X wt plan (S i) a) as [ra|e]; cbn [bind]; [|reflexivity].
    destruct (batch_rows s X wt plan (i + S (length a)) b) as [rb|e]; cbn [bind]; [|reflexivity].
    now rewrite app_assoc.
Qed.

(** The guard raised by [_calculate_ISS] for SINGLE + argmax. *)
Definition argmax_guard (s : semiring) (plan : option (list nat)) : bool :=
  match plan with None => is_argmax s | Some _ => false end.

Lemma calc_iss_spec s (X : dataset T) ws wt plan : forall fuel i bs,
  1 <= bs -> length ws - i <= fuel -> i < length ws ->
  match (if argmax_guard s plan then Err NotImplementedError
         else batch_rows s X wt plan i (skipn i ws)) with
  | Ok rows => exists batches, calc_iss fuel s X ws bs wt plan i = Ok (batches, true)
                 /\ List.concat batches = rows
                 /\ length batches = (length ws - i + bs - 1) / bs
                 /\ forall j, j < length batches ->
                      batch_rows s X wt plan (i + j * bs) (firstn bs (skipn (i + j * bs) ws))
                      = Ok (nth j batches [])
  | Err e => calc_iss fuel s X ws bs wt plan i = Err e
  end.
Proof.
  induction fuel as [|f IH]; intros i bs Hbs Hf Hi; [lia|].
  cbn [calc_iss]. destruct (Nat.leb_spec (length ws) i); [lia|].
  fold (argmax_guard s plan).
  destruct (argmax_guard s plan) eqn:Eg; [reflexivity|].
  destruct (Nat.ltb_spec (length ws) (i + bs)) as [Hlast|Hmore].
  - rewrite firstn_all2 by (rewrite skipn_length; lia).
    destruct (batch_rows s X wt plan i (skipn i ws)) as [rows|e] eqn:Er; cbn [bind]; [|reflexivity].
    assert (E : calc_iss f s X ws (length ws - i) wt plan (i + (length ws - i)) = Ok ([], true)).
    { destruct f; cbn [calc_iss]; destruct (Nat.leb_spec (length ws) (i + (length ws - i))); try lia; reflexivity. }
    rewrite E. cbn [bind]. exists [rows]. split; [reflexivity|]. split; [apply app_nil_r|]. split.
    + cbn [length]. apply Nat.div_unique with (r := length ws - i - 1); lia.
    + intros j Hj. cbn [length] in Hj. assert (j = 0) as -> by lia. cbn [nth Nat.mul]. rewrite Nat.add_0_r.
      rewrite firstn_all2 by (rewrite skipn_length; lia). exact Er.
  - assert (Esplit : skipn i ws = firstn bs (skipn i ws) ++ skipn (i + bs) ws).
    { rewrite <- (firstn_skipn bs (skipn i ws)) at 1. f_equal. apply skipn_skipn'. }
    assert (El : length (firstn bs (skipn i ws)) = bs) by (rewrite firstn_length, skipn_length; lia).
    assert (Erows := batch_rows_app s X wt plan (firstn bs (skipn i ws)) i (skipn (i + bs) ws)).
    rewrite <- Esplit, El in Erows. rewrite Erows. clear Erows.
    destruct (batch_rows s X wt plan i (firstn bs (skipn i ws))) as [ra|e] eqn:Ea; cbn [bind]; [|reflexivity].
    destruct (Nat.eq_dec (i + bs) (length ws)) as [Heq|Hne].
    + assert (E : calc_iss f s X ws bs wt plan (i + bs) = Ok ([], true)).
      { destruct f; cbn [calc_iss]; destruct (Nat.leb_spec (length ws) (i + bs)); try lia; reflexivity. }
      rewrite E. rewrite skipn_all2 by lia. cbn [batch_rows bind]. rewrite app_nil_r.
      exists [ra]. split; [reflexivity|]. split; [apply app_nil_r|]. split.
      * cbn [length]. apply Nat.div_unique with (r := bs - 1); lia.
      * intros j Hj. cbn [length] in Hj. assert (j = 0) as -> by lia. cbn [nth Nat.mul].
        rewrite Nat.add_0_r. exact Ea.
    + specialize (IH (i + bs) bs Hbs ltac:(lia) ltac:(lia)). try rewrite Eg in IH.
      destruct (batch_rows s X wt plan (i + bs) (skipn (i + bs) ws)) as [rb|e] eqn:Eb; cbn [bind].
      * destruct IH as (bt & Ec & Econ & Elen & Hj). rewrite Ec. cbn [bind].
        exists (ra :: bt). split; [reflexivity|]. split; [cbn; now rewrite Econ|]. split.
        -- cbn [length]. rewrite Elen.
           replace (length ws - i + bs - 1) with (length ws - (i + bs) + bs - 1 + 1 * bs) by lia.
           rewrite Nat.div_add by lia. lia.
        -- intros [|j] Hlt; cbn [nth].
           ++ cbn [Nat.mul]. rewrite Nat.add_0_r. exact Ea.
           ++ cbn [length] in Hlt. rewrite <- (Hj j) by lia.
              replace (i + S j * bs) with (i + bs + j * bs) by lia. reflexivity.
      * now rewrite IH.
Qed.

Lemma calc_iss_zero s (X : dataset T) ws wt plan : argmax_guard s plan = false ->
  forall fuel i, i < length ws ->
  calc_iss fuel s X ws 0 wt plan i = Ok (repeat [] fuel, false).
Proof.
  intros Eg fuel. induction fuel as [|f IH]; intros i Hi; cbn [calc_iss].
  - destruct (Nat.leb_spec (length ws) i); [lia|reflexivity].
  - destruct (Nat.leb_spec (length ws) i); [lia|].
    destruct (Nat.ltb_spec (length ws) (i + 0)); [lia|].
    fold (argmax_guard s plan). rewrite Eg. cbn [firstn batch_rows bind].
    rewrite Nat.add_0_r, IH by assumption. reflexivity.
Qed.

(** transform *)
Definition cfg_guard (c : iss_cfg T) := argmax_guard (is_sr c) (is_plan_opt c).

Lemma iss_transform_eq (c : iss_cfg T) X : is_words c <> [] ->
  iss_transform c X = (if cfg_guard c then Err NotImplementedError
     else batch_rows (is_sr c) X (is_wt c) (is_plan_opt c) 0 (map iw_val (is_words c))).
Proof.
  intros Hne. unfold iss_transform. cbn [calc_iss].
  rewrite map_length.
  assert (0 < length (is_words c)) by (destruct (is_words c); [congruence|cbn; lia]).
  destruct (Nat.leb_spec (length (is_words c)) 0); [lia|].
  fold (argmax_guard (is_sr c) (is_plan_opt c)). fold (cfg_guard c).
  destruct (cfg_guard c); [reflexivity|]. rewrite Nat.add_0_l, Nat.ltb_irrefl.
  cbn [skipn]. rewrite firstn_all2 by (rewrite map_length; lia).
  destruct (batch_rows _ _ _ _ _ _) as [rows|e]; cbn [bind]; [|reflexivity].
  rewrite Nat.leb_refl. reflexivity.
Qed.

Lemma iss_transform_empty (c : iss_cfg T) X : is_words c = [] -> iss_transform c X = Err StopIteration.
Proof. intros E. unfold iss_transform. rewrite E. reflexivity. Qed.

Lemma batch_transform_spec (c : iss_cfg T) X b fuel :
  1 <= b <= length (is_words c) -> length (is_words c) <= fuel ->
  match iss_transform c X with
  | Ok rows => exists batches, batch_transform fuel c X b = Ok (batches, true)
                 /\ List.concat batches = rows
                 /\ length batches = (length (is_words c) + b - 1) / b
                 /\ forall j, j < length batches ->
                      batch_rows (is_sr c) X (is_wt c) (is_plan_opt c) (j * b)
                        (firstn b (skipn (j * b) (map iw_val (is_words c)))) = Ok (nth j batches [])
  | Err e => batch_transform fuel c X b = Err e
  end.
Proof.
  intros Hb Hf. rewrite iss_transform_eq by (intros E; rewrite E in Hb; cbn in Hb; lia).
  unfold batch_transform. destruct (Nat.ltb_spec (length (is_words c)) b); [lia|].
  pose proof (calc_iss_spec (is_sr c) X (map iw_val (is_words c)) (is_wt c) (is_plan_opt c) fuel 0 b) as HS.
  rewrite map_length in HS. specialize (HS ltac:(lia) ltac:(lia) ltac:(lia)).
  cbn [skipn] in HS. unfold cfg_guard. destruct (argmax_guard (is_sr c) (is_plan_opt c)); [exact HS|].
  destruct (batch_rows _ _ _ _ 0 _) as [rows|e]; [|exact HS].
  rewrite Nat.sub_0_r in HS. exact HS.
Qed.

Lemma batch_transform_too_big fuel (c : iss_cfg T) X b : length (is_words c) < b ->
  batch_transform fuel c X b = Err ValueError.
Proof. intros Hb. unfold batch_transform. destruct (Nat.ltb_spec (length (is_words c)) b); [reflexivity|lia]. Qed.

Lemma batch_transform_zero fuel (c : iss_cfg T) X : is_words c <> [] -> cfg_guard c = false ->
  batch_transform fuel c X 0 = Ok (repeat [] fuel, false).
Proof.
  intros Hne Hg. unfold batch_transform.
  destruct (Nat.ltb_spec (length (is_words c)) 0); [lia|].
  apply calc_iss_zero; [exact Hg|]. rewrite map_length. destruct (is_words c); [congruence|cbn; lia].
Qed.

(** ** The rows as a pure function (no argmax on general words) *)
Definition word_block (s : semiring) (X : dataset T) wt (plan : option (list nat)) (i : nat) (w : wordv T) :=
  swap01 (word_rows s plan i w) (iterated_sums s X w (word_ext plan i) wt).

Definition plain (s : semiring) (w : wordv T) : Prop :=
  match w with WSimple _ _ => True | WGeneral _ => is_argmax s = false end.

Lemma sr_rows_plain s w plan i : plain s w -> sr_rows s w (word_ext plan i) = word_rows s plan i w.
Proof. unfold plain, sr_rows, word_rows. destruct w, s as [|[]|]; cbn; intros Hp; try reflexivity; discriminate. Qed.

Lemma swap01_length ext (A : list (list (list T))) : length (swap01 ext A) = ext.
Proof. unfold swap01. now rewrite map_length, seq_length. Qed.

Fixpoint all_rows s (X : dataset T) wt plan i (ws : list (wordv T)) :=
  match ws with [] => [] | w :: r => word_block s X wt plan i w ++ all_rows s X wt plan (S i) r end.

Lemma batch_rows_pure s (X : dataset T) wt plan ws : forall i, Forall (plain s) ws ->
  batch_rows s X wt plan i ws = Ok (all_rows s X wt plan i ws).
Proof.
  induction ws as [|w ws IH]; intros i Hp; [reflexivity|]. inversion Hp as [|? ? Hw Hws]; subst.
  cbn [batch_rows all_rows]. rewrite (sr_rows_plain s w plan i Hw).
  unfold assign_rows. rewrite swap01_length, Nat.eqb_refl. cbn [bind].
  rewrite IH by assumption. reflexivity.
Qed.

Lemma all_rows_flat s (X : dataset T) wt plan d ws : forall i,
  all_rows s X wt plan i ws
  = flat_map (fun j => word_block s X wt plan (i + j) (nth j ws d)) (seq 0 (length ws)).
Proof.
  induction ws as [|w ws IH]; intros i; [reflexivity|].
  cbn [all_rows length seq flat_map nth]. rewrite Nat.add_0_r. f_equal.
  rewrite IH. rewrite <- seq_shift, flat_map_concat_map, flat_map_concat_map, map_map.
  f_equal. apply map_ext. intros j. f_equal. lia.
Qed.

Lemma word_block_single s (X : dataset T) wt i w : is_argmax s = false ->
  word_block s X wt None i w = [map (fun sm => nth 0 sm []) (iterated_sums s X w 1 wt)].
Proof. intros E. unfold word_block, word_rows. rewrite E. reflexivity. Qed.

Lemma all_rows_single s (X : dataset T) wt ws i : is_argmax s = false ->
  all_rows s X wt None i ws
  = map (fun w => map (fun sm => nth 0 sm []) (iterated_sums s X w 1 wt)) ws.
Proof.
  intros E. revert i. induction ws as [|w ws IH]; intros i; [reflexivity|].
  cbn [all_rows map]. rewrite word_block_single by exact E. cbn. f_equal. apply IH.
Qed.
End Gen.
