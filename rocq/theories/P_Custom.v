(** C77, C78: ISS over user-defined semirings. *)
From Coq Require Import Ascii String List Arith ZArith Bool Reals Lia Lra.
From Verif Require Import Num Arr L_Arr M_Str M_Semiring M_Words M_ISS S_ISS S_Plan S_Custom L_Tuples L_Plan L_ISS L_General L_Rows L_Ext L_Custom L_RComp M_Custom P_ISS.
Import ListNotations.
Local Open Scope nat_scope.

(** ** C77.  [letters_of w] are the letters of a general word, resp. [counted]
    (S_Custom) of every extended letter of a simple word; the entry at time t
    is [citerated], and the number 0 where that has no value.
    [silent]: the weighting's [get_lookup] raises at most NotImplementedError. *)
Theorem C77_letters : forall {T} {N : Num T} (exts : list (list Z)) alpha e,
  letters_of (T := T) (WSimple exts alpha) = map counted exts /\ letters_of (T := T) (WGeneral e) = e.
Proof. intros. split; reflexivity. Qed.
Print Assumptions C77_letters.
Theorem C77_single : forall {T} {N : Num T} (c : ciss T) add X n,
  laws add (sr_op (ci_ops c)) (sr_one (ci_ops c)) -> running add (sr_cum (ci_ops c)) ->
  ci_reg c (str "DIM") = Some letter_DIM -> ci_mode c = SINGLE -> ci_words c <> [] ->
  Forall (fun x => x <> [] /\ Forall (fun r => length r = n) x) X -> silent c X ->
  Forall (fun w => letters_of (iw_val w) <> [] /\
                   Forall (fun x => Forall (Forall (fun l : bletter T => length (l x) = n)) (letters_of (iw_val w))) X) (ci_words c) ->
  custom_transform c X
  = Ok (map (fun w => map (fun x => map (fun t =>
          match citerated add (sr_op (ci_ops c)) (sr_one (ci_ops c)) nzero x (letters_of (iw_val w)) t with
          | Some v => v | None => nzero end) (seq 0 n)) X) (ci_words c)) /\
  custom_n c = length (ci_words c) /\
  forall k w, nth_error (ci_words c) k = Some w ->
    custom_label c k = Ok (iw_str w ++ str " : " ++ ci_name c ++ match ci_wt c with Some _ => str " : " ++ ci_wt_name c | None => [] end).
Proof.
  intros T N c add X n Hl Hc Hd Hm Hne HX Hs Hw. split; [|split].
  - exact (single_values c add Hl Hc Hd X n HX (or_introl Hs) Hm Hne Hw).
  - unfold custom_n, ci_plan. now rewrite Hm.
  - intros k w E. unfold custom_label, ci_plan. now rewrite Hm, E.
Qed.
Print Assumptions C77_single.
(** Where there is no value: the first length w - 1 entries. *)
Lemma seq_sorted k : forall a, Sorted.StronglySorted lt (seq a k).
Proof.
  induction k as [|k IH]; intros a; [constructor|]. cbn [seq]. constructor; [apply IH|].
  apply Forall_forall. intros z Hz. apply in_seq in Hz. lia.
Qed.
Lemma blocks_ext {T} {N : Num T} (c c' : ciss T) X ws : forall ws' i, ci_ops c = ci_ops c' -> ci_plan c = ci_plan c' ->
  map letters_of ws = map letters_of ws' -> blocks c X i ws = blocks c' X i ws'.
Proof.
  induction ws as [|w ws IH]; intros [|w' ws'] i Ho Hp E; try discriminate; [reflexivity|]. cbn [map] in E. injection E as Ew E.
  cbn [blocks]. unfold block. rewrite <- Hp, <- Ho, <- Ew. f_equal. now apply IH.
Qed.
Theorem C77_no_value : forall {T} (add mul : T -> T -> T) one d x w t,
  citerated add mul one d x w t = None <-> t + 1 < length w.
Proof.
  intros. unfold citerated, total.
  destruct (map _ (itup (length w) (S t))) as [|y r] eqn:E.
  - split; [intros _|reflexivity]. apply map_eq_nil in E. destruct (Nat.lt_ge_cases (t + 1) (length w)) as [Hlt|Hge]; [exact Hlt|].
    exfalso. assert (Hin : In (seq 0 (length w)) (itup (length w) (S t))).
    { apply itup_In. split; [apply seq_length|]. split; [apply seq_sorted|].
      apply Forall_forall. intros z Hz. apply in_seq in Hz. lia. }
    rewrite E in Hin. destruct Hin.
  - split; [discriminate|]. intros Hlt. rewrite itup_short in E by lia. discriminate.
Qed.
Print Assumptions C77_no_value.
(** EXTENDED mode: the words are written as bracketed bodies; there is one row
    per distinct prefix, labelled by it, and the row of the prefix of a word is
    the iterated sum of the letters of that prefix. *)
Theorem C77_extended : forall {T} {N : Num T} (c : ciss T) add X n bodies,
  laws add (sr_op (ci_ops c)) (sr_one (ci_ops c)) -> running add (sr_cum (ci_ops c)) ->
  ci_reg c (str "DIM") = Some letter_DIM -> ci_mode c = EXTENDED -> ci_words c <> [] ->
  Forall (fun x => x <> [] /\ Forall (fun r => length r = n) x) X -> silent c X ->
  map iw_str (ci_words c) = map wstring bodies -> Forall wf_bodies bodies ->
  map (fun w => length (letters_of (iw_val w))) (ci_words c) = map (@length pystr) bodies ->
  Forall (fun w => Forall (fun x => Forall (Forall (fun l : bletter T => length (l x) = n)) (letters_of (iw_val w))) X) (ci_words c) ->
  let L := dedup word_eq_dec [] (flat_map prefixes bodies) in
  exists rows, custom_transform c X = Ok rows /\ length rows = length L /\ custom_n c = length L /\
    forall r p, nth_error L r = Some p ->
      custom_label c r = Ok (wstring p ++ str " : " ++ ci_name c ++ match ci_wt c with Some _ => str " : " ++ ci_wt_name c | None => [] end) /\
      exists i w b, nth_error (ci_words c) i = Some w /\ nth_error bodies i = Some b /\ firstn (length p) b = p /\
        nth_error rows r = Some (map (fun x => map (fun t =>
          match citerated add (sr_op (ci_ops c)) (sr_one (ci_ops c)) nzero x (firstn (length p) (letters_of (iw_val w))) t with
          | Some v => v | None => nzero end) (seq 0 n)) X).
Proof.
  intros T N c add X n bodies Hl Hc Hd Hm Hne HX Hs Hbs Hwf Hlen Hg L.
  destruct (extended_values c add Hl Hc Hd X n HX (or_introl Hs) bodies Hbs Hwf Hlen Hm Hne Hg) as (rows & E & El & Hr).
  exists rows. split; [exact E|]. split; [exact El|]. split.
  - unfold custom_n, ci_plan. rewrite Hm, Hbs. apply (plan_total_spec bodies Hwf).
  - intros r p Ep. split; [|exact (Hr r p Ep)]. unfold custom_label, ci_plan. rewrite Hm, Hbs, (word_string_spec bodies Hwf).
    unfold L, pystr in Ep. unfold pystr. rewrite Ep. reflexivity.
Qed.
Print Assumptions C77_extended.
(** Batches: the concatenation of the batches is the result of [transform]. *)
Theorem C77_batches : forall {T} {N : Num T} (c : ciss T) X b fuel,
  ci_reg c (str "DIM") = Some letter_DIM -> silent c X ->
  1 <= b <= length (ci_words c) -> length (ci_words c) <= fuel ->
  exists rows batches, custom_transform c X = Ok rows /\ custom_batch_transform fuel c X b = Ok (batches, true) /\
    concat batches = rows /\ length batches = (length (ci_words c) + b - 1) / b.
Proof.
  intros T N c X b fuel Hd Hs Hb Hf. pose proof (map_length iw_val (ci_words c)) as Hl.
  destruct (calc_spec c Hd X (or_introl Hs) fuel 0 b ltac:(lia) ltac:(lia) ltac:(lia)) as (bt & E & Ec & En & _).
  eexists. exists bt. split; [|split; [|split]].
  - rewrite (custom_transform_blocks c Hd X (or_introl Hs)); [reflexivity|]. intros Z. rewrite Z in Hb. cbn in Hb. lia.
  - unfold custom_batch_transform. destruct (Nat.ltb_spec (length (ci_words c)) b); [lia|]. exact E.
  - exact Ec.
  - now rewrite En, Hl, Nat.sub_0_r.
Qed.
Print Assumptions C77_batches.

(** The laws hold for the three library structures where they are semirings,
    and for others that a user may define. *)
Lemma total_accumulate {T} (add : T -> T -> T) : running add (accumulate add).
Proof.
  intros l. split; [apply accumulate_length|]. intros t Ht. destruct l as [|x l]; [cbn in Ht; lia|]. cbn [firstn total accumulate].
  assert (G : forall l x t, t < length l -> nth_error (scan add x l) t = Some (fold_left add (firstn (S t) l) x)).
  { clear. induction l as [|y l IH]; intros x t Ht; cbn in Ht; [lia|]. destruct t as [|t]; [reflexivity|]. cbn [scan nth_error]. cbv zeta. rewrite IH by lia. reflexivity. }
  destruct t as [|t]; [reflexivity|]. cbn [nth_error]. rewrite G by (cbn in Ht; lia). reflexivity.
Qed.
Example C77_reals_laws : laws Rplus (sr_op (reals_ops (T := R))) (sr_one (reals_ops (T := R))) /\ running Rplus (sr_cum (reals_ops (T := R))).
Proof. split; [constructor; cbn; intros; ring|apply total_accumulate]. Qed.
Definition minplus : srops R := {| sr_one := 0%R; sr_op := Rplus; sr_cum := accumulate Rmin |}.
Example C77_minplus_laws : laws Rmin (sr_op minplus) (sr_one minplus) /\ running Rmin (sr_cum minplus).
Proof.
  split; [|apply total_accumulate]. constructor; cbn; intros; try ring.
  - unfold Rmin. repeat destruct (Rle_dec _ _); lra.
  - unfold Rmin. repeat destruct (Rle_dec _ _); lra.
Qed.
(** A concrete case: (min, +) on the word "[1][12]" in EXTENDED mode. *)
Definition mp_word : sword R := {| sw_name := str "[1][12]"; sw_maxdim := 2; sw_exts := [[1; 0]; [1; 1]]%Z; sw_alpha := None |}.
Definition mp_cfg m (wt : option (dataset R -> res (list (series R)))) : ciss R :=
  {| ci_words := [simple_iword mp_word]; ci_mode := m; ci_ops := minplus; ci_name := str "MinPlus"; ci_reg := builtin;
     ci_wt := wt; ci_wt_name := str "Indices" |}.
Example C77_nonvacuous :
  simple_word (str "[1][12]") = Ok mp_word /\
  ci_reg (mp_cfg EXTENDED None) (str "DIM") = Some letter_DIM /\ silent (mp_cfg EXTENDED None) [[[3; 1]; [5; 2]]]%R /\
  map iw_str (ci_words (mp_cfg EXTENDED None)) = map wstring [[str "1"; str "12"]] /\
  map (fun w => length (letters_of (iw_val w))) (ci_words (mp_cfg EXTENDED None)) = [2] /\
  custom_label (mp_cfg EXTENDED None) 1 = Ok (str "[1][12] : MinPlus") /\
  citerated Rmin Rplus 0%R 0%R [[3; 1]; [5; 2]]%R (letters_of (iw_val (simple_iword mp_word))) 1 = Some (3 + (0 + ((1 + (2 + 0)) + 0)))%R /\
  citerated Rmin Rplus 0%R 0%R [[3; 1]; [5; 2]]%R (letters_of (iw_val (simple_iword mp_word))) 0 = None.
Proof.
  repeat split. unfold citerated, cword_val, product_. cbn. change (Pos.to_nat 1) with 1. cbn. f_equal. ring.
Qed.

(** ** C78.  Weightings and negative exponents have no effect for a
    user-defined semiring. *)
Definition no_weighting {T} (c : ciss T) : ciss T :=
  {| ci_words := ci_words c; ci_mode := ci_mode c; ci_ops := ci_ops c; ci_name := ci_name c; ci_reg := ci_reg c; ci_wt := None; ci_wt_name := [] |}.
Theorem C78_weighting_ignored : forall {T} {N : Num T} (c : ciss T) X,
  ci_reg c (str "DIM") = Some letter_DIM -> ci_words c <> [] -> silent c X ->
  custom_transform c X = custom_transform (no_weighting c) X.
Proof.
  intros T N c X Hd Hne Hs.
  rewrite (custom_transform_blocks c Hd X (or_introl Hs) Hne), (custom_transform_blocks (no_weighting c) Hd X (or_introl I) Hne). reflexivity.
Qed.
Print Assumptions C78_weighting_ignored.
(** An exception other than NotImplementedError is passed on (simple words). *)
Theorem C78_lookup_error : forall {T} {N : Num T} (c : ciss T) X g e w r,
  ci_wt c = Some g -> g X = Err e -> e <> NotImplementedError -> ci_words c = simple_iword w :: r ->
  custom_transform c X = Err e.
Proof.
  intros T N c X g e w r Hg He Hne Hw. unfold custom_transform. rewrite Hw. cbn [length custom_calc]. rewrite Hw. cbn [map length].
  rewrite map_length, Nat.add_0_l, Nat.ltb_irrefl. cbn [Nat.leb skipn firstn custom_rows].
  unfold custom_sums, custom_lookup. rewrite Hg. cbn [simple_iword iw_val]. rewrite He. destruct e; try reflexivity. contradiction.
Qed.
Print Assumptions C78_lookup_error.
(** Replacing all negative exponents by 0 changes nothing. *)
Definition drop_negative (w : iword R) : iword R :=
  match iw_val w with
  | WSimple exts alpha => {| iw_str := iw_str w; iw_val := WSimple (map (map (Z.max 0)) exts) alpha |}
  | WGeneral _ => w
  end.
Definition with_words {T} (ws : list (iword T)) (c : ciss T) : ciss T :=
  {| ci_words := ws; ci_mode := ci_mode c; ci_ops := ci_ops c; ci_name := ci_name c; ci_reg := ci_reg c; ci_wt := ci_wt c; ci_wt_name := ci_wt_name c |}.
Theorem C78_negative_exponents_ignored : forall (c : ciss R) X,
  ci_reg c (str "DIM") = Some letter_DIM -> ci_words c <> [] -> silent c X ->
  custom_transform c X = custom_transform (with_words (map drop_negative (ci_words c)) c) X.
Proof.
  intros c X Hd Hne Hs.
  rewrite (custom_transform_blocks c Hd X (or_introl Hs) Hne), (custom_transform_blocks (with_words (map drop_negative (ci_words c)) c) Hd X (or_introl Hs)).
  2:{ cbn [with_words ci_words]. now destruct (ci_words c). }
  f_equal.
  assert (Ep : ci_plan (with_words (map drop_negative (ci_words c)) c) = ci_plan c).
  { unfold ci_plan. cbn [with_words ci_mode ci_words]. rewrite map_map.
    replace (map (fun x => iw_str (drop_negative x)) (ci_words c)) with (map iw_str (ci_words c)); [reflexivity|].
    apply map_ext. intros w. unfold drop_negative. now destruct (iw_val w). }
  assert (Ec : forall el : list Z, counted (T := R) (map (Z.max 0) el) = counted el).
  { intros el. unfold counted. rewrite map_length. apply flat_map_ext. intros d. f_equal.
    change (nth d (map (Z.max 0) el) 0%Z) with (nth d (map (Z.max 0) el) (Z.max 0 0)). rewrite (map_nth (Z.max 0) el 0%Z d). lia. }
  assert (El : forall w, letters_of (T := R) (iw_val (drop_negative w)) = letters_of (iw_val w)).
  { intros w. unfold drop_negative. destruct (iw_val w) as [exts a|e] eqn:Ew; [|now rewrite Ew]. cbn [letters_of iw_val]. rewrite map_map. now apply map_ext. }
  apply blocks_ext; [reflexivity|now rewrite Ep|]. cbn [with_words ci_words]. rewrite !map_map. apply map_ext. intros w. now rewrite El.
Qed.
Print Assumptions C78_negative_exponents_ignored.

(** Without weighting and negative exponents a subclass with the operations of
    Reals agrees with Reals. *)
Theorem C78_reals_subclass_agrees : forall (c : ciss R) (c' : iss_cfg R) words X n,
  ci_words c = map simple_iword words -> is_words c' = map simple_iword words -> is_mode c' = ci_mode c ->
  ci_ops c = reals_ops -> is_sr c' = Reals -> is_wt c' = None -> ci_reg c (str "DIM") = Some letter_DIM ->
  words <> [] -> silent c X -> (ci_mode c = EXTENDED -> Forall parsed words) -> wf_dataset X n ->
  Forall (fun w => sw_exts w <> [] /\ nonneg_word (sw_exts w) /\ Forall (fun x => kernel_ok Reals x n (sw_exts w)) X) words ->
  custom_transform c X = iss_transform c' X.
Proof.
  intros c c' words X n Ew Ew' Hm Ho Hr Hwt Hd Hne Hs Hp HX HF.
  assert (Hne1 : ci_words c <> []) by (rewrite Ew; now destruct words).
  assert (Hne2 : is_words c' <> []) by (rewrite Ew'; now destruct words).
  rewrite (custom_transform_blocks c Hd X (or_introl Hs) Hne1), (iss_transform_eq c' X Hne2).
  unfold cfg_guard. rewrite Hr.
  assert (Eg : argmax_guard Reals (is_plan_opt c') = false) by (now destruct (is_plan_opt c')). rewrite Eg, Hwt, Ew'.
  rewrite batch_rows_pure by (rewrite map_map; apply Forall_map, Forall_forall; intros; exact I).
  rewrite (all_rows_agree Reals X n (is_plan_opt c') None (or_introl eq_refl) HX words 0).
  - f_equal. rewrite Ew, !map_map.
    assert (Ep : ci_plan c = is_plan_opt c').
    { unfold ci_plan, is_plan_opt, is_plan. rewrite Hm, Ew, Ew'. destruct (ci_mode c); reflexivity. }
    generalize 0. induction words as [|w words IH] in |- *; intros i; [reflexivity|]. cbn [map blocks all_rows]. f_equal; [|apply IH].
    unfold block, word_block, word_rows, iterated_sums. cbn [is_argmax to_dim general_iword iw_val general_single]. rewrite Ep, Ho. f_equal.
    apply map_ext. intros x. f_equal. change (bind_word builtin (dim_word (sw_exts w))) with (bdim (sw_exts w)). rewrite bdim_eq.
    cbn [simple_iword iw_val letters_of]. apply map_ext. intros el. unfold counted, letter_dims. rewrite map_flat_map. apply flat_map_ext. intros d. now rewrite map_repeat'.
  - intros j w Hj. assert (Hin := nth_error_In _ _ Hj). rewrite Forall_forall in HF. destruct (HF w Hin) as (H1 & H2 & H3).
    split; [assumption|]. split; [assumption|]. cbn [plus]. destruct (ci_mode c) eqn:Emode.
    + unfold is_plan_opt. rewrite Hm. cbn. destruct (sw_exts w); [congruence|cbn; lia].
    + eapply plan_le_exts; eauto.
Qed.
Print Assumptions C78_reals_subclass_agrees.

(** With a weighting it does not: x = (1, 2), word "[1][1]", Indices-like lookup (0, 1), alpha = 1. *)
Theorem C78_weighted_subclass_refuted :
  let lookup (X : dataset R) := map (fun _ => [0; 1]%R) X in
  let c := {| ci_words := [simple_iword w11']; ci_mode := SINGLE; ci_ops := reals_ops; ci_name := str "MyReals"; ci_reg := builtin;
              ci_wt := Some (fun X => Ok (lookup X)); ci_wt_name := str "Indices" |} in
  let c' := {| is_words := [simple_iword w11']; is_mode := SINGLE; is_sr := Reals; is_wt := Some {| wg_lookup := lookup; wg_total := false |};
               is_wt_name := str "Indices" |} in
  custom_transform c [[[1; 2]]]%R = Ok [[[0; 2]]]%R /\
  exists v, iss_transform c' [[[1; 2]]]%R = Ok [[[0; v]]]%R /\ (v < 1)%R.
Proof.
  cbn zeta. split; [rcompute|]. exists (2 * exp (-1))%R. split.
  - unfold iss_transform. cbn. change (Pos.to_nat 1) with 1. cbn. do 2 f_equal. f_equal. f_equal; [ring|]. f_equal.
    replace (0 * 1)%R with 0%R by ring. replace (- (1) * 1)%R with (-1)%R by ring. rewrite exp_0. ring.
  - assert (Hlt : (2 * exp (-1) < 1)%R); [|exact Hlt].
    assert (H1 : (2 < exp 1)%R) by (pose proof (exp_ineq1 1 ltac:(lra)); lra).
    change (-1)%R with (- (1))%R. rewrite exp_Ropp. apply (Rmult_lt_reg_r (exp 1)); [lra|]. rewrite Rmult_assoc, Rinv_l; lra.
Qed.
Print Assumptions C78_weighted_subclass_refuted.
(** Nor with the operations of Arctic: the inherited algorithm takes maxima
    over strictly increasing positions, the class Arctic over non-decreasing ones. *)
Theorem C78_arctic_subclass_refuted :
  let c := {| ci_words := [simple_iword w11']; ci_mode := SINGLE; ci_ops := arctic_ops; ci_name := str "MyArctic"; ci_reg := builtin;
              ci_wt := None; ci_wt_name := [] |} in
  let c' := {| is_words := [simple_iword w11']; is_mode := SINGLE; is_sr := Arctic false; is_wt := None; is_wt_name := [] |} in
  laws Rmax (sr_op (ci_ops c)) (sr_one (ci_ops c)) /\
  custom_transform c [[[1; 2]]]%R = Ok [[[0; 3]]]%R /\ iss_transform c' [[[1; 2]]]%R = Ok [[[2; 4]]]%R.
Proof.
  cbn zeta. split; [|split; rcompute].
  constructor; cbn; intros; try ring; unfold Rmax; repeat destruct (Rle_dec _ _); lra.
Qed.
Print Assumptions C78_arctic_subclass_refuted.
