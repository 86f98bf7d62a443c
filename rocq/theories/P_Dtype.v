(** C83, C84: integer datasets. *)
From Coq Require Import Ascii String List Arith ZArith Reals Bool Lia Lra.
From Verif Require Import Num Arr M_Str M_Np M_Prep M_Cache M_PrepObj M_Semiring M_Words M_ISS M_Cos M_Seeds M_Dtype S_Prep S_Dtype L_Arr L_Str L_Np L_Prep L_Prep2 L_Prep3 L_Dtype.
Import ListNotations.

(** C83: on float arrays the dtypes change nothing: what is said elsewhere
    about [transform] and about iterated sums is what happens. *)
Theorem C83_float_arrays : forall (T : Type) (HN : Num T) (parse : pystr -> res T) (powf : T -> T -> T) (eps5 : T),
  (forall p X, pr_dt parse powf TFloat p TFloat X = (let! Y := fst (pr_transform parse powf p X) in Ok (TFloat, Y))) /\
  (forall ps X, chain_dt parse powf TFloat ps TFloat X = (let! Y := chain parse powf ps X in Ok (TFloat, Y))) /\
  (forall i X, iss_dt eps5 TFloat TFloat i X = iss_batches eps5 i X).
Proof.
  intros. split; [intros; apply pr_dt_float|]. split; [intros; apply chain_dt_float|]. intros. apply iss_dt_float.
Qed.
Print Assumptions C83_float_arrays.

(** C83: on an integer array (or a float one, with a cache made from an array
    of either dtype) the preparateurs of a slice either raise a TypeError or
    give the result they give for the same numbers as floats, as long as no
    fractional number has to be stored in an integer array.  The dtype of the
    result is known beforehand. *)
Theorem C83_integer_arrays : forall (parse : pystr -> res R) (powf : R -> R -> R) cd dt ps X,
  lossless_chain ps dt = true -> array_of dt X ->
  (chain_dt parse powf cd ps dt X = Err TypeError \/
   chain_dt parse powf cd ps dt X = (let! Y := chain parse powf ps X in Ok (out_chain ps dt, Y))) /\
  (forall Y, chain parse powf ps X = Ok Y -> array_of (out_chain ps dt) Y).
Proof. intros. now apply chain_dt_cases. Qed.
Print Assumptions C83_integer_arrays.

Lemma cut_shape {A} (l m : list (res A)) : cut_at_type l m -> m = l \/ exists k, (k < length l)%nat /\ m = firstn k l ++ [Err TypeError].
Proof.
  induction 1 as [l|l Hl|x l m C IH]; [now left| |].
  - right. exists 0%nat. split; [|reflexivity]. destruct l; [contradiction|cbn; lia].
  - destruct IH as [->|(k & Hk & ->)]; [now left|]. right. exists (S k). split; [cbn; lia|reflexivity].
Qed.
(** C83: iterated sums of an integer array are those of the same numbers as
    floats, or the iteration ends with a TypeError on the way. *)
Theorem C83_iterated_sums : forall (T : Type) (HN : Num T) (eps5 : T) cd dt i X,
  iss_dt eps5 cd dt i X = iss_batches eps5 i X \/
  exists k, (k < length (iss_batches eps5 i X))%nat /\ iss_dt eps5 cd dt i X = firstn k (iss_batches eps5 i X) ++ [Err TypeError].
Proof. intros. apply cut_shape, iss_dt_cases. Qed.
Print Assumptions C83_iterated_sums.

(** C83: what is compiled for float64 rejects an integer array. *)
Theorem C83_compiled_preparateurs : forall (T : Type) (HN : Num T) (parse : pystr -> res T) (powf : T -> T -> T) cd f ca X,
  compiled f = true -> pr_dt parse powf cd (PLeaf f ca) TInt X = Err TypeError.
Proof.
  intros T HN parse powf cd f ca X C. cbn [pr_dt]. assert (E : forall c inp, leaf_dt parse powf c inp TInt f X = Err TypeError).
  { intros c inp. destruct f; try discriminate C; cbn [leaf_dt compiled] in *.
    - destruct (inc_depth c0); [discriminate C|reflexivity].
    - destruct w as [z|g].
      + destruct st as [v|]; [|destruct z as [|z|z]; try discriminate C; destruct z; discriminate C].
        destruct z as [|z|z]; try reflexivity. destruct z; try reflexivity. discriminate C.
      + destruct st; [reflexivity|discriminate C].
    - destruct st; [reflexivity|discriminate C].
    - destruct st; [reflexivity|discriminate C]. }
  destruct ca; apply E.
Qed.
Print Assumptions C83_compiled_preparateurs.
(** WIN and SPE with a step read the cache, whose sums are compiled functions
    of its input; without an attached cache that is X itself. *)
Theorem C83_cached_sums : forall (T : Type) (HN : Num T) (parse : pystr -> res T) (powf : T -> T -> T) X freq op fn (two : bool) ml,
  pr_dt parse powf TInt (PLeaf (LSPE freq op fn (Some (if two then str "L2" else str "L1")) ml) None) TInt X = Err TypeError /\
  forall inp dt, pr_dt parse powf TInt (PLeaf (LSPE freq op fn (Some (if two then str "L2" else str "L1")) ml) (Some inp)) dt X = Err TypeError.
Proof. intros. destruct two; split; reflexivity. Qed.
Theorem C83_window : forall (T : Type) (HN : Num T) (parse : pystr -> res T) (powf : T -> T -> T) X start stop,
  ~ In ":"%char start ->
  pr_dt parse powf TInt (PLeaf (LWIN start stop) None) TInt X = Err TypeError /\
  forall inp dt, pr_dt parse powf TInt (PLeaf (LWIN start stop) (Some inp)) dt X = Err TypeError.
Proof.
  intros T HN parse powf X start stop HC.
  assert (E : split_on colon (start ++ str ":L2") = [start; str "L2"]).
  { change (str ":L2") with (colon :: str "L2"). rewrite split_on_sep by exact HC. reflexivity. }
  split; [|intros inp dt]; cbn [pr_dt leaf_dt]; unfold cache_dt at 1; rewrite E; reflexivity.
Qed.
Print Assumptions C83_window.
Print Assumptions C83_cached_sums.

(** C83: no simple word has an iterated sum of an integer array, and a CosWISS
    has none at all. *)
Lemma plain_dt_simple {T} `{Num T} eps5 cd inp c X : forall ws i n b,
  nth_error (plain_dt eps5 cd TInt inp c X i ws) n = Some (Ok b) -> exists w, nth_error ws n = Some w /\ is_simple w = false.
Proof.
  induction ws as [|w r IH]; intros i n b E; [now destruct n|].
  cbn [plain_dt] in E.
  set (rows := if match is_plan_opt (io_cfg eps5 inp c) with Some _ => false | None => is_argmax (io_sr c) end then _ else _) in E.
  destruct rows as [b0|e] eqn:ER.
  2:{ destruct n as [|n]; [discriminate|destruct n; discriminate]. }
  destruct n as [|n].
  - exists w. split; [reflexivity|]. destruct (is_simple w) eqn:S1; [|reflexivity]. exfalso. subst rows.
    destruct (match is_plan_opt (io_cfg eps5 inp c) with Some _ => false | None => is_argmax (io_sr c) end); [discriminate|].
    destruct (io_wt c) as [[k t]|]; [destruct (lookup_dt eps5 cd TInt inp k X)|]; discriminate.
  - cbn [nth_error] in *. eapply IH. exact E.
Qed.
Theorem C83_simple_words : forall (T : Type) (HN : Num T) (eps5 : T) cd i X n b,
  nth_error (iss_dt eps5 cd TInt i X) n = Some (Ok b) ->
  exists c ca w, i = IPlain c ca /\ nth_error (io_words c) n = Some w /\ is_simple w = false.
Proof.
  intros T HN eps5 cd i X n b E. destruct i as [c ca|c st ca]; cbn [iss_dt] in E.
  - exists c, ca. destruct (io_words c) as [|w0 ws] eqn:EW; [destruct n as [|n]; [discriminate|destruct n; discriminate]|].
    destruct ca as [inp|]; destruct (plain_dt_simple _ _ _ _ _ _ _ _ _ E) as (w & Hw & S1); exists w; auto.
  - destruct (cos_batches c st X 1); [now destruct n|]. destruct n as [|n]; [discriminate|destruct n; discriminate].
Qed.
Print Assumptions C83_simple_words.

Open Scope R_scope.
(** C84: NRM on an integer array: the normalised numbers are stored in an
    integer array, which leaves 1 where the row has its maximum and 0
    everywhere else. *)
Lemma entry_store dt X i j t n d l : has_shape X n d l -> (i < n)%nat -> (j < d)%nat -> (t < l)%nat ->
  entry (map (map (map (store dt))) X) i j t = store dt (entry X i j t).
Proof.
  intros [Hn HX] Hi Hj Ht. unfold entry, row. rewrite (nth_indep _ [] (map (map (store dt)) [])) by (rewrite map_length; lia).
  rewrite (map_nth (map (map (store dt)))). assert (Hx : In (nth i X []) X) by (apply nth_In; lia). 
  destruct (proj1 (Forall_forall _ _) HX _ Hx) as [Hd Hr].
  rewrite (nth_indep _ [] (map (store dt) [])) by (rewrite map_length; lia). rewrite (map_nth (map (store dt))).
  assert (Hrow : In (nth j (nth i X []) []) (nth i X [])) by (apply nth_In; lia).
  pose proof (proj1 (Forall_forall _ _) Hr _ Hrow) as Hlen.
  rewrite (nth_indep _ 0 (store dt 0)) by (rewrite map_length, Hlen; exact Ht). now rewrite (map_nth (store dt)).
Qed.

Lemma trunc_rescale m M v : m <= v -> v <= M -> (m <> M -> v = M -> Rtrunc (rescale m M v) = 1) /\ (m = M \/ v <> M -> Rtrunc (rescale m M v) = 0).
Proof.
  intros H1 H2. split.
  - intros N ->. rewrite rescale_max by exact N. apply (Rtrunc_IZR 1).
  - intros D. apply Rtrunc_small. unfold rescale. destruct (Req_EM_T m M) as [E|N]; [lra|]. destruct D as [D|D]; [contradiction|].
    assert (v < M) by (destruct (Rle_lt_or_eq_dec v M H2); [assumption|contradiction]).
    split; [apply Rmult_le_pos; [lra|left; apply Rinv_0_lt_compat; lra]|].
    apply (Rmult_lt_reg_r (M - m)); [lra|]. unfold Rdiv. rewrite Rmult_assoc, Rinv_l by lra. lra.
Qed.
Theorem C84_nrm_integers : forall (parse : pystr -> res R) (powf : R -> R -> R) cd ca X n d l,
  has_shape X n d l -> (1 <= l)%nat ->
  exists Y, pr_dt parse powf cd (PLeaf (LNRM false) ca) TInt X = Ok (TInt, Y) /\
  forall i j t m M, (i < n)%nat -> (j < d)%nat -> (t < l)%nat ->
    min_on (entry X i j) l m -> max_on (entry X i j) l M ->
    (m <> M -> entry X i j t = M -> entry Y i j t = 1) /\
    (m = M \/ entry X i j t <> M -> entry Y i j t = 0).
Proof.
  intros parse powf cd ca X n d l HX Hl. destruct (nrm_spec X n d l HX Hl) as (Y & E & HY & HS).
  exists (map (map (map (store TInt))) Y). split.
  { cbn [pr_dt]. destruct ca; cbn [leaf_dt]; rewrite E; reflexivity. }
  intros i j t m M Hi Hj Ht Hm HM. destruct (HS i j Hi Hj) as (m' & M' & Hm' & HM' & EY).
  rewrite (min_on_unique _ _ _ _ Hm Hm'), (max_on_unique _ _ _ _ HM HM').
  rewrite (entry_store TInt Y i j t n d l HY Hi Hj Ht), (EY t Ht). cbn [store ntrunc RNum].
  apply trunc_rescale; [apply Hm'|apply HM']; exact Ht.
Qed.
Print Assumptions C84_nrm_integers.
Lemma min_on2_unique f d n m m' : min_on2 f d n m -> min_on2 f d n m' -> m = m'.
Proof. intros [(a & b & Ha & Hb & E) H1] [(a' & b' & Ha' & Hb' & E') H2]. pose proof (H1 a' b' Ha' Hb'). pose proof (H2 a b Ha Hb). lra. Qed.
Lemma max_on2_unique f d n m m' : max_on2 f d n m -> max_on2 f d n m' -> m = m'.
Proof. intros [(a & b & Ha & Hb & E) H1] [(a' & b' & Ha' & Hb' & E') H2]. pose proof (H1 a' b' Ha' Hb'). pose proof (H2 a b Ha Hb). lra. Qed.
(** The same with scale_dim=True: minimum and maximum over all dimensions. *)
Theorem C84_nrm_joint_integers : forall (parse : pystr -> res R) (powf : R -> R -> R) cd ca X n d l,
  has_shape X n d l -> (1 <= l)%nat -> (1 <= d)%nat ->
  exists Y, pr_dt parse powf cd (PLeaf (LNRM true) ca) TInt X = Ok (TInt, Y) /\
  forall i j t m M, (i < n)%nat -> (j < d)%nat -> (t < l)%nat ->
    min_on2 (entry X i) d l m -> max_on2 (entry X i) d l M ->
    (m <> M -> entry X i j t = M -> entry Y i j t = 1) /\
    (m = M \/ entry X i j t <> M -> entry Y i j t = 0).
Proof.
  intros parse powf cd ca X n d l HX Hl Hd. destruct (nrm_joint_spec X n d l HX Hl Hd) as (Y & E & HY & HS).
  exists (map (map (map (store TInt))) Y). split.
  { cbn [pr_dt]. destruct ca; cbn [leaf_dt]; rewrite E; reflexivity. }
  intros i j t m M Hi Hj Ht Hm HM. destruct (HS i Hi) as (m' & M' & Hm' & HM' & EY).
  rewrite (min_on2_unique _ _ _ _ _ Hm Hm'), (max_on2_unique _ _ _ _ _ HM HM').
  rewrite (entry_store TInt Y i j t n d l HY Hi Hj Ht), (EY j t Hj Ht). cbn [store ntrunc RNum].
  apply trunc_rescale; [apply Hm'|apply HM']; assumption.
Qed.
Print Assumptions C84_nrm_joint_integers.
(** C84: "normalised" is therefore not what NRM does to integers. *)
Theorem C84_nrm_integers_refuted : forall (parse : pystr -> res R) (powf : R -> R -> R),
  let X := [[[0; 1; 2]]] in
  exists Y, pr_dt parse powf TInt (PLeaf (LNRM false) None) TInt X = Ok (TInt, Y) /\
  entry Y 0 0 1 = 0 /\
  exists Z, fst (pr_transform parse powf (PLeaf (LNRM false) None) X) = Ok Z /\ entry Z 0 0 1 = 1 / 2.
Proof.
  intros parse powf X.
  assert (HX : has_shape X 1 1 3) by (split; [reflexivity|]; repeat constructor).
  assert (Hm : min_on (entry X 0 0) 3 0).
  { split; [exists 0%nat; split; [lia|reflexivity]|]. intros [|[|[|t]]] Ht; try lia; cbn; lra. }
  assert (HM : max_on (entry X 0 0) 3 2).
  { split; [exists 2%nat; split; [lia|reflexivity]|]. intros [|[|[|t]]] Ht; try lia; cbn; lra. }
  destruct (C84_nrm_integers parse powf TInt None X 1 1 3 HX ltac:(lia)) as (Y & E & HY).
  exists Y. split; [exact E|]. split.
  { apply (HY 0%nat 0%nat 1%nat 0 2); try lia; try assumption. right. cbn. lra. }
  destruct (nrm_spec X 1 1 3 HX ltac:(lia)) as (Z & EZ & _ & HZ). exists Z. rewrite fst_leaf. cbn [leaf_transform]. split; [exact EZ|].
  destruct (HZ 0%nat 0%nat ltac:(lia) ltac:(lia)) as (m & M & Hm' & HM' & EE). rewrite EE by lia.
  rewrite (min_on_unique _ _ _ _ Hm' Hm), (max_on_unique _ _ _ _ HM' HM). unfold rescale. destruct (Req_EM_T 0 2); [lra|]. cbn. lra.
Qed.
Print Assumptions C84_nrm_integers_refuted.

(** C84: NEW(q) on an integer array appends the dimensions of q's result with
    the fractional parts cut off. *)
Lemma shape_store dt X n d l : has_shape X n d l -> has_shape (map (map (map (store dt))) X) n d l.
Proof.
  intros [Hn HX]. split; [now rewrite map_length|]. apply Forall_map. eapply Forall_impl; [|exact HX]. cbn beta. intros x [Hd Hx].
  split; [now rewrite map_length|]. apply Forall_map. eapply Forall_impl; [|exact Hx]. cbn beta. intros r Hr. now rewrite map_length.
Qed.
Theorem C84_new_integers : forall (parse : pystr -> res R) (powf : R -> R -> R) cd q ca X n d l dq Y d',
  has_shape X n d l -> (1 <= n)%nat -> (1 <= d)%nat ->
  pr_dt parse powf cd q TInt X = Ok (dq, Y) -> has_shape Y n d' l -> (1 <= d')%nat ->
  exists Z, pr_dt parse powf cd (PNew q ca) TInt X = Ok (TInt, Z) /\ length Z = n /\
  forall i, (i < n)%nat -> length (nth i Z []) = (d + d')%nat /\
    (forall j, (j < d)%nat -> row Z i j = row X i j) /\
    (forall j t, (j < d')%nat -> (t < l)%nat -> entry Z i (d + j) t = Rtrunc (entry Y i j t)).
Proof.
  intros parse powf cd q ca X n d l dq Y d' HX Hn Hd EY HY Hd'.
  pose proof (shape_store TInt Y n d' l HY) as HY'.
  pose proof (new_spec (fun _ => Ok (map (map (map (store TInt))) Y)) X _ n d l d' HX Hn Hd eq_refl HY' Hd') as EN.
  eexists. split; [|split; [|]].
  - cbn [pr_dt]. rewrite EY. cbn [bind]. rewrite EN. reflexivity.
  - rewrite map2_length, map_length. destruct HX as [-> _]. destruct HY as [-> _]. lia.
  - intros i Hi. assert (LX : length X = n) by apply HX. assert (LY : length (map (map (map (store TInt))) Y) = n) by apply HY'.
    assert (Hx : length (nth i X []) = d) by (eapply sample_length; eauto).
    assert (Hy : length (nth i (map (map (map (store TInt))) Y) []) = d') by (eapply sample_length; eauto).
    rewrite (map2_nth _ _ _ i [] [] []) by lia. split; [rewrite app_length; lia|]. split.
    + intros j Hj. unfold row. rewrite (map2_nth _ _ _ i [] [] []) by lia. now rewrite app_nth1 by lia.
    + intros j t Hj Ht. unfold entry, row. rewrite (map2_nth _ _ _ i [] [] []) by lia. rewrite app_nth2 by lia. rewrite Hx.
      replace (d + j - d)%nat with j by lia. exact (entry_store TInt Y i j t n d' l HY Hi Hj Ht).
Qed.
Print Assumptions C84_new_integers.

(** With NEW(STD), for example, the new dimension is lost: it would be
    -1/2, 1/2 and becomes 0, 0. *)
Definition centred : prep R := PLeaf (LSTD {| std_separately := true; std_var := false; std_eps := 0 |} None) None.
Lemma centred_run parse powf cd dt : pr_dt parse powf cd centred dt [[[0; 1]]] = Ok (TFloat, [[[(0 - (0 + 0 + 1) / nofnat 2) / (1 + 0); (1 - (0 + 0 + 1) / nofnat 2) / (1 + 0)]]]).
Proof. reflexivity. Qed.
Theorem C84_new_integers_refuted : forall (parse : pystr -> res R) (powf : R -> R -> R),
  let X := [[[0; 1]]] in
  (exists Z, pr_dt parse powf TInt (PNew centred None) TInt X = Ok (TInt, Z) /\ entry Z 0 1 0 = 0 /\ entry Z 0 1 1 = 0) /\
  exists Z, fst (pr_transform parse powf (PNew centred None) X) = Ok Z /\ entry Z 0 1 0 = - (1 / 2) /\ entry Z 0 1 1 = 1 / 2.
Proof.
  intros parse powf X. split.
  - assert (HX : has_shape X 1 1 2) by (split; [reflexivity|]; repeat constructor).
    pose proof (centred_run parse powf TInt TInt) as E. fold X in E.
    destruct (C84_new_integers parse powf TInt centred None X 1 1 2 TFloat _ 1 HX ltac:(lia) ltac:(lia) E) as (Z & EZ & _ & HZ); [split; [reflexivity|]; repeat constructor|lia|].
    exists Z. split; [exact EZ|]. destruct (HZ 0%nat ltac:(lia)) as (_ & _ & HE).
    pose proof (HE 0%nat 0%nat ltac:(lia) ltac:(lia)) as E0. pose proof (HE 0%nat 1%nat ltac:(lia) ltac:(lia)) as E1.
    change (1 + 0)%nat with 1%nat in E0, E1. split; [rewrite E0|rewrite E1]; unfold entry, row; cbn [nth]; change (nofnat 2 : R) with 2.
    + replace ((0 - (0 + 0 + 1) / 2) / (1 + 0)) with (- (1 / 2)) by field.
      unfold Rtrunc. destruct (Rle_dec 0 (- (1 / 2))); [lra|]. replace (- - (1 / 2)) with (1 / 2) by ring. rewrite (Int_part_unique (1 / 2) 0) by lra. simpl. ring.
    + apply Rtrunc_small. lra.
  - eexists. split; [reflexivity|]. split; unfold entry, row; cbn [nth map2 app map stretch std_row]; cbn; lra.
Qed.
Print Assumptions C84_new_integers_refuted.

(** The hypotheses of C83 are met, by integer arrays that stay integer arrays
    and by chains that leave the integers in time. *)
Example integer_chain : forall parse powf,
  let ps := [PLeaf (LCTS (CInt 1) false) None; PNew0 None] in
  let X := [[[3; 1; 2]]] in
  lossless_chain ps TInt = true /\ array_of TInt X /\ chain_dt parse powf TInt ps TInt X = Ok (TInt, [[[1; 2; 2]; [1; 2; 2]]]).
Proof.
  intros parse powf ps X. split; [reflexivity|]. split; [|reflexivity].
  intros _ x row v [<-|[]] [<-|[]] Hv. repeat destruct Hv as [<-|Hv]; [now exists 3%Z|now exists 1%Z|now exists 2%Z|destruct Hv].
Qed.
Example leaving_the_integers : forall parse powf,
  let ps := [centred; PLeaf (LNRM false) None] in
  lossless_chain ps TInt = true /\ out_chain ps TInt = TFloat /\
  lossless_chain (rev ps) TInt = false /\
  exists Y, chain_dt parse powf TInt ps TInt [[[0; 1]]] = Ok (TFloat, Y).
Proof.
  intros parse powf ps. split; [reflexivity|]. split; [reflexivity|]. split; [reflexivity|]. eexists. subst ps. cbn [chain_dt].
  rewrite centred_run. reflexivity.
Qed.
(** A word of two kinds of letters: only the general one can be computed. *)
Example compiled_examples : forall (T : Type) (HN : Num T), compiled (T := T) (LINC {| inc_shift := ShInt 1; inc_depth := 1; inc_zp := true |}) = true
  /\ compiled (T := T) (LMAV (WInt 3) (Some 3%Z)) = true /\ compiled (T := T) (LMAV (WInt (-1)) None) = false.
Proof. repeat split. Qed.
