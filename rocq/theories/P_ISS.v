(** Properties C05-C12: cache plan, modes, batching, general words, independence, causality. *)
From Coq Require Import Ascii String List Arith ZArith Bool Lia Reals Lra.
From Verif Require Import Num Arr S_ISS S_Plan S_Words M_Str M_Semiring M_Words M_ISS
  L_Str L_Plan L_Words L_Slow L_Gen L_Rows L_ISS L_API L_Single L_Ext L_General L_RComp.
Import ListNotations.
Local Open Scope nat_scope.
Local Open Scope list_scope.

(** The text appended to every label by semiring and weighting. *)
Definition label_tail {T} (c : iss_cfg T) : pystr :=
  sr_suffix (is_sr c) ++ match is_wt c with Some _ => str " : " ++ is_wt_name c | None => [] end.

(** C05.  [dedup] of all prefixes lists every distinct non-empty prefix once,
    in order of first occurrence; the labels are exactly these. *)
Lemma C05_labels_ {T} `{Num T} (c : iss_cfg T) ws :
  is_mode c = EXTENDED -> is_argmax (is_sr c) = false ->
  map iw_str (is_words c) = map wstring ws -> Forall wf_bodies ws ->
  let L := dedup word_eq_dec [] (flat_map prefixes ws) in
  n_iterated_sums c = Ok (length L) /\
  (forall r, iss_label c r = match nth_error L r with
                             | Some p => Ok (wstring p ++ label_tail c)
                             | None => Err IndexError
                             end) /\
  NoDup (map wstring L) /\
  (forall p, In p L <-> p <> [] /\ exists w rest, In w ws /\ w = p ++ rest).
Proof.
  intros Hm Hs Hstr Hwf L. split; [|split; [|split]].
  - unfold n_iterated_sums, is_plan. rewrite Hm, Hs, Hstr. f_equal. now apply plan_total_spec.
  - intros r. unfold iss_label, is_plan, label_tail. rewrite Hm, Hstr. pose proof (word_string_spec ws Hwf r) as Hr.
    unfold pystr in *. rewrite Hr. fold L.
    destruct (nth_error L r); reflexivity.
  - assert (HLwf : forall p, In p L -> wf_bodies p).
    { intros p Hp. apply dedup_In in Hp. destruct Hp as [Hp _]. apply in_flat_map in Hp. destruct Hp as (w & Hw & Hp).
      unfold prefixes in Hp. apply in_map_iff in Hp. destruct Hp as (d & <- & _). apply wf_firstn.
      rewrite Forall_forall in Hwf. auto. }
    apply NoDup_map_inj_in; [|apply dedup_NoDup]. intros a b Ha Hb E. apply wstring_inj; auto.
  - intros p. unfold L. rewrite dedup_In, in_flat_map. split.
    + intros [(w & Hw & Hp) _]. apply prefixes_In in Hp. destruct Hp as [Hne (rest & E)]. split; [assumption|]. exists w, rest. auto.
    + intros (Hne & w & rest & Hw & E). split; [|auto]. exists w. split; [assumption|]. apply prefixes_In. split; [assumption|]. exists rest. assumption.
Qed.
Theorem C05_labels : forall {T} `{Num T} (c : iss_cfg T) ws,
  is_mode c = EXTENDED -> is_argmax (is_sr c) = false ->
  map iw_str (is_words c) = map wstring ws -> Forall wf_bodies ws ->
  let L := dedup word_eq_dec [] (flat_map prefixes ws) in
  n_iterated_sums c = Ok (length L) /\
  (forall r, iss_label c r = match nth_error L r with
                             | Some p => Ok (wstring p ++ label_tail c)
                             | None => Err IndexError
                             end) /\
  NoDup (map wstring L) /\
  (forall p, In p L <-> p <> [] /\ exists w rest, In w ws /\ w = p ++ rest).
Proof. exact @C05_labels_. Qed.
Print Assumptions C05_labels.
(** Every simple word string is of the form assumed by C05. *)
Lemma C05_simple_words_apply_ s els : spells s els -> exists w, wf_bodies w /\ s = wstring w /\ length w = length els.
Proof.
  intros (tw & [_ Hw] & -> & ->). exists (bodies tw). split; [now apply bodies_wf|]. split; [apply tword_wstring|].
  unfold bodies. now rewrite !map_length.
Qed.
Theorem C05_simple_words_apply : forall s els, spells s els -> exists w, wf_bodies w /\ s = wstring w /\ length w = length els.
Proof. exact C05_simple_words_apply_. Qed.
Print Assumptions C05_simple_words_apply.
(** The words of tests/signature/test_cache.py share prefixes: 9 words, 22 sums. *)
Example C05_nonvacuous :
  let ws := map (map str) [["1"; "2"; "1"]; ["1"; "2"]; ["2"]; ["1"; "2"; "2"]]%string in
  Forall wf_bodies ws /\
  map (fun p => string_of_list_ascii (wstring p)) (dedup word_eq_dec [] (flat_map prefixes ws))
  = ["[1]"; "[1][2]"; "[1][2][1]"; "[2]"; "[1][2][2]"]%string.
Proof.
  split; [|reflexivity]. repeat constructor; discriminate.
Qed.

(** C06. *)
Theorem C06_extended_is_single : forall (c : iss_cfg R) (words : list (sword R)) X n,
  is_words c = map simple_iword words -> is_mode c = EXTENDED -> is_argmax (is_sr c) = false ->
  words <> [] ->
  Forall (fun w => simple_word (sw_name w) = Ok w /\ exists els, spells (sw_name w) els /\ no_zero els) words ->
  wf_dataset X n -> Forall (fun w => Forall (fun x => kernel_ok (is_sr c) x n (sw_exts w)) X) words ->
  length (lookups (is_wt c) X) = length X ->
  (is_wt c <> None -> Forall (fun g => length g = n) (lookups (is_wt c) X)) ->
  exists rows, iss_transform c X = Ok rows /\ n_iterated_sums c = Ok (length rows) /\
    forall r, r < length rows -> exists s w,
      iss_label c r = Ok (s ++ label_tail c) /\ simple_word (T := R) s = Ok w /\
      iss_transform {| is_words := [simple_iword w]; is_mode := SINGLE; is_sr := is_sr c; is_wt := is_wt c;
                       is_wt_name := is_wt_name c |} X = Ok [nth r rows []].
Proof. exact extended_is_single. Qed.
Print Assumptions C06_extended_is_single.

(** SINGLE mode: one iterated sum per word, in the order of the words, each
    the one of an ISS of that word alone, and labelled by the word. *)
Definition only {T} (c : iss_cfg T) (w : iword T) : iss_cfg T :=
  {| is_words := [w]; is_mode := is_mode c; is_sr := is_sr c; is_wt := is_wt c; is_wt_name := is_wt_name c |}.
Lemma single_rows {T} `{Num T} s (X : dataset T) wt : is_argmax s = false -> forall ws i,
  batch_rows s X wt None i ws = Ok (map (fun w => map (fun sample => nth 0 sample []) (iterated_sums s X w 1 wt)) ws).
Proof.
  intros Hs. induction ws as [|w ws IH]; intros i; [reflexivity|]. cbn [batch_rows]. rewrite IH. unfold word_rows. rewrite Hs. cbn [word_ext].
  replace (sr_rows s w 1) with 1 by (destruct w; [destruct s as [|[|]|]|]; try reflexivity; discriminate Hs). reflexivity.
Qed.
Theorem C06_single_mode : forall {T} `{Num T} (c : iss_cfg T) X,
  is_mode c = SINGLE -> is_words c <> [] ->
  (is_argmax (is_sr c) = true -> iss_transform c X = Err NotImplementedError /\ n_iterated_sums c = Err NotImplementedError) /\
  (is_argmax (is_sr c) = false -> exists rows, iss_transform c X = Ok rows /\
     length rows = length (is_words c) /\ n_iterated_sums c = Ok (length (is_words c)) /\
     forall k w, nth_error (is_words c) k = Some w ->
       iss_label c k = Ok (iw_str w ++ label_tail c) /\ iss_transform (only c w) X = Ok [nth k rows []]).
Proof.
  intros T N c X Hm Hne. split; intros Ha.
  - rewrite iss_transform_eq by exact Hne. unfold cfg_guard, argmax_guard, is_plan_opt, n_iterated_sums. rewrite Hm, Ha. split; reflexivity.
  - rewrite iss_transform_eq by exact Hne. unfold cfg_guard, argmax_guard, is_plan_opt, n_iterated_sums. rewrite Hm, Ha, single_rows by exact Ha.
    eexists. split; [reflexivity|]. rewrite !map_length. split; [reflexivity|]. split; [reflexivity|]. intros k w Ew. split.
    + unfold iss_label, label_tail. rewrite Hm, Ew. reflexivity.
    + rewrite iss_transform_eq by discriminate. unfold cfg_guard, argmax_guard, is_plan_opt, only. cbn [is_mode is_sr is_words is_wt]. rewrite Hm, Ha, single_rows by exact Ha.
      do 2 f_equal. rewrite (nth_error_nth _ _ _ (map_nth_error _ _ _ (map_nth_error iw_val _ _ Ew))). reflexivity.
Qed.
Print Assumptions C06_single_mode.

(** A word with a letter 0 violates C06: its first row is computed with the
    table of the whole word, the label alone parses to another table. *)
Definition zw : sword R := {| sw_name := str "[01][2]"; sw_maxdim := 2; sw_exts := [[1; -1]; [0; 1]]%Z; sw_alpha := None |}.
Definition zw1 : sword R := {| sw_name := str "[01]"; sw_maxdim := 1; sw_exts := [[0]]%Z; sw_alpha := None |}.
Theorem C06_letter_zero_refuted :
  let cfg ws m := {| is_words := map simple_iword ws; is_mode := m; is_sr := Reals; is_wt := None; is_wt_name := [] |} in
  simple_word (str "[01][2]") = Ok zw /\ simple_word (str "[01]") = Ok zw1 /\
  iss_label (cfg [zw] EXTENDED) 0 = Ok (str "[01]") /\
  (exists rows, iss_transform (cfg [zw] EXTENDED) [[[3%R]; [2%R]]] = Ok rows /\ nth 0 rows [] = [[(3 / 2)%R]]) /\
  iss_transform (cfg [zw1] SINGLE) [[[3%R]; [2%R]]] = Ok [[[1%R]]].
Proof.
  split; [reflexivity|]. split; [reflexivity|]. split; [reflexivity|]. split.
  - exists [[[(3/2)%R]]; [[0%R]]]. split; [|reflexivity]. cbn zeta. rcompute.
  - cbn zeta. rcompute.
Qed.
Print Assumptions C06_letter_zero_refuted.

(** C07. *)
Theorem C07_batches_concatenate : forall {T} `{Num T} (c : iss_cfg T) X b fuel,
  1 <= b <= length (is_words c) -> length (is_words c) <= fuel ->
  match iss_transform c X with
  | Ok rows => exists batches, batch_transform fuel c X b = Ok (batches, true)
                 /\ List.concat batches = rows
                 /\ length batches = (length (is_words c) + b - 1) / b
                 /\ forall j, j < length batches ->
                      batch_rows (is_sr c) X (is_wt c) (is_plan_opt c) (j * b)
                        (firstn b (skipn (j * b) (map iw_val (is_words c)))) = Ok (nth j batches [])
  | Err e => batch_transform fuel c X b = Err e
  end.
Proof. exact @batch_transform_spec. Qed.
Print Assumptions C07_batches_concatenate.
Theorem C07_too_large_batch : forall {T} `{Num T} fuel (c : iss_cfg T) X b, length (is_words c) < b ->
  batch_transform fuel c X b = Err ValueError.
Proof. exact @batch_transform_too_big. Qed.
Print Assumptions C07_too_large_batch.
(** Batch size 0: however long the generator runs, it has only yielded empty
    batches and is not exhausted. *)
Theorem C07_zero_batch_diverges : forall {T} `{Num T} fuel (c : iss_cfg T) X,
  is_words c <> [] -> (is_mode c = EXTENDED \/ is_argmax (is_sr c) = false) ->
  batch_transform fuel c X 0 = Ok (repeat [] fuel, false).
Proof.
  intros T N fuel c X Hne Hm. apply batch_transform_zero; [exact Hne|].
  unfold cfg_guard, argmax_guard, is_plan_opt. destruct Hm as [-> | ->]; [reflexivity|]. destruct (is_mode c); reflexivity.
Qed.
Print Assumptions C07_zero_batch_diverges.

(** C08. [to_dim w] is the general word "[DIM(i)DIM(j)...]..." with the same letters. *)
Theorem C08_simple_general_agree : forall (c c' : iss_cfg R) words X n,
  is_words c = map simple_iword words -> is_words c' = map to_dim words ->
  is_mode c' = is_mode c -> is_sr c' = is_sr c -> is_wt c = None -> is_plan_opt c' = is_plan_opt c ->
  (is_sr c = Reals \/ is_sr c = Arctic false) -> (is_mode c = EXTENDED -> Forall parsed words) -> wf_dataset X n ->
  Forall (fun w => sw_exts w <> [] /\ nonneg_word (sw_exts w) /\ Forall (fun x => kernel_ok (is_sr c) x n (sw_exts w)) X) words ->
  iss_transform c X = iss_transform c' X.
Proof. exact simple_general_agree. Qed.
Print Assumptions C08_simple_general_agree.
Example C08_nonvacuous :
  let w : sword R := {| sw_name := str "[122][1]"; sw_maxdim := 2; sw_exts := [[1; 2]; [1; 0]]%Z; sw_alpha := None |} in
  simple_word (str "[122][1]") = Ok w /\
  iw_str (to_dim w) = str "[DIM(1)DIM(2)DIM(2)][DIM(1)]" /\ nonneg_word (sw_exts w) /\
  let cfg ws := {| is_words := ws; is_mode := EXTENDED; is_sr := Reals; is_wt := None; is_wt_name := [] |} in
  is_plan_opt (cfg [simple_iword w]) = Some [2] /\ is_plan_opt (cfg [to_dim w]) = Some [2].
Proof. repeat split; try reflexivity. repeat constructor; lia. Qed.

(** C09. *)
Theorem C09_bayesian_general_is_strict : forall (c : iss_cfg R) (gws : list (list (list (bletter R)))) X n,
  map iw_val (is_words c) = map (@WGeneral R) gws -> is_mode c = SINGLE -> is_sr c = Bayesian ->
  gws <> [] -> wf_dataset X n ->
  Forall (fun w => w <> [] /\ Forall (fun x => letters_ok x n w /\ gext_nonneg x n w) X) gws ->
  exists rows, iss_transform c X = Ok rows /\ length rows = length gws /\
    forall r i t w x, nth_error gws r = Some w -> nth_error X i = Some x -> t < n ->
      let v := nth t (nth i (nth r rows []) []) 0%R in
      (t + 1 < length w -> v = 0%R) /\
      (length w <= t + 1 -> is_max (inc_upto (length w) t) (gword_val x w) v).
Proof. exact bayesian_general_api. Qed.
Print Assumptions C09_bayesian_general_is_strict.
Definition w11' : sword R := {| sw_name := str "[1][1]"; sw_maxdim := 1; sw_exts := [[1]; [1]]%Z; sw_alpha := None |}.
Theorem C09_simple_general_differ_refuted :
  let cfg w := {| is_words := [w]; is_mode := SINGLE; is_sr := Bayesian; is_wt := None; is_wt_name := [] |} in
  let X := [[[(1/2)%R; (1/4)%R]]] in
  simple_word (str "[1][1]") = Ok w11' /\
  iss_transform (cfg (simple_iword w11')) X = Ok [[[(1/4)%R; (1/4)%R]]] /\
  iss_transform (cfg (to_dim w11')) X = Ok [[[0%R; (1/8)%R]]].
Proof. split; [reflexivity|]. split; cbn zeta; rcompute. Qed.
Print Assumptions C09_simple_general_differ_refuted.

(** C10. *)
Theorem C10_general_words_ignore_weighting : forall {T} `{Num T} (c : iss_cfg T) X,
  Forall (fun w => exists e, iw_val w = WGeneral e) (is_words c) ->
  iss_transform c X = iss_transform {| is_words := is_words c; is_mode := is_mode c; is_sr := is_sr c; is_wt := None; is_wt_name := [] |} X.
Proof. exact @general_ignores_weighting. Qed.
Print Assumptions C10_general_words_ignore_weighting.
(** The documented value (that of the simple word) is different. *)
Theorem C10_documented_scaling_refuted :
  let wt : weighting R := {| wg_lookup := fun X => map (fun _ => [0%R; 1%R]) X; wg_total := false |} in
  let cfg w := {| is_words := [w]; is_mode := SINGLE; is_sr := Reals; is_wt := Some wt; is_wt_name := [] |} in
  let X := [[[1%R; 2%R]]] in
  (exists rows, iss_transform (cfg (to_dim w11')) X = Ok rows /\ nth 1 (nth 0 (nth 0 rows []) []) 0%R = 2%R) /\
  iss_weighted [[1%R; 2%R]] (sw_exts w11') (get_alpha w11') [0%R; 1%R] false 1 <> 2%R.
Proof.
  cbn zeta. split.
  - exists [[[0%R; 2%R]]]. split; [rcompute|reflexivity].
  - assert (Hlt : (exp (-1) < 1)%R) by (rewrite <- exp_0; apply exp_increasing; lra).
    intros E. revert E. rcbv. 
    match goal with |- context[exp ?x] => replace x with (-1)%R by lra end. intros E. lra.
Qed.
Print Assumptions C10_documented_scaling_refuted.

(** C11.  [pick d sel l] is [[l[i] for i in sel]]. *)
Theorem C11_samples_independent : forall {T} `{Num T} (c : iss_cfg T) sel X,
  per_sample (is_wt c) -> Forall (fun i => i < length X) sel ->
  iss_transform c (pick [] sel X) = res_map (map (pick [] sel)) (iss_transform c X).
Proof. exact @iss_transform_pick. Qed.
Print Assumptions C11_samples_independent.
Example C11_nonvacuous : pick [] [2; 0; 0] [[1]; [2]; [3]] = [[3]; [1]; [1]].
Proof. reflexivity. Qed.

(** C12: two datasets that agree on the first [m] time steps have iterated
    sums that agree there (for a weighting: if its lookups agree there). *)
Theorem C12_causality : forall {T} `{Num T} words mode s (wt wt' : option (weighting T)) nm X Y m n n',
  words <> [] -> m <= n -> m <= n' -> wf_data n X -> wf_data n' Y -> is_argmax s = false ->
  map (map (firstn m)) X = map (map (firstn m)) Y ->
  length (lookups wt X) = length X -> length (lookups wt' Y) = length Y -> totals wt = totals wt' ->
  (wt <> None -> Forall (fun g => length g = n) (lookups wt X)) ->
  (wt' <> None -> Forall (fun g => length g = n') (lookups wt' Y)) ->
  map (firstn m) (lookups wt X) = map (firstn m) (lookups wt' Y) ->
  Forall (fun w => causal_word n X (iw_val w) /\ causal_word n' Y (iw_val w)) words ->
  exists rX rY,
    iss_transform {| is_words := words; is_mode := mode; is_sr := s; is_wt := wt; is_wt_name := nm |} X = Ok rX /\
    iss_transform {| is_words := words; is_mode := mode; is_sr := s; is_wt := wt'; is_wt_name := nm |} Y = Ok rY /\
    map (map (firstn m)) rX = map (map (firstn m)) rY.
Proof. exact @iss_transform_cut. Qed.
Print Assumptions C12_causality.
