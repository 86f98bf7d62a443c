(** Properties C22-C24: CosWISS. *)
From Coq Require Import Ascii String List Arith ZArith Bool Lia Reals Lra Binomial.
From Verif Require Import Num Arr M_Str M_Semiring M_Words M_Np M_Prep M_Cos S_ISS S_Cos
  L_Arr L_Tuples L_Reals L_Str L_Cos.
Import ListNotations.
Open Scope R_scope.

(** The words can be evaluated on the series x of length n. *)
Definition evaluable (x : mts R) (n : nat) (w : sword R) : Prop :=
  sw_exts w <> [] /\ letters_in (length x) (sw_exts w) /\ nonzero_where_neg x n (sw_exts w).
Lemma evaluable_el x n w : evaluable x n w -> Forall (el_ok x n) (sw_exts w).
Proof. intros (_ & H1 & H2). apply word_ok_el. now split. Qed.

(** Row number i * len(freqs) + j of [rows] holds [cell x] for word number i,
    frequency number j and every series x. *)
Definition rows_are (words : list (sword R)) (freqs : list R) (X : dataset R) (rows : list (mts R))
    (cell : nat -> nat -> sword R -> R -> mts R -> series R) : Prop :=
  length rows = (length freqs * length words)%nat /\
  forall i j w f, nth_error words i = Some w -> nth_error freqs j = Some f ->
    nth_error rows (i * length freqs + j) = Some (map (cell i j w f) X).

(** C22. *)
Theorem C22_coswiss : forall (c : cos_cfg R) st X n,
  cw_ffn c = None -> cw_drop c = None -> (cw_exp c <= 4)%nat -> cw_words c <> [] ->
  (2 <= n)%nat -> Forall (fun f => f <> 0) (cw_freqs c) -> wf_dataset X n ->
  Forall (fun w => Forall (fun x => evaluable x n w) X) (cw_words c) ->
  exists rows, cos_transform c st X = Ok rows /\
    rows_are (cw_words c) (cw_freqs c) X rows (fun _ _ w f x =>
      map (cos_sum x (sw_exts w) (cw_exp c) (cw_total c) (theta f n) no_drop) (seq 0 n)).
Proof.
  intros c st X n Hffn Hdrop Hs Hne _ _ HX Hw.
  destruct (cos_rows_generic c st X (fun _ _ f w x => cos_single x (sw_exts w) f
              (get_weightings (cw_exp c) (cw_total c) (length (sw_exts w))) (fun _ => []))) as (rows & E & Hl & Hr).
  { intros i w Hin. unfold cos_word. now rewrite Hffn, Hdrop. }
  { auto. }
  exists rows. split; auto. split; auto. intros i j w f Hi Hj. rewrite (Hr i j w f Hi Hj). f_equal.
  apply map_ext_in. intros x Hx. unfold wf_dataset in HX. rewrite Forall_forall in HX, Hw.
  specialize (Hw w (nth_error_In _ _ Hi)). rewrite Forall_forall in Hw. specialize (Hw x Hx).
  apply cos_single_spec; auto; [now apply evaluable_el|apply Hw].
Qed.
Print Assumptions C22_coswiss.

(** C24, dropout: the sums range over the index tuples that avoid the dropped
    positions of every letter. *)
Theorem C24_dropout : forall (c : cos_cfg R) st idx X n rate,
  cw_ffn c = None -> cw_drop c = Some rate -> cs_drop st = Some idx -> (cw_exp c <= 4)%nat -> cw_words c <> [] ->
  (2 <= n)%nat -> Forall (fun f => f <> 0) (cw_freqs c) -> wf_dataset X n ->
  Forall (fun w => Forall (fun x => evaluable x n w) X) (cw_words c) ->
  (forall i j k, Forall (fun t => (t < n)%nat) (idx i j k)) ->
  exists rows, cos_transform c st X = Ok rows /\
    rows_are (cw_words c) (cw_freqs c) X rows (fun i j w f x =>
      map (cos_sum x (sw_exts w) (cw_exp c) (cw_total c) (theta f n) (idx i j)) (seq 0 n)).
Proof.
  intros c st idx X n rate Hffn Hdrop Hst Hs Hne _ _ HX Hw _.
  destruct (cos_rows_generic c st X (fun i j f w x => cos_single x (sw_exts w) f
              (get_weightings (cw_exp c) (cw_total c) (length (sw_exts w))) (idx i j))) as (rows & E & Hl & Hr).
  { intros i w Hin. unfold cos_word. now rewrite Hffn, Hdrop, Hst. }
  { auto. }
  exists rows. split; auto. split; auto. intros i j w f Hi Hj. rewrite (Hr i j w f Hi Hj). f_equal.
  apply map_ext_in. intros x Hx. unfold wf_dataset in HX. rewrite Forall_forall in HX, Hw.
  specialize (Hw w (nth_error_In _ _ Hi)). rewrite Forall_forall in Hw. specialize (Hw x Hx).
  apply cos_single_spec; auto; [now apply evaluable_el|apply Hw].
Qed.
Print Assumptions C24_dropout.

(** C24, network: the sums of the series the network of the word and
    frequency produces; a dropout rate given in addition has no effect. *)
Definition net_series (st : ffn_state (T := R)) (n : nat) (x : mts R) : mts R :=
  map (fun d => map (net_at (ffn_w1 st) (ffn_b st) (ffn_w2 st) x d) (seq 0 n)) (seq 0 (length (ffn_w2 st))).
Theorem C24_network : forall (c : cos_cfg R) st net X n size,
  cw_ffn c = Some size -> cs_ffn st = Some net -> (cw_exp c <= 4)%nat -> cw_words c <> [] ->
  (2 <= n)%nat -> Forall (fun f => f <> 0) (cw_freqs c) -> wf_dataset X n ->
  (forall i j, ffn_w2 (net i j) <> []) ->
  (forall i j x, In x X -> net_shaped (length x) (net i j)) ->
  (forall i j w x, nth_error (cw_words c) i = Some w -> In x X -> evaluable (net_series (net i j) n x) n w) ->
  exists rows, cos_transform c st X = Ok rows /\
    rows_are (cw_words c) (cw_freqs c) X rows (fun i j w f x =>
      map (cos_sum (net_series (net i j) n x) (sw_exts w) (cw_exp c) (cw_total c) (theta f n) no_drop) (seq 0 n)).
Proof.
  intros c st net X n size Hffn Hst Hs Hne _ _ HX Hcn Hsh Hw.
  destruct (cos_rows_generic c st X (fun i j f w x => cos_single (cos_ffn (net i j) x) (sw_exts w) f
              (get_weightings (cw_exp c) (cw_total c) (length (sw_exts w))) (fun _ => []))) as (rows & E & Hl & Hr).
  { intros i w Hin. unfold cos_word. now rewrite Hffn, Hst. }
  { auto. }
  exists rows. split; auto. split; auto. intros i j w f Hi Hj. rewrite (Hr i j w f Hi Hj). f_equal.
  apply map_ext_in. intros x Hx. unfold wf_dataset in HX. rewrite Forall_forall in HX.
  specialize (Hw i j w x Hi Hx).
  rewrite (cos_ffn_net (net i j) x n (HX x Hx) (Hsh i j x Hx)). fold (net_series (net i j) n x).
  apply cos_single_spec; auto; [|now apply evaluable_el|apply Hw].
  unfold wf_series, net_series. split.
  - specialize (Hcn i j). destruct (ffn_w2 (net i j)); [congruence|]. discriminate.
  - apply Forall_forall. intros r Hr'. apply in_map_iff in Hr'. destruct Hr' as (d & <- & _).
    now rewrite map_length, seq_length.
Qed.
Print Assumptions C24_network.

(** C24, fit and transform: without [fit], configurations that need one raise;
    [fit] draws one network per word and frequency and one index set per
    word, frequency and letter. *)
Theorem C24_needs_fit : forall (T : Type) (N : Num T) (c : cos_cfg T) X, cw_words c <> [] ->
  cos_requires c = true -> cos_transform c cos_fresh X = Err AttributeError.
Proof.
  intros T N c X Hne Hreq. rewrite cos_transform_blocks by auto. unfold blocks_from.
  destruct (cw_words c) as [|w ws]; [congruence|]. cbn [length seq combine mapM fst snd].
  unfold cos_requires in Hreq. unfold cos_word. cbn [cos_fresh cs_ffn cs_drop].
  destruct (cw_ffn c); [reflexivity|]. destruct (cw_drop c); [reflexivity|discriminate].
Qed.
Print Assumptions C24_needs_fit.
Theorem C24_fit : forall (T : Type) (N : Num T) (c : cos_cfg T) net idx X st,
  (forall rate, cw_drop c = Some rate -> (rate (lenX X) <= lenX X)%nat) ->
  fst (cos_fit c net idx X st) = Ok tt /\
  (cw_ffn c <> None -> cs_ffn (snd (cos_fit c net idx X st)) = Some net) /\
  (cw_drop c <> None -> cs_drop (snd (cos_fit c net idx X st)) = Some idx).
Proof.
  intros T N c net idx X st Hrate. unfold cos_fit.
  destruct (cw_drop c) as [rate|]; [|destruct (cw_ffn c); cbn; repeat split; congruence].
  specialize (Hrate rate eq_refl).
  replace (lenX X <? rate (lenX X))%nat with false by (symmetry; apply Nat.ltb_ge; lia).
  destruct (cw_words c); [|destruct (cw_freqs c)]; destruct (cw_ffn c); cbn; repeat split; congruence.
Qed.
Print Assumptions C24_fit.

(** C24, number of rows, labels. *)
Theorem C24_rows : forall (T : Type) (N : Num T) (show : T -> pystr) (c : cos_cfg T) st X rows, cw_words c <> [] ->
  cos_transform c st X = Ok rows ->
  length rows = cos_n c /\ cos_n c = (length (cw_freqs c) * length (cw_words c))%nat /\
  (forall i j w f, nth_error (cw_words c) i = Some w -> nth_error (cw_freqs c) j = Some f ->
     let r := (i * length (cw_freqs c) + j)%nat in
     cos_label show c r = Ok (sw_name w ++ str "!" ++ show f ++ str " : ^" ++ str_nat (cw_exp c)
                              ++ (if cw_total c then str " : total" else [])) /\
     (forall x k, nth_error X k = Some x -> exists row y,
        nth_error rows r = Some row /\ nth_error row k = Some y /\
        (* the row is what CosWISS for this word and this frequency alone gives on this series alone *)
        cos_transform {| cw_words := [w]; cw_freqs := [f]; cw_exp := cw_exp c; cw_total := cw_total c;
                         cw_ffn := cw_ffn c; cw_drop := cw_drop c |}
                      {| cs_ffn := option_map (fun net _ _ => net i j) (cs_ffn st);
                         cs_drop := option_map (fun idx _ _ => idx i j) (cs_drop st) |} [x] = Ok [[y]])).
Proof.
  intros T N show c st X rows Hne Hok.
  assert (Hcell : exists cell, (forall i word, In word (cw_words c) -> cos_word c st X i word
      = Ok (map (fun jf => map (cell i (fst jf) (snd jf) word) X) (combine (seq 0 (length (cw_freqs c))) (cw_freqs c)))) /\
      forall i j w f x, cos_transform {| cw_words := [w]; cw_freqs := [f]; cw_exp := cw_exp c; cw_total := cw_total c;
                         cw_ffn := cw_ffn c; cw_drop := cw_drop c |}
                      {| cs_ffn := option_map (fun net _ _ => net i j) (cs_ffn st);
                         cs_drop := option_map (fun idx _ _ => idx i j) (cs_drop st) |} [x] = Ok [[cell i j f w x]]).
  { pose proof Hok as Hok'. rewrite cos_transform_blocks in Hok' by auto.
    destruct (blocks_from c st X 0 (cw_words c)) as [blocks|e] eqn:Eb; [|discriminate]. clear Hok'.
    unfold blocks_from in Eb. destruct (cw_words c) as [|w0 ws]; [congruence|].
    cbn [length seq combine mapM fst snd] in Eb. unfold cos_word in Eb at 1. unfold cos_word at 1.
    destruct (cw_ffn c) as [size|] eqn:Effn.
    - destruct (cs_ffn st) as [net|] eqn:Est; [|discriminate].
      exists (fun i j f w x => cos_single (cos_ffn (net i j) x) (sw_exts w) f
                 (get_weightings (cw_exp c) (cw_total c) (length (sw_exts w))) (fun _ => [])).
      split; [reflexivity|]. intros. reflexivity.
    - destruct (cw_drop c) as [rate|] eqn:Edrop.
      + destruct (cs_drop st) as [idx|] eqn:Est; [|discriminate].
        exists (fun i j f w x => cos_single x (sw_exts w) f
                 (get_weightings (cw_exp c) (cw_total c) (length (sw_exts w))) (idx i j)).
        split; [reflexivity|]. intros. reflexivity.
      + exists (fun i j f w x => cos_single x (sw_exts w) f
                 (get_weightings (cw_exp c) (cw_total c) (length (sw_exts w))) (fun _ => [])).
        split; [reflexivity|]. intros. reflexivity. }
  destruct Hcell as (cell & Hc1 & Hc2).
  destruct (cos_rows_generic c st X cell Hc1 Hne) as (rows' & E & Hl & Hr).
  rewrite Hok in E. injection E as <-. split; [exact Hl|]. split; [reflexivity|].
  intros i j w f Hi Hj r. split.
  - assert (Hjl : (j < length (cw_freqs c))%nat) by (apply nth_error_Some; congruence).
    assert (E : nth_error (cw_words c) (r / length (cw_freqs c)) = Some w /\ nth_error (cw_freqs c) (r mod length (cw_freqs c)) = Some f).
    { subst r. rewrite Nat.div_add_l, Nat.div_small, Nat.add_0_r by lia.
      rewrite Nat.add_comm, Nat.mod_add, Nat.mod_small by lia. now split. }
    destruct E as [E1 E2]. unfold cos_label. rewrite E1, E2. destruct (cw_freqs c); [cbn in Hjl; lia|reflexivity].
  - intros x k Hk. exists (map (cell i j f w) X), (cell i j f w x). split; [exact (Hr i j w f Hi Hj)|].
    split; [|apply Hc2]. now rewrite nth_error_map, Hk.
Qed.
Print Assumptions C24_rows.

(** C24, batches. *)
Theorem C24_batches : forall (T : Type) (N : Num T) (c : cos_cfg T) st X rows bs, cw_words c <> [] ->
  cos_transform c st X = Ok rows ->
  exists Ls, cos_batches c st X bs = map Ok Ls /\ concat Ls = rows.
Proof.
  intros T N c st X rows bs Hne Hok. rewrite cos_transform_blocks in Hok by auto.
  destruct (blocks_from c st X 0 (cw_words c)) as [blocks|e] eqn:Eb; [|discriminate]. injection Hok as <-.
  destruct (cos_gen_ok c st X bs (cw_words c) 0 [] blocks Eb) as (Ls & E1 & E2). exists Ls. split; auto.
Qed.
Print Assumptions C24_batches.

Lemma cos_word_rows {T} {N : Num T} (c : cos_cfg T) st X i w rows :
  cos_word c st X i w = Ok rows -> length rows = length (cw_freqs c).
Proof.
  unfold cos_word. intros E.
  assert (Hc : forall g : nat * T -> mts T, length (map g (combine (seq 0 (length (cw_freqs c))) (cw_freqs c))) = length (cw_freqs c)).
  { intros g. rewrite map_length, combine_length, seq_length. lia. }
  destruct (cw_ffn c); [destruct (cs_ffn st); [|discriminate]|destruct (cw_drop c); [destruct (cs_drop st); [|discriminate]|]];
  injection E as <-; apply Hc.
Qed.
Lemma cos_gen_sizes {T} {N : Num T} (c : cos_cfg T) st X bs words : forall w results Ls,
  (length results < bs)%nat -> Forall (fun r => length r = length (cw_freqs c)) results ->
  cos_gen c st X bs w words results = map Ok Ls ->
  (length results + length words <= length Ls * bs /\ (length Ls - 1) * bs < length results + length words + (if length Ls then 1 else 0))%nat /\
  forall b L, nth_error Ls b = Some L -> length L = (length (cw_freqs c) * Nat.min bs (length results + length words - b * bs))%nat.
Proof.
  assert (Hcat : forall (l : list (list (mts T))) k, Forall (fun r => length r = k) l -> length (concat l) = (k * length l)%nat).
  { intros l k Hl. induction Hl as [|y l Hy Hl IH]; cbn [concat length]; [lia|]. rewrite app_length, Hy, IH. lia. }
  induction words as [|word r IH]; intros w results Ls Hlt Hall E; cbn [cos_gen] in E.
  - destruct results as [|r0 results].
    + destruct Ls; [|discriminate]. split; [cbn; lia|]. intros [|b] L Hb; discriminate.
    + destruct Ls as [|L0 [|L1 Ls]]; try discriminate. injection E as E. cbn [length] in *. split; [lia|].
      intros [|b] L Hb; [|destruct b; discriminate]. injection Hb as <-. rewrite <- E.
      change (r0 ++ concat results) with (concat (r0 :: results)). rewrite (Hcat (r0 :: results) _ Hall). cbn [length]. f_equal. lia.
  - destruct (cos_word c st X w word) as [rows|e] eqn:Ew; [|destruct Ls; discriminate].
    apply cos_word_rows in Ew.
    assert (Hall' : Forall (fun r => length r = length (cw_freqs c)) (results ++ [rows])).
    { apply Forall_app. split; auto. }
    destruct (length (results ++ [rows]) =? bs)%nat eqn:Eb.
    + apply Nat.eqb_eq in Eb. rewrite app_length in Eb. cbn [length] in Eb.
      destruct Ls as [|L0 Ls]; [discriminate|]. injection E as E0 E.
      destruct (IH (Datatypes.S w) [] Ls) as [[H1 H1'] H2]; auto; [cbn; lia|]. cbn [length] in *. split.
      { destruct Ls as [|L1 Ls]; cbn [length] in *; lia. }
      intros [|b] L Hb; cbn [nth_error] in Hb.
      * injection Hb as <-. rewrite <- E0, (Hcat _ _ Hall'), app_length. cbn [length]. f_equal. lia.
      * rewrite (H2 b L Hb). f_equal. lia.
    + apply Nat.eqb_neq in Eb. rewrite app_length in Eb. cbn [length] in Eb.
      destruct (IH (Datatypes.S w) (results ++ [rows]) Ls) as [[H1 H1'] H2]; auto; [rewrite app_length; cbn; lia|].
      rewrite app_length in *. cbn [length] in *. split; [lia|]. intros b L Hb. rewrite (H2 b L Hb). f_equal. lia.
Qed.
(** C24, batches: every batch holds the rows of [bs] words, the last one those
    of the remaining words. *)
Theorem C24_batch_sizes : forall (T : Type) (N : Num T) (c : cos_cfg T) st X bs Ls,
  (1 <= bs)%nat -> cw_words c <> [] -> cos_batches c st X bs = map Ok Ls ->
  ((length Ls - 1) * bs < length (cw_words c) <= length Ls * bs)%nat /\
  forall b L, nth_error Ls b = Some L ->
    length L = (length (cw_freqs c) * Nat.min bs (length (cw_words c) - b * bs))%nat.
Proof.
  intros T N c st X bs Ls Hbs Hne E. unfold cos_batches in E.
  destruct (cos_gen_sizes c st X bs (cw_words c) 0 [] Ls) as [[H1 H1'] H2]; auto.
  split; [|exact H2]. cbn [length Nat.add] in H1, H1'. destruct (cw_words c); [congruence|].
  destruct Ls; cbn [length] in *; lia.
Qed.
Print Assumptions C24_batch_sizes.
(** C24, an unfitted configuration raises on the first request of the generator
    just as [transform] does. *)
Theorem C24_batches_need_fit : forall (T : Type) (N : Num T) (c : cos_cfg T) X bs, cw_words c <> [] ->
  cos_requires c = true -> cos_batches c cos_fresh X bs = [Err AttributeError].
Proof.
  intros T N c X bs Hne Hreq. unfold cos_batches. destruct (cw_words c) as [|w ws] eqn:Ew; [congruence|].
  cbn [cos_gen]. unfold cos_requires in Hreq. unfold cos_word. cbn [cos_fresh cs_ffn cs_drop].
  destruct (cw_ffn c); [reflexivity|]. destruct (cw_drop c); [reflexivity|discriminate].
Qed.
Print Assumptions C24_batches_need_fit.

(** C23: the table of coefficients and exponents is the one of the binomial
    theorem exactly for exponents up to 4. *)
Theorem C23_table : forall s,
  get_weightings s false 2 = map (fun k => [binom s k; s - k; k; s - k; k]%nat) (seq 0 (s + 1)) <-> (s <= 4)%nat.
Proof.
  intros s. split.
  - intros E. destruct (Nat.le_gt_cases s 4) as [Hs|Hs]; auto. exfalso.
    rewrite table_two in E. apply (f_equal (fun l => nth 0 (nth 2 l []) 0%nat)) in E.
    assert (El : length (trig_id s) = (s + 1)%nat) by (unfold trig_id; apply trig_loop_length).
    rewrite (nth_indep (map _ (seq 0 (s + 1))) [] ((fun k => [binom s k; s - k; k; s - k; k]%nat) 0%nat)) in E
      by (rewrite map_length, seq_length; lia).
    rewrite (map_nth (fun k => [binom s k; s - k; k; s - k; k]%nat)), seq_nth in E by lia.
    rewrite (nth_indep (map _ (trig_id s)) [] ((fun t => [digit_at 0 t; digit_at 1 t; digit_at 2 t; digit_at 1 t; digit_at 2 t]) [])) in E
      by (rewrite map_length; lia).
    rewrite (map_nth (fun t => [digit_at 0 t; digit_at 1 t; digit_at 2 t; digit_at 1 t; digit_at 2 t])) in E.
    cbn [nth Nat.add] in E. pose proof (binom_2 s ltac:(lia)) as Hb.
    assert (digit_at 0 (nth 2 (trig_id s) []) <= 9)%nat by (apply (trig_id_digits s); apply nth_In; lia). lia.
  - intros Hs. destruct s as [|[|[|[|[|s]]]]]; try lia; reflexivity.
Qed.
Print Assumptions C23_table.

Definition w11 : sword R :=
  {| sw_name := "[1][1]"%string; sw_maxdim := 1; sw_exts := [[1%Z]; [1%Z]]; sw_alpha := None |}.
Example w11_parsed : simple_word (T := R) "[1][1]"%string = Ok w11.
Proof. reflexivity. Qed.
Definition cos11 (s : nat) (f : R) (total : bool) : cos_cfg R :=
  {| cw_words := [w11]; cw_freqs := [f]; cw_exp := s; cw_total := total; cw_ffn := None; cw_drop := None |}.
Lemma evaluable11 x n : (length x = 1)%nat -> evaluable x n w11.
Proof.
  intros Hx. split; [discriminate|]. split.
  - repeat (apply Forall_cons || apply Forall_nil); intros j Hj _; cbn in Hj; lia.
  - repeat (apply Forall_cons || apply Forall_nil); intros j i Hj Hn; cbn in Hj; destruct j; cbn in Hn; lia.
Qed.
(** The value CosWISS([1][1]) gives for any exponent. *)
Lemma cos11_value s f x n : wf_series x n -> (length x = 1)%nat ->
  cos_transform (cos11 s f false) cos_fresh [x] = Ok [[
    map (fun t => Rsum (map (fun tau => word_val x [[1%Z]; [1%Z]] tau
        * Rsum (map (gapv (fun j => sin (theta f n (pos tau t j))) (fun j => cos (theta f n (pos tau t j))) 0) (trig_id s)))
                  (itup 2 (S t)))) (seq 0 n)]].
Proof.
  intros HX Hx. unfold cos_transform, cos_batches, cos_n. cbn [cos11 cw_freqs cw_words length Nat.mul Nat.add].
  cbn [cos_gen]. unfold cos_word. cbn [cos11 cw_freqs cw_words cw_ffn cw_drop cw_exp cw_total length seq combine map fst snd app].
  cbn [Nat.eqb concat app].
  rewrite (cos_single_table x n (sw_exts w11)); auto; [|now apply evaluable_el, evaluable11|discriminate].
  do 3 f_equal. apply map_ext. intros t. f_equal. rewrite (filter_ext_in _ (fun _ => true)).
  - replace (filter (fun _ : list nat => true) (itup (length (sw_exts w11)) (S t))) with (itup 2 (S t)).
    + apply map_ext. intros tau. f_equal. cbn [sw_exts w11 length Nat.sub seq map Rprod fold_right]. ring.
    + cbn [sw_exts w11 length]. generalize (itup 2 (S t)). induction l as [|y l IH]; [reflexivity|]. cbn. now rewrite <- IH.
  - intros tau _. unfold avoids. apply forallb_forall. intros; reflexivity.
Qed.

Lemma word_val11 xs i j : word_val [xs] [[1%Z]; [1%Z]] [i; j] = nth i xs 0 * nth j xs 0.
Proof.
  unfold word_val, ext_val, at_. cbn [length seq map nth Rprod fold_right powerRZ].
  change (Pos.to_nat 1) with 1%nat. cbn [pow]. ring.
Qed.

(** C23: the documented formula fails for every exponent from 5 on. *)
Theorem C23_exponents_from_5_refuted : forall s, (5 <= s)%nat ->
  exists f x n rows, f <> 0 /\ (2 <= n)%nat /\ wf_series x n /\ evaluable x n w11 /\
    cos_transform (cos11 s f false) cos_fresh [x] = Ok rows /\
    rows <> [[map (cos_sum x (sw_exts w11) s false (theta f n) no_drop) (seq 0 n)]].
Proof.
  intros s Hs.
  assert (Hcase : (s = 7 \/ s = 9 \/ (s <> 7 /\ s <> 9))%nat) by lia.
  assert (P3 : sqrt 3 * sqrt 3 = 3) by (apply sqrt_sqrt; lra).
  destruct Hcase as [Hs7|Hcase]; [|destruct Hcase as [Hs7|[H7 H9]]].
  3: { (* series (1, 1), angles 0 and pi/3 *)
    exists 3, [[1; 1]], 2%nat. eexists. split; [lra|]. split; [lia|].
    assert (HX : wf_series [[1; 1]] 2) by (split; [discriminate|repeat constructor]).
    split; [exact HX|]. split; [now apply evaluable11|]. split; [exact (cos11_value s 3 [[1; 1]] 2 HX eq_refl)|].
    intros E. apply (f_equal (fun r => nth 1 (nth 0 (nth 0 r []) []) 0)) in E. cbn [seq map nth] in E.
    set (a := fun j => sin (theta 3 2 (pos [0; 1]%nat 1 j))) in *. set (b := fun j => cos (theta 3 2 (pos [0; 1]%nat 1 j))) in *.
    assert (T0 : theta 3 2 0 = 0) by (unfold theta; cbn; field).
    assert (T1 : theta 3 2 1 = PI / 3) by (unfold theta; cbn; field).
    assert (Ea : a 0%nat = 0) by (unfold a, pos; cbn [length Nat.ltb Nat.leb nth]; rewrite T0; apply sin_0).
    assert (Eb0 : b 0%nat = 1) by (unfold b, pos; cbn [length Nat.ltb Nat.leb nth]; rewrite T0; apply cos_0).
    assert (Eb1 : b 1%nat = 1 / 2) by (unfold b, pos; cbn [length Nat.ltb Nat.leb nth]; rewrite T1; apply cos_PI3).
    unfold cos_sum in E. cbn [itup app map filter sw_exts w11 length] in E.
    replace (avoids no_drop [0; 1]%nat) with true in E by reflexivity. cbn [map Rsum fold_right] in E.
    fold a b in E. unfold cos_gaps in E. cbn [length Nat.sub seq map Rprod fold_right nth] in E.
    rewrite T0, T1, Rminus_0_r, cos_PI3 in E.
    assert (Ew : word_val [[1; 1]] [[1%Z]; [1%Z]] [0; 1]%nat = 1) by (rewrite word_val11; cbn [nth]; ring).
    rewrite Ew in E.
    assert (E' : Rsum (map (gapv a b 0) (trig_id s)) = (1 / 2) ^ s) by lra. clear E.
    destruct (Nat.le_gt_cases s 9) as [H9'|H9'].
    - unfold gapv in E'. rewrite Ea, Eb0, Eb1 in E'.
      assert (Hs' : (s = 5 \/ s = 6 \/ s = 8)%nat) by lia.
      destruct Hs' as [->|Hs']; [|destruct Hs' as [->| ->]];
      match type of E' with context [trig_id ?m] => let l := eval vm_compute in (trig_id m) in
        replace (trig_id m) with l in E' by (vm_compute; reflexivity) end; cbn [map] in E';
      repeat match type of E' with context [digit_at ?i ?t] =>
        let v := eval vm_compute in (digit_at i t) in change (digit_at i t) with v in E' end;
      cbn [INR Rsum fold_right pow] in E'; lra.
    - pose proof (half_pow_lt s H9') as Hh.
      destruct (sum_half a b (trig_id s) Ea Eb0 Eb1) as [Hz|Hz]; [intros t Ht; now apply (trig_id_digits s)| |]; lra. }
  all: (* series (0, 1, 1), angles 0, pi/3 and 2 pi/3 *)
    exists (3 / 2), [[0; 1; 1]], 3%nat; eexists; split; [lra|]; split; [lia|];
    (assert (HX : wf_series [[0; 1; 1]] 3) by (split; [discriminate|repeat constructor]));
    split; [exact HX|]; split; [now apply evaluable11|]; split; [exact (cos11_value s (3 / 2) [[0; 1; 1]] 3 HX eq_refl)|];
    intros E; apply (f_equal (fun r => nth 2 (nth 0 (nth 0 r []) []) 0)) in E; cbn [seq map nth] in E;
    (assert (T1 : theta (3/2) 3 1 = PI / 3) by (unfold theta; cbn; field));
    (assert (T2 : theta (3/2) 3 2 = 2 * (PI / 3)) by (unfold theta; cbn; field));
    unfold cos_sum in E; cbn [itup app map filter sw_exts w11 length] in E;
    replace (avoids no_drop [0; 1]%nat) with true in E by reflexivity;
    replace (avoids no_drop [0; 2]%nat) with true in E by reflexivity;
    replace (avoids no_drop [1; 2]%nat) with true in E by reflexivity;
    cbn [map Rsum fold_right] in E;
    (assert (Ew1 : word_val [[0; 1; 1]] [[1%Z]; [1%Z]] [0; 1]%nat = 0) by (rewrite word_val11; cbn [nth]; ring));
    (assert (Ew2 : word_val [[0; 1; 1]] [[1%Z]; [1%Z]] [0; 2]%nat = 0) by (rewrite word_val11; cbn [nth]; ring));
    (assert (Ew3 : word_val [[0; 1; 1]] [[1%Z]; [1%Z]] [1; 2]%nat = 1) by (rewrite word_val11; cbn [nth]; ring));
    rewrite Ew1, Ew2, Ew3 in E;
    unfold cos_gaps in E; cbn [length Nat.sub seq map Rprod fold_right nth] in E; rewrite T1, T2 in E;
    replace (2 * (PI / 3) - PI / 3) with (PI / 3) in E by field; rewrite cos_PI3 in E;
    (assert (E' : Rsum (map (gapv (fun j => sin (theta (3/2) 3 (pos [1; 2]%nat 2 j))) (fun j => cos (theta (3/2) 3 (pos [1; 2]%nat 2 j))) 0) (trig_id s)) = (1 / 2) ^ s) by lra);
    clear E; unfold gapv, pos in E'; cbn [length Nat.ltb Nat.leb nth] in E'; rewrite T1, T2 in E';
    rewrite sin_PI3, cos_PI3, sin_2PI3, cos_2PI3 in E';
    replace (sqrt 3 / 2 * (sqrt 3 / 2)) with (3 / 4) in E' by (replace (sqrt 3 / 2 * (sqrt 3 / 2)) with (sqrt 3 * sqrt 3 / 4) by field; rewrite P3; field);
    subst s;
    match type of E' with context [trig_id ?m] => let l := eval vm_compute in (trig_id m) in
        replace (trig_id m) with l in E' by (vm_compute; reflexivity) end; cbn [map] in E';
    repeat match type of E' with context [digit_at ?i ?t] =>
        let v := eval vm_compute in (digit_at i t) in change (digit_at i t) with v in E' end;
    cbn [INR Rsum fold_right pow] in E'; lra.
Qed.
Print Assumptions C23_exponents_from_5_refuted.

(** The documentation has f*N where the code uses f*(N-1). *)
Theorem C22_documented_angle_refuted :
  exists rows, cos_transform (cos11 2 1 false) cos_fresh [[[1; 1]]] = Ok rows /\
    rows <> [[map (cos_sum [[1; 1]] (sw_exts w11) 2 false (fun t => PI * INR t / (1 * INR 2)) no_drop) (seq 0 2)]].
Proof.
  assert (HX : wf_series [[1; 1]] 2) by (split; [discriminate|repeat constructor]).
  destruct (C22_coswiss (cos11 2 1 false) cos_fresh [[[1; 1]]] 2) as (rows & E & Hl & Hr);
    try reflexivity; try discriminate; try (cbn; lia).
  { repeat constructor. lra. } { repeat constructor; discriminate || reflexivity. }
  { constructor; [|constructor]. constructor; [|constructor]. now apply evaluable11. }
  exists rows. split; auto. specialize (Hr 0%nat 0%nat w11 1 eq_refl eq_refl). intros ->.
  change (0 * length (cw_freqs (cos11 2 1 false)) + 0)%nat with 0%nat in Hr.
  apply (f_equal (fun o => match o with Some l => nth 1 (nth 0 l []) 0 | None => 0 end)) in Hr.
  cbn [nth_error seq map nth cos11 cw_exp cw_total] in Hr. unfold cos_sum in Hr. cbn [itup app map filter sw_exts w11 length] in Hr.
  replace (avoids no_drop [0; 1]%nat) with true in Hr by reflexivity. cbn [map Rsum fold_right] in Hr.
  unfold cos_gaps in Hr. cbn [length Nat.sub seq map Rprod fold_right nth] in Hr.
  assert (Ew : word_val [[1; 1]] [[1%Z]; [1%Z]] [0; 1]%nat = 1) by (rewrite word_val11; cbn [nth]; ring).
  rewrite Ew in Hr.
  replace (PI * INR 1 / (1 * INR 2) - PI * INR 0 / (1 * INR 2)) with (PI / 2) in Hr by (cbn; field).
  replace (theta 1 2 1 - theta 1 2 0) with PI in Hr by (unfold theta; cbn; field).
  rewrite cos_PI2, cos_PI in Hr. cbn [pow] in Hr. lra.
Qed.
Print Assumptions C22_documented_angle_refuted.

(** Non-vacuity: two words, two frequencies, three time steps, total
    weighting; a dropout configuration; a network. *)
Definition w2 : sword R :=
  {| sw_name := "[11]"%string; sw_maxdim := 1; sw_exts := [[2%Z]]; sw_alpha := None |}.
Example w2_parsed : simple_word (T := R) "[11]"%string = Ok w2.
Proof. reflexivity. Qed.
Definition exX : dataset R := [[[1; 2; 3]]; [[0; -1; 5]]].
Definition exC (ffn : option nat) (drop : option (nat -> nat)) : cos_cfg R :=
  {| cw_words := [w11; w2]; cw_freqs := [1; 1 / 2]; cw_exp := 3; cw_total := true; cw_ffn := ffn; cw_drop := drop |}.
Lemma exX_wf : wf_dataset exX 3.
Proof. repeat constructor; discriminate. Qed.
Lemma exX_words x n : length x = 1%nat -> Forall (evaluable x n) [w11; w2].
Proof.
  intros Hx. constructor; [now apply evaluable11|]. constructor; [|constructor]. split; [discriminate|]. split.
  - repeat (apply Forall_cons || apply Forall_nil); intros j Hj _; cbn in Hj; lia.
  - repeat (apply Forall_cons || apply Forall_nil); intros j i Hj Hn; cbn in Hj; destruct j; cbn in Hn; lia.
Qed.
Lemma exX_ev : Forall (fun w => Forall (fun x => evaluable x 3 w) exX) [w11; w2].
Proof.
  apply Forall_forall. intros w Hw. apply Forall_forall. intros x Hx.
  assert (Hl : length x = 1%nat) by (destruct Hx as [<-|[<-|[]]]; reflexivity).
  pose proof (exX_words x 3 Hl) as H. rewrite Forall_forall in H. now apply H.
Qed.
Example C22_nonvacuous : exists rows, cos_transform (exC None None) cos_fresh exX = Ok rows /\ length rows = 4%nat.
Proof.
  destruct (C22_coswiss (exC None None) cos_fresh exX 3) as (rows & E & Hl & _);
    [reflexivity|reflexivity|cbn; lia|discriminate|lia| |apply exX_wf|apply exX_ev|exists rows; now split].
  repeat constructor; lra.
Qed.
Example C24_dropout_nonvacuous : exists st rows,
  cos_fit (exC None (Some (fun l => l / 2)))%nat (fun _ _ => {| ffn_w1 := []; ffn_b := []; ffn_w2 := [] |})
    (fun i j k => [(i + j + k) mod 3])%nat exX cos_fresh = (Ok tt, st) /\
  cos_transform (exC None (Some (fun l => l / 2)))%nat st exX = Ok rows /\ length rows = 4%nat.
Proof.
  eexists. edestruct (C24_dropout (exC None (Some (fun l => l / 2)))%nat
    {| cs_ffn := None; cs_drop := Some (fun i j k => [(i + j + k) mod 3])%nat |}
    (fun i j k => [(i + j + k) mod 3])%nat exX 3) as (rows & E & Hl & _); try reflexivity; try discriminate;
    try (cbn; lia); [|apply exX_wf|apply exX_ev| |exists rows; split; [reflexivity|now split]].
  - repeat constructor; lra.
  - intros i j k. constructor; [|constructor]. apply Nat.mod_upper_bound. lia.
Qed.
Example C24_network_nonvacuous : exists rows,
  cos_transform (exC (Some 2%nat) None)
    {| cs_ffn := Some (fun i j => {| ffn_w1 := [[1]; [-1]]; ffn_b := [INR i; INR j]; ffn_w2 := [[1; 2]] |}); cs_drop := None |} exX
  = Ok rows /\ length rows = 4%nat.
Proof.
  edestruct (C24_network (exC (Some 2%nat) None)
    {| cs_ffn := Some (fun i j => {| ffn_w1 := [[1]; [-1]]; ffn_b := [INR i; INR j]; ffn_w2 := [[1; 2]] |}); cs_drop := None |}
    (fun i j => {| ffn_w1 := [[1]; [-1]]; ffn_b := [INR i; INR j]; ffn_w2 := [[1; 2]] |}) exX 3 2%nat)
    as (rows & E & Hl & _);
    [reflexivity|reflexivity|cbn; lia|discriminate|lia| |apply exX_wf|discriminate| | |exists rows; now split].
  - repeat constructor; lra.
  - intros i j x Hx. assert (Hl : length x = 1%nat) by (destruct Hx as [<-|[<-|[]]]; reflexivity).
    rewrite Hl. repeat constructor.
  - intros i j w x Hw Hx. pose proof (exX_words (net_series {| ffn_w1 := [[1]; [-1]]; ffn_b := [INR i; INR j]; ffn_w2 := [[1; 2]] |} 3 x) 3 eq_refl) as H.
    rewrite Forall_forall in H. apply H. exact (nth_error_In _ _ Hw).
Qed.
