(** ISS over user-defined semirings. *)
From Coq Require Import Ascii String List Arith ZArith Bool Lia.
From Verif Require Import Num Arr L_Arr M_Str M_Semiring M_Words M_ISS S_ISS S_Plan S_Custom L_Tuples L_Reals L_Plan L_ISS L_General M_Custom.
Import ListNotations.
Local Open Scope nat_scope.

Section Alg.
Context {T : Type} {N : Num T}.
Variable o : srops T.
Variable add : T -> T -> T.
Notation mul := (sr_op o).
Notation one := (sr_one o).
Hypothesis L : laws add mul one.
Hypothesis Hc : running add (sr_cum o).

Definition oadd (a b : option T) : option T :=
  match a, b with Some x, Some y => Some (add x y) | Some x, None => Some x | None, y => y end.
Lemma fold_add l : forall a b, fold_left add l (add a b) = add a (fold_left add l b).
Proof. induction l as [|x l IH]; intros a b; cbn; [reflexivity|]. rewrite <- (add_assoc _ _ _ L). apply IH. Qed.
Lemma total_app l m : total add (l ++ m) = oadd (total add l) (total add m).
Proof.
  destruct l as [|x l]; [reflexivity|]. destruct m as [|y m]; [now rewrite app_nil_r|].
  cbn [total app oadd]. f_equal. rewrite fold_left_app. cbn [fold_left]. now rewrite fold_add.
Qed.
Lemma total_scale c l : total add (map (fun x => mul x c) l) = option_map (fun x => mul x c) (total add l).
Proof.
  destruct l as [|x l]; [reflexivity|]. cbn [map total option_map]. f_equal. revert x.
  induction l as [|y l IH]; intros x; cbn; [reflexivity|]. rewrite <- (distr _ _ _ L). apply IH.
Qed.
Lemma product_snoc l x : product_ mul one (l ++ [x]) = mul (product_ mul one l) x.
Proof.
  unfold product_. induction l as [|y l IH]; cbn [app fold_right].
  - now rewrite (mul_one_r _ _ _ L), (mul_one_l _ _ _ L).
  - rewrite IH. apply (mul_assoc _ _ _ L).
Qed.
Lemma fold_left_mul l : forall a, fold_left mul l a = mul a (product_ mul one l).
Proof.
  unfold product_. induction l as [|y l IH]; intros a; cbn [fold_left fold_right]; [now rewrite (mul_one_r _ _ _ L)|].
  rewrite IH. symmetry. apply (mul_assoc _ _ _ L).
Qed.
Lemma fold_left_one l : fold_left mul l one = product_ mul one l.
Proof. rewrite fold_left_mul. apply (mul_one_l _ _ _ L). Qed.

(** Sums over tuples of a list of functions. *)
Definition fap (fs : list (nat -> T)) (tau : list nat) : list T := map2 (fun f i => f i) fs tau.
Definition cs (fs : list (nat -> T)) (n : nat) : option T :=
  total add (map (fun tau => product_ mul one (fap fs tau)) (itup (length fs) n)).
Lemma cs_nil n : cs [] n = Some one.
Proof. unfold cs. cbn [length]. rewrite itup_0. reflexivity. Qed.
Lemma cs_snoc fs f n : cs (fs ++ [f]) (S n) = oadd (cs (fs ++ [f]) n) (option_map (fun x => mul x (f n)) (cs fs n)).
Proof.
  unfold cs. rewrite app_length. cbn [length]. rewrite Nat.add_1_r, itup_S_S, map_app, total_app. f_equal.
  rewrite <- total_scale, !map_map. f_equal. apply map_ext_in. intros tau Ht.
  apply itup_In in Ht. destruct Ht as [Hl _]. unfold fap. rewrite map2_app by lia.
  cbn [map2]. apply product_snoc.
Qed.
Lemma cs_short fs n : n < length fs -> cs fs n = None.
Proof. intros Hn. unfold cs. now rewrite itup_short. Qed.
Lemma cs_none fs n : cs fs n = None -> n < length fs.
Proof.
  revert n. induction fs as [|f fs IH] using rev_ind; intros n E; [rewrite cs_nil in E; discriminate|].
  rewrite app_length. cbn. destruct n as [|n]; [lia|]. rewrite cs_snoc in E.
  destruct (cs fs n) eqn:E1; [destruct (cs (fs ++ [f]) n); discriminate|]. specialize (IH n E1). lia.
Qed.
Definition odef (x : option T) : T := match x with Some v => v | None => nzero end.

Lemma cum_spec l : sr_cum o l = accumulate add l.
Proof.
  destruct (Hc l) as [Hl Hn]. apply nth_ext with (d := nzero) (d' := nzero); [now rewrite accumulate_length|].
  intros t Ht. rewrite Hl in Ht. apply nth_error_nth. rewrite Hn by exact Ht. clear Hl Hn.
  destruct l as [|x l]; [cbn in Ht; lia|]. cbn [firstn total accumulate]. f_equal. revert x t Ht.
  assert (G : forall l x t, t < length l -> nth t (scan add x l) nzero = fold_left add (firstn (S t) l) x).
  { clear. induction l as [|y l IH]; intros x t Ht; cbn in Ht; [lia|]. destruct t as [|t]; [reflexivity|].
    cbn [scan nth]. cbv zeta. rewrite IH by lia. reflexivity. }
  intros x [|t] Ht; [reflexivity|]. cbn [nth]. rewrite G by (cbn in Ht; lia). reflexivity.
Qed.

Section Series.
Variables (X : mts T) (n : nat).
Hypothesis HX : X <> [] /\ Forall (fun x => length x = n) X.
Lemma tlen_n : tlen X = n.
Proof. destruct X as [|x r]; [easy|]. destruct HX as [_ F]. now inversion F. Qed.

Definition cval (el : list (bletter T)) (i : nat) : T := product_ mul one (map (fun l : bletter T => nth i (l X) nzero) el).
Lemma ext_value_gen el : Forall (fun l : bletter T => length (l X) = n) el -> forall f,
  fold_left (fun C (l : bletter T) => map2 mul C (l X)) el (tab n f)
  = tab n (fun i => fold_left mul (map (fun l : bletter T => nth i (l X) nzero) el) (f i)).
Proof.
  induction 1 as [|l el Hl Hel IH]; intros f; cbn [fold_left map]; [reflexivity|].
  rewrite (tab_eta' nzero n (l X) Hl) at 1. rewrite tab_map2, IH. reflexivity.
Qed.
Lemma ext_value_c el : Forall (fun l : bletter T => length (l X) = n) el -> ext_value o X el = tab n (cval el).
Proof.
  intros Hel. unfold ext_value. rewrite tlen_n, tab_repeat, ext_value_gen by exact Hel.
  apply tab_ext. intros i _. apply fold_left_one.
Qed.
Definition Cs (p : list (list (bletter T))) : list (nat -> T) := map cval p.
Definition crow (p : list (list (bletter T))) : list T := tab n (fun t => odef (cs (Cs p) (S t))).

Lemma shift_cs p : p <> [] -> shift0 (crow p) = tab n (fun t => odef (cs (Cs p) t)).
Proof.
  intros Hp. unfold shift0, crow. destruct n as [|m]; [reflexivity|].
  rewrite roll1_tab, upd_tab. apply tab_ext. intros i Hi. destruct i as [|i]; cbn [Nat.eqb].
  - rewrite cs_short; [reflexivity|]. unfold Cs. rewrite map_length. destruct p; [easy|cbn; lia].
  - reflexivity.
Qed.
Lemma accum_cs p el k : length p = k -> forall m,
  Some (accum add (fun i => mul (odef (cs (Cs p) (k + i))) (cval el (k + i))) m) = cs (Cs (p ++ [el])) (S (k + m)).
Proof.
  intros Hk. assert (Hs : forall i, exists v, cs (Cs p) (k + i) = Some v).
  { intros i. destruct (cs (Cs p) (k + i)) as [v|] eqn:E; [now exists v|]. apply cs_none in E. unfold Cs in E. rewrite map_length in E. lia. }
  unfold Cs at 2. rewrite map_app. fold (Cs p). cbn [map].
  induction m as [|m IH].
  - rewrite Nat.add_0_r, cs_snoc, (cs_short (Cs p ++ _)).
    + destruct (Hs 0) as [v E]. rewrite Nat.add_0_r in E. cbn [accum oadd]. rewrite Nat.add_0_r, E. reflexivity.
    + rewrite app_length. unfold Cs. rewrite map_length. cbn. lia.
  - rewrite cs_snoc. replace (k + S m) with (S (k + m)) by lia. rewrite <- IH.
    destruct (Hs (S m)) as [v E]. replace (k + S m) with (S (k + m)) in E by lia. cbn [accum oadd option_map].
    replace (k + S m) with (S (k + m)) by lia. rewrite E. reflexivity.
Qed.
Lemma step_row p el : Forall (fun l : bletter T => length (l X) = n) el ->
  let k := length p in
  let tmp := tab n (fun t => odef (cs (Cs p) t)) in
  let tmp := firstn k tmp ++ map2 mul (skipn k tmp) (skipn k (ext_value o X el)) in
  firstn k tmp ++ sr_cum o (skipn k tmp) = crow (p ++ [el]).
Proof.
  intros Hel. cbv zeta. set (k := length p). rewrite ext_value_c by exact Hel. rewrite cum_spec.
  destruct (Nat.le_gt_cases k n) as [Hk|Hk].
  - rewrite firstn_tab by exact Hk. rewrite !skipn_tab, tab_map2.
    rewrite firstn_app, tab_length, Nat.sub_diag, firstn_O, app_nil_r, firstn_all2 by (rewrite tab_length; lia).
    rewrite skipn_app, tab_length, Nat.sub_diag, skipn_all2 by (rewrite tab_length; lia). cbn [skipn app].
    rewrite accumulate_tab, app_tab. replace (k + (n - k)) with n by lia. unfold crow. apply tab_ext. intros t Ht.
    destruct (Nat.ltb_spec t k) as [Hlt|Hge].
    + rewrite !cs_short; [reflexivity| |]; unfold Cs; rewrite map_length; rewrite ?app_length; cbn; fold k; lia.
    + pose proof (accum_cs p el k eq_refl (t - k)) as E. replace (k + (t - k)) with t in E by lia. rewrite <- E. reflexivity.
  - rewrite (firstn_all2 (tab n _)), (skipn_all2 (tab n (fun t => odef _))) by (rewrite tab_length; lia).
    cbn [map2]. rewrite app_nil_r. rewrite firstn_all2, skipn_all2 by (rewrite tab_length; lia). cbn [accumulate].
    rewrite app_nil_r. apply tab_ext. intros t Ht.
    rewrite !cs_short; [reflexivity| |]; unfold Cs; rewrite map_length; rewrite ?app_length; cbn; fold k; lia.
Qed.
Lemma slow_rows len ext word : forall p tmp result,
  Forall (Forall (fun l : bletter T => length (l X) = n)) word -> len = length p + length word ->
  tmp = (match p with [] => tab n (fun _ => one) | _ => crow p end) ->
  slow_loop o X len ext (length p) word tmp result =
  save_rows len ext (length p) (map crow (prefixes_from p word)) result.
Proof.
  induction word as [|el word IH]; intros p tmp result Hok Hlen Ht; [reflexivity|].
  pose proof (Forall_inv Hok) as Hel. pose proof (Forall_inv_tail Hok) as Hok'.
  cbn [slow_loop prefixes_from map save_rows]. cbv zeta.
  assert (E1 : (if 0 <? length p then shift0 tmp else tmp) = tab n (fun t => odef (cs (Cs p) t))).
  { subst tmp. destruct p as [|e p]; [apply tab_ext; intros i _; cbn [Cs map]; now rewrite cs_nil|]. now apply shift_cs. }
  rewrite E1. pose proof (step_row p el Hel) as E2. cbv zeta in E2. rewrite E2.
  replace (S (length p)) with (length (p ++ [el])) by (rewrite app_length; cbn; lia).
  apply IH; [exact Hok'|rewrite app_length; cbn in *; lia|]. now destruct p.
Qed.
Lemma slow_single_row word ext r : Forall (Forall (fun l : bletter T => length (l X) = n)) word -> ext <= length word -> r < ext ->
  nth r (slow_single o X word ext) [] = crow (firstn (length word - ext + S r) word).
Proof.
  intros Hok He Hr. unfold slow_single. rewrite tlen_n.
  rewrite (slow_rows (length word) ext word [] _ _ Hok eq_refl) by (now rewrite tab_repeat).
  rewrite save_rows_nth; rewrite ?map_length, ?prefixes_from_length, ?repeat_length; cbn [length]; try lia.
  destruct (Nat.ltb_spec (length word - ext + r) 0); [lia|]. rewrite Nat.sub_0_r.
  rewrite (nth_indep _ [] (crow [])) by (rewrite map_length, prefixes_from_length; lia).
  rewrite map_nth, prefixes_from_nth by lia. cbn [app]. f_equal. f_equal. lia.
Qed.
(** The rows as in the specification. *)
Lemma cs_spec p t : cs (Cs p) (S t) = citerated add mul one nzero X p t.
Proof.
  unfold cs, citerated, Cs. rewrite map_length. f_equal. apply map_ext_in. intros tau Ht. apply itup_In in Ht. destruct Ht as [Hl _].
  unfold cword_val. f_equal. unfold fap. rewrite map2_map_l. fold cval. revert tau Hl.
  induction p as [|e p IH]; intros [|i tau] Hl; try discriminate; [reflexivity|]. cbn [map2 length seq map nth]. f_equal.
  rewrite IH by (cbn in Hl; lia). rewrite <- seq_shift, map_map. reflexivity.
Qed.
Lemma crow_spec p : crow p = map (fun t => match citerated add mul one nzero X p t with Some v => v | None => nzero end) (seq 0 n).
Proof. unfold crow, tab. apply map_ext. intros t. now rewrite cs_spec. Qed.
End Series.
End Alg.

(** ** Words *)
Section Words.
Context {T : Type} {N : Num T}.
Variable reg : registry T.
Hypothesis Hdim : reg (str "DIM") = Some letter_DIM.
Definition letters_of (w : wordv T) : list (list (bletter T)) :=
  match w with WSimple exts _ => map counted exts | WGeneral e => e end.
Lemma repeat_names k : take_names k [str "DIM"] = repeat (str "DIM") k.
Proof. destruct k as [|k]; [reflexivity|]. rewrite take_names_cons, take_names_nil. reflexivity. Qed.
Lemma custom_word_letters w : custom_word reg w = Ok (letters_of w).
Proof.
  destruct w as [exts a|e]; [|reflexivity]. cbn [custom_word letters_of]. rewrite replace_letters_spec. cbv zeta.
  rewrite repeat_names.
  assert (Hk : forall k, forallb (known reg) (repeat (str "DIM") k) = true).
  { induction k as [|k IH]; [reflexivity|]. cbn [repeat forallb]. rewrite IH. unfold known. now rewrite Hdim. }
  rewrite Hk, map2_dim. cbn [bind]. unfold bind_word. rewrite !map_map. f_equal. apply map_ext. intros el.
  unfold bind_el. rewrite map_map. unfold letter_dims, counted. rewrite map_flat_map. apply flat_map_ext. intros d.
  rewrite map_repeat'. cbn [fst snd]. rewrite Hdim. f_equal. unfold letter_DIM, py_row.
  destruct (Z.leb_spec 0 (Z.of_nat d)); [|lia]. now rewrite Nat2Z.id.
Qed.
End Words.

(** ** The ISS *)
Section Iss.
Context {T : Type} {N : Num T}.
Variable c : ciss T.
Hypothesis Hdim : ci_reg c (str "DIM") = Some letter_DIM.
Variable X : dataset T.
(** [get_lookup] raises nothing but NotImplementedError. *)
Definition silent : Prop :=
  match ci_wt c with Some g => forall e, g X = Err e -> e = NotImplementedError | None => True end.
Hypothesis Hs : silent \/ Forall (fun w => exists e, iw_val w = WGeneral e) (ci_words c).
Definition block (i : nat) (w : wordv T) : list (mts T) :=
  swap01 (word_ext (ci_plan c) i) (map (fun Z => slow_single (ci_ops c) Z (letters_of w) (word_ext (ci_plan c) i)) X).
Fixpoint blocks (i : nat) (ws : list (wordv T)) : list (mts T) :=
  match ws with [] => [] | w :: r => block i w ++ blocks (S i) r end.
Lemma sums_ok i w : In w (map iw_val (ci_words c)) -> custom_sums (ci_ops c) (ci_reg c) X w i (ci_wt c)
  = Ok (map (fun Z => slow_single (ci_ops c) Z (letters_of w) i) X).
Proof.
  intros Hin. unfold custom_sums. rewrite (custom_word_letters (ci_reg c) Hdim).
  assert (E : custom_lookup X w (ci_wt c) = Ok tt); [|now rewrite E].
  unfold custom_lookup. destruct w as [exts a|e]; [|now destruct (ci_wt c)].
  destruct Hs as [Hs'|Hg].
  - unfold silent in Hs'. destruct (ci_wt c) as [g|]; [|reflexivity]. destruct (g X) as [l|e]; [reflexivity|].
    rewrite (Hs' e eq_refl). reflexivity.
  - apply in_map_iff in Hin. destruct Hin as (w & E & Hw). rewrite Forall_forall in Hg. destruct (Hg w Hw) as [e E']. congruence.
Qed.
Lemma rows_ok ws : forall i, incl ws (map iw_val (ci_words c)) -> custom_rows c X i ws = Ok (blocks i ws).
Proof.
  induction ws as [|w ws IH]; intros i Hi; [reflexivity|]. cbn [custom_rows blocks].
  rewrite sums_ok by (apply Hi; now left). cbn [bind]. rewrite IH by (intros x Hx; apply Hi; now right). reflexivity.
Qed.
Lemma firstn_incl {A} k (l : list A) : incl (firstn k l) l.
Proof. intros x Hx. rewrite <- (firstn_skipn k l). apply in_or_app. now left. Qed.
Lemma skipn_incl {A} k (l : list A) : incl (skipn k l) l.
Proof. intros x Hx. rewrite <- (firstn_skipn k l). apply in_or_app. now right. Qed.
Let ws := map iw_val (ci_words c).
Lemma blocks_app a b : forall i, blocks i (a ++ b) = blocks i a ++ blocks (i + length a) b.
Proof.
  induction a as [|w a IH]; intros i; cbn [app blocks length]; [now rewrite Nat.add_0_r|].
  rewrite IH, app_assoc. replace (S i + length a) with (i + S (length a)) by lia. reflexivity.
Qed.
Lemma calc_done f bs i : length ws <= i -> custom_calc f c X bs i = Ok ([], true).
Proof. intros Hi. unfold ws in Hi. destruct f; cbn [custom_calc]; destruct (Nat.leb_spec (length (map iw_val (ci_words c))) i); try lia; reflexivity. Qed.
Lemma calc_spec : forall fuel i bs, 1 <= bs -> length ws - i <= fuel -> i < length ws ->
  exists batches, custom_calc fuel c X bs i = Ok (batches, true) /\ concat batches = blocks i (skipn i ws)
    /\ length batches = (length ws - i + bs - 1) / bs
    /\ forall j, j < length batches -> nth j batches [] = blocks (i + j * bs) (firstn bs (skipn (i + j * bs) ws)).
Proof.
  induction fuel as [|f IH]; intros i bs Hbs Hf Hi; [lia|].
  cbn [custom_calc]. fold ws. destruct (Nat.leb_spec (length ws) i); [lia|].
  rewrite rows_ok by (intros x Hx; apply firstn_incl, skipn_incl in Hx; exact Hx). cbn [bind].
  destruct (Nat.ltb_spec (length ws) (i + bs)) as [Hlast|Hmore].
  - rewrite calc_done by lia. cbn [bind]. rewrite firstn_all2 by (rewrite skipn_length; lia).
    eexists. split; [reflexivity|]. split; [apply app_nil_r|]. split.
    + cbn [length]. apply Nat.div_unique with (r := length ws - i - 1); lia.
    + intros j Hj. cbn [length] in Hj. assert (j = 0) as -> by lia. cbn [nth Nat.mul]. rewrite Nat.add_0_r.
      rewrite firstn_all2 by (rewrite skipn_length; lia). reflexivity.
  - assert (Esplit : skipn i ws = firstn bs (skipn i ws) ++ skipn (i + bs) ws).
    { rewrite <- (firstn_skipn bs (skipn i ws)) at 1. f_equal. apply skipn_skipn'. }
    assert (El : length (firstn bs (skipn i ws)) = bs) by (rewrite firstn_length, skipn_length; lia).
    pose proof (blocks_app (firstn bs (skipn i ws)) (skipn (i + bs) ws) i) as Eb. rewrite <- Esplit, El in Eb.
    destruct (Nat.eq_dec (i + bs) (length ws)) as [Heq|Hne].
    + rewrite calc_done by lia. cbn [bind]. assert (E0 : skipn (i + bs) ws = []) by (apply skipn_all2; lia). rewrite Eb, E0. cbn [blocks].
      eexists. split; [reflexivity|]. split; [reflexivity|]. split.
      * cbn [length]. apply Nat.div_unique with (r := bs - 1); lia.
      * intros j Hj. cbn [length] in Hj. assert (j = 0) as -> by lia. cbn [nth Nat.mul]. now rewrite Nat.add_0_r.
    + destruct (IH (i + bs) bs Hbs ltac:(lia) ltac:(lia)) as (bt & Ec & Econ & Elen & Hj). rewrite Ec. cbn [bind].
      eexists. split; [reflexivity|]. split; [cbn; now rewrite Econ, Eb|]. split.
      * cbn [length]. rewrite Elen. replace (length ws - i + bs - 1) with (length ws - (i + bs) + bs - 1 + 1 * bs) by lia.
        rewrite Nat.div_add by lia. lia.
      * intros [|j] Hlt; cbn [nth].
        -- cbn [Nat.mul]. now rewrite Nat.add_0_r.
        -- cbn [length] in Hlt. rewrite Hj by lia. replace (i + S j * bs) with (i + bs + j * bs) by lia. reflexivity.
Qed.
Lemma custom_transform_blocks : ci_words c <> [] -> custom_transform c X = Ok (blocks 0 ws).
Proof.
  intros Hne. unfold custom_transform. cbn [custom_calc]. fold ws.
  assert (Hl : length ws = length (ci_words c)) by apply map_length.
  assert (0 < length (ci_words c)) by (destruct (ci_words c); [easy|cbn; lia]).
  destruct (Nat.leb_spec (length ws) 0); [lia|]. rewrite <- Hl. rewrite Nat.add_0_l, Nat.ltb_irrefl. cbn [skipn].
  rewrite firstn_all. rewrite rows_ok by apply incl_refl. cbn [bind]. rewrite Nat.leb_refl. reflexivity.
Qed.
Lemma blocks_flat d vs : forall i, blocks i vs = flat_map (fun j => block (i + j) (nth j vs d)) (seq 0 (length vs)).
Proof.
  induction vs as [|w vs IH]; intros i; [reflexivity|].
  cbn [blocks length seq flat_map nth]. rewrite Nat.add_0_r. f_equal.
  rewrite IH. rewrite <- seq_shift, flat_map_concat_map, flat_map_concat_map, map_map.
  f_equal. apply map_ext. intros j. f_equal. lia.
Qed.
End Iss.

Lemma nth_error_map_inv {A B} (f : A -> B) l : forall r y, nth_error (map f l) r = Some y -> exists x, nth_error l r = Some x /\ f x = y.
Proof. induction l as [|a l IH]; intros [|r] y E; cbn in E; try discriminate; [injection E as <-; now exists a|]. now apply IH. Qed.
Section Values.
Context {T : Type} {N : Num T}.
Variable c : ciss T.
Variable add : T -> T -> T.
Hypothesis Hl : laws add (sr_op (ci_ops c)) (sr_one (ci_ops c)).
Hypothesis Hc : running add (sr_cum (ci_ops c)).
Hypothesis Hdim : ci_reg c (str "DIM") = Some letter_DIM.
Variables (X : dataset T) (n : nat).
Hypothesis HX : Forall (fun x => x <> [] /\ Forall (fun r => length r = n) x) X.
Hypothesis Hs : silent c X \/ Forall (fun w => exists e, iw_val w = WGeneral e) (ci_words c).
(** The value at time t: the iterated sum, and the number 0 where there is none. *)
Definition cvalue (x : mts T) (v : list (list (bletter T))) (t : nat) : T :=
  match citerated add (sr_op (ci_ops c)) (sr_one (ci_ops c)) nzero x v t with Some s => s | None => nzero end.
Definition cvalues (v : list (list (bletter T))) : mts T := map (fun x => map (cvalue x v) (seq 0 n)) X.
Definition good_letters (v : list (list (bletter T))) : Prop :=
  Forall (fun x => Forall (Forall (fun l : bletter T => length (l x) = n)) v) X.
Lemma block_rows i w : good_letters (letters_of w) -> word_ext (ci_plan c) i <= length (letters_of w) ->
  block c X i w = map (fun r => cvalues (firstn (length (letters_of w) - word_ext (ci_plan c) i + S r) (letters_of w)))
                      (seq 0 (word_ext (ci_plan c) i)).
Proof.
  intros Hg He. unfold block, swap01. set (e := word_ext (ci_plan c) i) in *. apply map_ext_in. intros r Hr. apply in_seq in Hr.
  rewrite map_map. unfold cvalues. apply map_ext_in. intros x Hx. unfold good_letters in Hg. rewrite Forall_forall in HX, Hg.
  rewrite (slow_single_row (ci_ops c) add Hl Hc x n (HX x Hx) (letters_of w) e r (Hg x Hx) He ltac:(lia)).
  now rewrite crow_spec.
Qed.
Lemma single_values : ci_mode c = SINGLE -> ci_words c <> [] ->
  Forall (fun w => letters_of (iw_val w) <> [] /\ good_letters (letters_of (iw_val w))) (ci_words c) ->
  custom_transform c X = Ok (map (fun w => cvalues (letters_of (iw_val w))) (ci_words c)).
Proof.
  intros Hm Hne Hw. rewrite (custom_transform_blocks c Hdim X Hs Hne). f_equal.
  assert (He : forall i, word_ext (ci_plan c) i = 1) by (intros i; unfold ci_plan; now rewrite Hm).
  clear Hs Hne. generalize 0. induction Hw as [|w ws [Hv Hg] Hws IH]; intros i; [reflexivity|]. cbn [map blocks].
  rewrite block_rows; [|exact Hg|rewrite He; destruct (letters_of (iw_val w)); [easy|cbn; lia]].
  rewrite He, IH. cbn [seq map app]. f_equal. f_equal. rewrite firstn_all2; [reflexivity|lia].
Qed.
Variable bodies : list (list pystr).
Hypothesis Hbs : map iw_str (ci_words c) = map wstring bodies.
Hypothesis Hwf : Forall wf_bodies bodies.
Hypothesis Hlen : map (fun w => length (letters_of (iw_val w))) (ci_words c) = map (@length pystr) bodies.
Let v i := letters_of (nth i (map iw_val (ci_words c)) (WGeneral [])).
Lemma words_bodies : length (ci_words c) = length bodies.
Proof. rewrite <- (map_length iw_str), Hbs. apply map_length. Qed.
Lemma v_length i : length (v i) = length (nth i bodies []).
Proof.
  unfold v. pose proof (f_equal (fun l => nth i l 0) Hlen) as E. cbn beta in E.
  rewrite (map_nth (@length pystr) bodies []) in E. rewrite <- E. rewrite (map_nth iw_val (ci_words c) {| iw_str := []; iw_val := WGeneral [] |}).
  now rewrite (map_nth (fun w => length (letters_of (iw_val w))) (ci_words c) {| iw_str := []; iw_val := WGeneral [] |}).
Qed.
Lemma extended_values : ci_mode c = EXTENDED -> ci_words c <> [] ->
  Forall (fun w => good_letters (letters_of (iw_val w))) (ci_words c) ->
  let L := dedup word_eq_dec [] (flat_map prefixes bodies) in
  exists rows, custom_transform c X = Ok rows /\ length rows = length L /\
    forall r p, nth_error L r = Some p ->
      exists i w b, nth_error (ci_words c) i = Some w /\ nth_error bodies i = Some b /\ firstn (length p) b = p /\
        nth_error rows r = Some (cvalues (firstn (length p) (letters_of (iw_val w)))).
Proof.
  intros Hm Hne Hg L. rewrite (custom_transform_blocks c Hdim X Hs Hne). eexists. split; [reflexivity|].
  rewrite (blocks_flat c X (WGeneral [])), map_length, words_bodies.
  set (P i := plan_word (map wstring bodies) i).
  set (idx := flat_map (fun i => map (fun r => (i, length (nth i bodies []) - P i + r + 1)) (seq 0 (P i))) (seq 0 (length bodies))).
  assert (EL : L = map (fun id => firstn (snd id) (nth (fst id) bodies [])) idx).
  { unfold L. rewrite <- (all_labels_dedup bodies Hwf). unfold all_labels, idx. rewrite map_flat_map. apply flat_map_ext. intros i.
    unfold word_labels. rewrite map_map. reflexivity. }
  assert (ER : flat_map (fun j => block c X (0 + j) (nth j (map iw_val (ci_words c)) (WGeneral []))) (seq 0 (length bodies))
               = map (fun id => cvalues (firstn (snd id) (v (fst id)))) idx).
  { unfold idx. rewrite map_flat_map, !flat_map_concat_map. f_equal. apply map_ext_in. intros i Hi. apply in_seq in Hi. cbn [plus].
    assert (Ee : word_ext (ci_plan c) i = P i).
    { unfold ci_plan. rewrite Hm, Hbs. unfold word_ext, unique_el_depth, create_plan.
      rewrite (nth_indep _ 0 (plan_word (map wstring bodies) 0)) by (rewrite map_length, seq_length, map_length; unfold pystr in *; lia).
      rewrite map_nth, seq_nth by (rewrite map_length; unfold pystr in *; lia). reflexivity. }
    pose proof (v_length i) as Ev. unfold v in *. rewrite block_rows.
    - rewrite Ee, map_map. apply map_ext. intros r. cbn [fst snd]. rewrite Ev. f_equal. f_equal. lia.
    - rewrite Forall_forall in Hg. apply Forall_forall with (x := nth i (map iw_val (ci_words c)) (WGeneral [])) (l := map iw_val (ci_words c)).
      + apply Forall_forall. intros w' Hw'. apply in_map_iff in Hw'. destruct Hw' as (w & <- & Hw). now apply Hg.
      + apply nth_In. rewrite map_length, words_bodies. lia.
    - rewrite Ee, Ev. apply (plan_word_le bodies Hwf). }
  rewrite ER, EL, !map_length. split; [reflexivity|]. intros r p Ep. apply nth_error_map_inv in Ep.
  destruct Ep as ((i & d) & Eid & <-). cbn [fst snd].
  assert (Hin : i < length bodies /\ d <= length (nth i bodies [])).
  { pose proof (nth_error_In _ _ Eid) as Hin. unfold idx in Hin. apply in_flat_map in Hin. destruct Hin as (i' & Hi' & Hin).
    apply in_map_iff in Hin. destruct Hin as (r' & Er & Hr'). injection Er as <- <-. apply in_seq in Hi', Hr'. 
    pose proof (plan_word_le bodies Hwf i') as Hp. unfold P, pystr in *. lia. }
  destruct Hin as [Hi Hd].
  destruct (nth_error (ci_words c) i) as [w|] eqn:Ew; [|apply nth_error_None in Ew; rewrite words_bodies in Ew; lia].
  exists i, w, (nth i bodies []). split; [exact Ew|]. split; [now apply nth_error_nth'|].
  unfold pystr in *. assert (El : length (firstn d (nth i bodies [])) = d) by (rewrite firstn_length; lia). rewrite El. split; [reflexivity|].
  rewrite (map_nth_error _ _ _ Eid). cbn [fst snd]. do 3 f_equal. unfold v.
  now rewrite (nth_error_nth _ _ _ (map_nth_error iw_val _ _ Ew)).
Qed.
End Values.
