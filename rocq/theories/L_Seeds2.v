(** Shapes of the results of the library's seeds: the hypotheses [shaped] of
    the theorems about fruits hold for the library. *)
From Coq Require Import Ascii String List Arith ZArith Bool RelationClasses Lia.
From Verif Require Import Num Arr M_Str M_Semiring M_Words M_ISS M_Np M_Prep M_Cache M_Sieve M_PrepObj M_Cos M_Fruit M_Seeds
  S_Fruit L_Arr L_Fruit P_Copy L_Seeds.
Import ListNotations.

Section Shapes.
Context {T : Type} `{N : Num T}.
Variable parse : pystr -> res T.
Variable powf : T -> T -> T.
Variable qf : T -> list T -> T.
Variable eps5 : T.
Variable order : list T -> list T.

(** ** Lists *)
Lemma map2M_length {A B C} (f : A -> B -> res C) l1 l2 r : map2M f l1 l2 = Ok r -> length r = Nat.min (length l1) (length l2).
Proof.
  revert l2 r. induction l1 as [|x l1 IH]; intros [|y l2] r E; cbn in E; try (injection E as <-; reflexivity).
  destruct (f x y) as [z|e]; [|discriminate]. cbn in E. destruct (map2M f l1 l2) as [zs|e] eqn:Ez; [|discriminate]. injection E as <-.
  cbn. f_equal. now apply IH.
Qed.
Lemma map2M_In {A B C} (f : A -> B -> res C) l1 l2 r c : map2M f l1 l2 = Ok r -> In c r -> exists a b, In a l1 /\ In b l2 /\ f a b = Ok c.
Proof.
  revert l2 r. induction l1 as [|x l1 IH]; intros [|y l2] r E Hc; cbn in E; try (injection E as <-; destruct Hc).
  destruct (f x y) as [z|e] eqn:Ef; [|discriminate]. cbn in E. destruct (map2M f l1 l2) as [zs|e] eqn:Ez; [|discriminate]. injection E as <-.
  destruct Hc as [<-|Hc]; [exists x, y; cbn; auto|]. destruct (IH l2 zs Ez Hc) as (a & b & H1 & H2 & H3). exists a, b. cbn. auto.
Qed.
Lemma mapM_In {A B} (f : A -> res B) l r c : mapM f l = Ok r -> In c r -> exists a, In a l /\ f a = Ok c.
Proof.
  revert r. induction l as [|x l IH]; intros r E Hc; cbn in E; [injection E as <-; destruct Hc|].
  destruct (f x) as [z|e] eqn:Ef; [|discriminate]. cbn in E. destruct (mapM f l) as [zs|e] eqn:Ez; [|discriminate]. injection E as <-.
  destruct Hc as [<-|Hc]; [exists x; cbn; auto|]. destruct (IH zs eq_refl Hc) as (a & H1 & H2). exists a. cbn. auto.
Qed.
Lemma pairs_length {A} (l : list A) : length (pairs l) = length l - 1.
Proof. induction l as [|x [|y l] IH]; [reflexivity|reflexivity|]. change (pairs (x :: y :: l)) with ((x, y) :: pairs (y :: l)). cbn [length]. rewrite IH. cbn. lia. Qed.
Lemma zsort_length l : length (zsort l) = length l.
Proof.
  assert (Z1 : forall x l, length (zinsert x l) = S (length l)) by (intros x l'; induction l' as [|y l' IH]; cbn; [reflexivity|]; destruct (x <=? y)%Z; cbn; congruence).
  unfold zsort. induction l as [|x l IH]; cbn; [reflexivity|]. now rewrite Z1, IH.
Qed.
Lemma concat_length_eq {A} (ll : list (list A)) m : (forall l, In l ll -> length l = m) -> length (concat ll) = length ll * m.
Proof. induction ll as [|l ll IH]; intros E; cbn; [reflexivity|]. rewrite app_length, (E l) by (now left). rewrite IH by (intros; apply E; now right). reflexivity. Qed.
Lemma map2_len {A B C} (f : A -> B -> C) l1 l2 : length (map2 f l1 l2) = Nat.min (length l1) (length l2).
Proof. revert l2. induction l1 as [|x l1 IH]; intros [|y l2]; cbn; auto. Qed.

(** ** Sieves *)
Lemma cuts_of_shape (get : pystr -> res (cval T)) norm n l cut cs : cuts_of get norm n l cut = Ok cs -> length cs = n /\ forall c, In c cs -> length c = S (length cut).
Proof.
  unfold cuts_of. destruct (mapM (cut_column get norm n l) cut) as [cols|e] eqn:Ec; [|discriminate]. cbn [bind]. intros E. injection E as <-.
  split; [now rewrite map_length, seq_length|]. intros c Hc. apply in_map_iff in Hc as (i & <- & _).
  match goal with |- length (zinsert _ (zsort ?m)) = _ => change (length (zsort (0%Z :: m)) = S (length cut)) end. rewrite zsort_length. cbn [length]. rewrite map_length. f_equal. exact (mapM_length _ _ _ Ec).
Qed.
Lemma backend_row_length k edges (x : series T) cs r : backend_row k edges x cs = Ok r -> length r = (length cs - 1) * (length edges - 1).
Proof.
  unfold backend_row. match goal with |- context [mapM ?f ?l] => destruct (mapM f l) as [rows|e] eqn:Em; [|discriminate] end. cbn.
  intros E. injection E as <-. rewrite (concat_length_eq rows (length edges - 1)).
  - rewrite (mapM_length _ _ _ Em), pairs_length. reflexivity.
  - intros l Hl. destruct (mapM_In _ _ _ _ Em Hl) as (ab & _ & Eab). now rewrite (mapM_length _ _ _ Eab), pairs_length.
Qed.
Lemma end_row_length (x : series T) cs r : end_row x cs = Ok r -> length r = length cs - 1.
Proof. intros E. rewrite (mapM_length _ _ _ E). destruct cs; cbn; lia. Qed.
Lemma pre_transform_length k (X : mts T) : length (pre_transform k X) = length X.
Proof. unfold pre_transform. destruct (is_inc_kind k); [apply map_length|reflexivity]. Qed.
Lemma backend_input_length k (X : mts T) : length (backend_input k X) = length X.
Proof. destruct k; cbn; try reflexivity; apply map_length. Qed.
Lemma seg_transform_shape c get st (X R : mts T) : (sg_kind c = KEND -> length (sg_q c) = 2) ->
  match st with Some e => length e = length (sg_q c) | None => True end ->
  fst (seg_transform c get st X) = Ok R -> length R = length X /\ forall row, In row R -> length row = seg_nfeatures c.
Proof.
  intros He Hs. unfold seg_transform. set (Y := pre_transform (sg_kind c) X). set (cuts := cuts_of get (sg_norm c) (length Y) (tlen Y) (sg_cut c)).
  assert (LY : length Y = length X) by apply pre_transform_length.
  assert (Main : forall k, k <> KEND -> forall st', match st' with Some e => length e = length (sg_q c) | None => True end ->
    (let! cs := cuts in match st' with None => Err AttributeError | Some [] => Err ValueError
                        | Some edges => map2M (backend_row k edges) (backend_input k Y) cs end) = Ok R ->
    length R = length X /\ forall row, In row R -> length row = seg_nfeatures c).
  { intros k _ st' L E. destruct cuts as [cs|e] eqn:Ec; [|discriminate]. cbn [bind] in E. apply cuts_of_shape in Ec as (L1 & L2).
    destruct st' as [[|e0 es]|]; try discriminate. split.
    - rewrite (map2M_length _ _ _ _ E), backend_input_length. lia.
    - intros row Hr. destruct (map2M_In _ _ _ _ _ E Hr) as (x & c0 & _ & Hc & Er). rewrite (backend_row_length _ _ _ _ _ Er), (L2 c0 Hc), L.
      unfold seg_nfeatures. f_equal. lia. }
  assert (Go : forall k, k <> KEND -> fst (match (if seg_requires c then Ok st else let! e := mapM edge_plain (sg_q c) in Ok (Some e)) with
      | Err e => (Err e, st)
      | Ok st' => ((let! cs := cuts in match st' with None => Err AttributeError | Some [] => Err ValueError
                        | Some edges => map2M (backend_row k edges) (backend_input k Y) cs end), st') end) = Ok R ->
      length R = length X /\ forall row, In row R -> length row = seg_nfeatures c).
  { intros k Hk. destruct (seg_requires c); [cbn [fst]; now apply Main|].
    destruct (mapM edge_plain (sg_q c)) as [e|e] eqn:Em; cbn [bind fst]; [|discriminate]. apply (Main k Hk (Some e)). exact (mapM_length _ _ _ Em). }
  destruct (sg_kind c) eqn:Ek; try (apply Go; discriminate).
  cbn [fst]. intros E. destruct cuts as [cs|e] eqn:Ec; [|discriminate]. cbn [bind] in E. apply cuts_of_shape in Ec as (L1 & L2). split.
  - rewrite (map2M_length _ _ _ _ E). lia.
  - intros row Hr. destruct (map2M_In _ _ _ _ _ E Hr) as (x & c0 & _ & Hc & Er). rewrite (end_row_length _ _ _ Er), (L2 c0 Hc).
    unfold seg_nfeatures. rewrite (He eq_refl). lia.
Qed.
Lemma wrap_inc_length d k (X : mts T) : forall acc Y, length acc = length X -> wrap_inc d k X acc = Ok Y -> length Y = length X.
Proof.
  induction d as [|d IH]; intros acc Y L E; cbn in E; [now injection E as <-|].
  destruct (mapM (increments1 k) X) as [Z|e] eqn:Em; [|discriminate]. cbn in E. apply (IH Z); [exact (mapM_length _ _ _ Em)|exact E].
Qed.
Lemma sv_transform_shape s : regular order s -> forall (X R : mts T), fst (sv_transform parse s X) = Ok R ->
  length R = length X /\ forall row, In row R -> length row = sv_nfeatures s.
Proof.
  induction s as [c st ca|c st ca|i IH d k ca|i IH ca]; intros Hr X R E; cbn [regular sv_transform sv_nfeatures] in *.
  - destruct Hr as (Hr1 & Hr2). apply (seg_transform_shape c (get_on parse match sv_cache (SSeg c st ca) with Some inp => inp | None => map (fun x => [x]) X end) st X R Hr1 Hr2).
    destruct (seg_transform c _ st X) as [[r|e] st']; exact E.
  - destruct Hr as (_ & Hr). unfold ppv_transform in E. destruct st as [q|]; cbn in E; [|discriminate]. injection E as <-.
    rewrite map_length. split; [reflexivity|]. intros row Hrow. apply in_map_iff in Hrow as (x & <- & _). rewrite map_length.
    unfold ppv_conditions, ppv_nfeatures. destruct (pv_segments c); rewrite map_length; [rewrite pairs_length|]; congruence.
  - destruct (wrap_inc d k X X) as [Y|e] eqn:Ew; [|discriminate].
    assert (LY : length Y = length X) by (apply (wrap_inc_length d k X X Y eq_refl Ew)).
    specialize (IH Hr Y R). destruct (sv_transform parse i Y) as [[r|e] i']; [|discriminate]. rewrite LY in IH. now apply IH.
  - specialize (IH Hr (map cumsum X) R). rewrite map_length in IH. destruct (sv_transform parse i (map cumsum X)) as [[r|e] i']; [|discriminate]. now apply IH.
Qed.

(** ** Preparateurs *)
(** FUN is only covered for functions that keep the number of series. *)
Definition keeps_rows (p : prep T) : Prop :=
  match p with PLeaf (LFUN g) _ => forall X Z, g X = Ok Z -> length Z = length X | _ => True end.
Lemma inc_loop_length c k (X : dataset T) n : forall out Z, length out = length X -> inc_loop c k X n out = Ok Z -> length Z = length X.
Proof.
  induction n as [|n IH]; intros out Z L E; cbn in E; [now injection E as <-|].
  destruct (inc_step c k X out) as [o|e] eqn:Es; [|discriminate]. cbn in E. apply (IH o); [|exact E]. clear E IH.
  unfold inc_step in Es. destruct (increments k out) as [o'|e] eqn:Ei; [|discriminate]. cbn in Es. unfold increments in Ei. apply mapM_length in Ei.
  destruct (inc_zp c); [injection Es as <-; congruence|]. destruct (inc_shift c); [|discriminate]. apply map2M_length in Es. rewrite Es, Ei, L. lia.
Qed.
Lemma bcast_length {A B} (l1 : list A) (l2 : list B) a b : bcast l1 l2 = Ok (a, b) -> length a = length b /\ (length l2 = length l1 \/ length l2 = 1 -> length a = length l1).
Proof.
  unfold bcast. destruct (Nat.eqb_spec (length l1) (length l2)) as [E|E].
  - intros H. injection H as <- <-. auto.
  - destruct l1 as [|x [|x' l1]], l2 as [|y [|y' l2]]; cbn in *; try discriminate; intros H; injection H as <- <-; cbn; rewrite ?repeat_length; split; try reflexivity; intros [?|?]; lia.
Qed.
Lemma wave_apply_length op (X : dataset T) wave Z : length wave = length X \/ length wave = 1 -> wave_apply op X wave = Ok Z -> length Z = length X.
Proof.
  unfold wave_apply. intros L E. destruct (bcast X wave) as [[X' W']|e] eqn:Eb; [|discriminate]. cbn in E.
  apply bcast_length in Eb as (L1 & L2). apply map2M_length in E. rewrite E, <- L1, (L2 L). lia.
Qed.
Lemma leaf_rows inp f (X Z : dataset T) : (match f with LSPE _ _ _ (Some _) _ => length inp = length X | _ => True end) -> (match f with LFUN g => forall X Z, g X = Ok Z -> length Z = length X | _ => True end) ->
  leaf_transform parse powf inp f X = Ok Z -> length Z = length X.
Proof.
  intros Li Hf E. destruct f; cbn [leaf_transform] in E.
  - unfold inc_transform in E. eapply inc_loop_length; [reflexivity|exact E].
  - unfold std_transform in E. destruct (std_separately c); [injection E as <-; apply map_length|]. destruct st as [[m sd]|]; [|discriminate]. injection E as <-. apply map_length.
  - unfold nrm_transform in E. exact (mapM_length _ _ _ E).
  - unfold mav_transform in E. destruct st as [v|]; [|discriminate]. destruct w as [[|p|[p|p|]]|]; injection E as <-; apply map_length.
  - unfold lag_transform in E. destruct (lenX X =? 0); [discriminate|]. injection E as <-. apply map_length.
  - unfold ffn_transform in E. destruct st; [|discriminate]. destruct (forallb _ X); [|discriminate]. injection E as <-. apply map_length.
  - unfold rin_transform in E. destruct st; [|discriminate]. destruct adaptive; injection E as <-; apply map_length.
  - destruct st as [w|]; [|discriminate]. exact (mapM_length _ _ _ E).
  - unfold jld_transform in E. destruct st; [|discriminate]. injection E as <-. apply map_length.
  - unfold spe_run in E. match type of E with (let! wave := ?w in _) = _ => destruct w as [wave|e] eqn:Ew; [|discriminate] end. cbn [bind] in E.
    assert (Lw : length wave = length X \/ length wave = 1).
    { destruct step as [key|].
      - left. unfold cache_fresh, compute in Ew. destruct (eqs key (str "L1")); [|destruct (eqs key (str "L2"))]; cbn in Ew; try discriminate;
          injection Ew as <-; unfold L1_sum, L2_sum; now rewrite !map_length.
      - right. injection Ew as <-. reflexivity. }
    destruct (eqs op (str "multiplicative")); [eapply wave_apply_length; eassumption|].
    destruct (eqs op (str "additive")); [eapply wave_apply_length; eassumption|discriminate].
  - unfold rpe_transform in E. destruct (dimX X =? 2); [|discriminate]. injection E as <-. apply map_length.
  - unfold cts_transform in E. exact (mapM_length _ _ _ E).
  - unfold qtc_transform in E. destruct st; [|discriminate]. injection E as <-. apply map_length.
  - exact (Hf _ _ E).
  - unfold dil_transform in E. destruct st; [|discriminate]. injection E as <-. apply map_length.
  - unfold win_run in E. destruct (cache_fresh parse inp COQUANTILE _) as [a|e]; [|discriminate]. cbn [bind] in E.
    destruct (cache_fresh parse inp COQUANTILE _) as [b|e]; [|discriminate]. cbn [bind] in E. destruct a as [cs|]; [|discriminate]. destruct b as [ce|]; [|discriminate].
    destruct (Nat.leb_spec (length X) (Nat.min (length cs) (length ce))) as [L|L]; [|discriminate]. unfold win_apply in E. apply map2M_length in E. rewrite E, combine_length. lia.
  - unfold dot_transform in E. destruct st as [[n0 first0]|]; [|discriminate]. exact (mapM_length _ _ _ E).
  - unfold pdd_transform in E. destruct st; [|discriminate]. injection E as <-. apply map_length.
Qed.
Lemma dim_transform_length d f (X Z : dataset T) : dim_transform d f X = Ok Z -> length Z = length X.
Proof.
  unfold dim_transform. destruct (mapM (py_index (dimX X)) d) as [dims|e]; [|discriminate]. cbn. destruct (f _) as [Y|e]; [|discriminate]. cbn.
  destruct (same_len X Y) eqn:El; [|discriminate]. intros E. injection E as <-. unfold same_len in El. apply andb_prop in El as (El & _). apply Nat.eqb_eq in El. rewrite map2_len. lia.
Qed.
Lemma new_transform_length f (X Z : dataset T) : new_transform f X = Ok Z -> length Z = length X.
Proof.
  unfold new_transform. destruct f as [f|]; [|intros E; injection E as <-; apply map_length]. destruct (f X) as [Y|e]; [|discriminate]. cbn.
  destruct (_ && _); [|discriminate]. intros E. injection E as <-. rewrite map2_len. destruct (Nat.eqb_spec (length X) (length Y)); [lia|]. rewrite repeat_length. lia.
Qed.
Lemma pr_transform_rows p inp (X Z : dataset T) : keeps_rows p ->
  (match p with PLeaf (LSPE _ _ _ (Some _) _) _ => length inp = length X | _ => True end) ->
  fst (pr_transform parse powf (pr_set_cache p (Some inp)) X) = Ok Z -> length Z = length X.
Proof.
  intros Hk Li. destruct p as [f ca|q d ca|ca|q ca]; cbn [pr_set_cache pr_transform pr_cache].
  - destruct (leaf_transform parse powf inp f X) as [Y|e] eqn:E; cbn; [|discriminate]. intros E2. injection E2 as <-. apply (leaf_rows inp f X Y); [exact Li|exact Hk|exact E].
  - destruct (mapM (py_index (dimX X)) d) as [dims|e]; [|discriminate]. destruct (pr_transform parse powf q _) as [r q'].
    destruct (dim_transform d (fun _ => r) X) as [Y|e] eqn:E; cbn; [|discriminate]. intros E2. injection E2 as <-. now apply dim_transform_length in E.
  - destruct (new_transform None X) as [Y|e] eqn:E; cbn; [|discriminate]. intros E2. injection E2 as <-. now apply new_transform_length in E.
  - destruct (pr_transform parse powf q X) as [r q']. destruct (new_transform (Some (fun _ => r)) X) as [Y|e] eqn:E; cbn; [|discriminate]. intros E2. injection E2 as <-. now apply new_transform_length in E.
Qed.

(** ** ISS *)
(** Custom weightings are only covered for lookups with a row per series. *)
Definition covers_rows (i : issO T) : Prop :=
  match i with
  | IPlain c _ => match io_wt c with Some (WCustom f, _) => forall X l, f X = Ok l -> length X <= length l | _ => True end
  | ICos _ _ _ => True
  end.
Lemma wt_lookup_length inp k (X : dataset T) l : length X <= length inp ->
  (match k with WCustom f => forall X l, f X = Ok l -> length X <= length l | _ => True end) ->
  wt_lookup eps5 inp k X = Ok l -> length X <= length l.
Proof.
  intros Li Hc E. destruct k as [rel tr sc|two prep rel tr sc|n r sc|f]; cbn [wt_lookup] in E.
  - unfold indices_lookup in E. destruct (nrm_scale sc _) as [row|e]; [|discriminate]. cbn in E. injection E as <-. now rewrite map_length.
  - unfold lp_lookup in E. apply mapM_length in E. rewrite E. destruct two, prep; unfold L1_sum, L2_sum; rewrite map_length; lia.
  - unfold plateaus_lookup in E. destruct (nrm_scale sc _) as [row|e]; [|discriminate]. cbn in E. injection E as <-. now rewrite map_length.
  - exact (Hc _ _ E).
Qed.
Lemma assign_rows_shape m n (A B : list (list (list T))) : (forall r, In r A -> length r = n) -> assign_rows m A = Ok B ->
  length B = m /\ forall r, In r B -> length r = n.
Proof.
  intros HA. unfold assign_rows. destruct (Nat.eqb_spec (length A) m) as [L|L].
  - intros E. injection E as <-. auto.
  - destruct A as [|r [|r' A]]; try discriminate. intros E. injection E as <-. rewrite repeat_length. split; [reflexivity|].
    intros r0 Hr. apply repeat_spec in Hr as ->. apply HA. now left.
Qed.
Lemma swap01_rows ext n (A : list (list (list T))) : length A = n -> forall r, In r (swap01 ext A) -> length r = n.
Proof. intros L r Hr. apply in_map_iff in Hr as (k & <- & _). now rewrite map_length. Qed.
Lemma iterated_sums_length sr (X : dataset T) w ext wt : (match w, wt with WSimple _ _, Some g => length X <= length (wg_lookup g X) | _, _ => True end) ->
  length (iterated_sums sr X w ext wt) = length X.
Proof.
  intros L. destruct w as [e a|e]; cbn [iterated_sums]; [|apply map_length]. rewrite map2_len. destruct wt as [g|]; [lia|]. rewrite map_length. lia.
Qed.
Lemma plain_gen_shape inp c (X : dataset T) : length X <= length inp -> covers_rows (IPlain c None) ->
  forall ws i bs, plain_gen eps5 inp c X i ws = map Ok bs ->
  length (concat bs) = list_sum (map (fun k => word_rows (io_sr c) (is_plan_opt (io_cfg eps5 inp c)) (i + k) (iw_val (nth k ws {| iw_str := []; iw_val := WGeneral [] |}))) (seq 0 (length ws))) /\
  forall Y, In Y (concat bs) -> length Y = length X.
Proof.
  intros Li Hc. induction ws as [|w ws IH]; intros i bs E.
  - destruct bs; [|discriminate]. split; [reflexivity|intros Y []].
  - cbn [plain_gen] in E. set (cfg := io_cfg eps5 inp c) in *.
    match type of E with (match ?r with _ => _ end) = _ => destruct r as [b|e] eqn:Er end; [|destruct bs; discriminate].
    destruct bs as [|b0 bs]; [discriminate|]. cbn [map] in E. injection E as <- E. destruct (IH (S i) bs E) as (H1 & H2). clear IH E.
    assert (Hb : length b = word_rows (io_sr c) (is_plan_opt cfg) i (iw_val w) /\ forall Y, In Y b -> length Y = length X).
    { destruct (match is_plan_opt cfg with None => is_argmax (io_sr c) | Some _ => false end); [discriminate|].
      match type of Er with (let! _ := ?q in _) = _ => destruct q as [lk|e] eqn:El; [|discriminate] end. cbn [bind batch_rows] in Er.
      match type of Er with (let! block := assign_rows ?m ?A in _) = _ => destruct (assign_rows m A) as [block|e] eqn:Ea; [|discriminate] end. cbn [bind] in Er. injection Er as <-.
      rewrite app_nil_r. eapply assign_rows_shape; [|exact Ea]. apply swap01_rows, iterated_sums_length.
      destruct (iw_val w) as [e a|e] eqn:Ew; [|exact I]. unfold cfg, io_cfg. cbn [is_wt]. destruct (io_wt c) as [[k tot]|] eqn:Et; cbn [option_map]; [|exact I].
      cbn [wg_lookup fst]. unfold is_simple in El. rewrite Ew in El. rewrite El. apply (wt_lookup_length inp k X lk Li); [|exact El].
      unfold covers_rows in Hc. rewrite Et in Hc. destruct k; exact Hc || exact I. }
    destruct Hb as (B1 & B2). cbn [concat length seq map]. rewrite app_length, B1, H1. split.
    + change (list_sum (?a :: ?l)) with (a + list_sum l). cbn [nth]. rewrite Nat.add_0_r. f_equal. rewrite <- seq_shift, map_map. f_equal. apply map_ext. intros k. cbn [nth]. now rewrite Nat.add_succ_r.
    + intros Y HY. apply in_app_iff in HY as [HY|HY]; auto.
Qed.
Lemma list_sum_nth l : list_sum (map (fun k => nth k l 0) (seq 0 (length l))) = list_sum l.
Proof. induction l as [|x l IH]; [reflexivity|]. cbn [length seq map]. rewrite <- seq_shift, map_map. change (x + list_sum (map (fun k => nth k l 0) (seq 0 (length l))) = x + list_sum l). now rewrite IH. Qed.
Lemma iss_shape inp (i : issO T) (X : dataset T) bs n : length X <= length inp -> covers_rows i ->
  iss_batches eps5 (iss_set_cache (Some inp) i) X = map Ok bs -> iss_n eps5 i = Ok n ->
  length (concat bs) = n /\ forall Y, In Y (concat bs) -> length Y = length X.
Proof.
  intros Li Hc E En. destruct i as [c ca|c st ca]; cbn [iss_set_cache iss_batches] in E.
  - assert (Hc' : covers_rows (IPlain c None)) by exact Hc.
    assert (E' : plain_gen eps5 inp c X 0 (io_words c) = map Ok bs) by (destruct (io_words c); [destruct bs; discriminate|exact E]).
    destruct (plain_gen_shape inp c X Li Hc' _ 0 bs E') as (H1 & H2). split; [|exact H2]. rewrite H1. clear H1 H2 E E'.
    cbn [iss_n] in En. unfold n_iterated_sums in En. unfold is_plan_opt, io_cfg in *. cbn [is_mode is_sr is_words] in *.
    destruct (io_mode c).
    + destruct (is_argmax (io_sr c)) eqn:Ea; [discriminate|]. injection En as <-. unfold word_rows. rewrite Ea. cbn [word_ext].
      generalize 0 at 2. induction (length (io_words c)) as [|m IH]; intros a; [reflexivity|]. cbn [seq map]. change (1 + list_sum (map (fun _ : nat => 1) (seq (S a) m)) = S m). now rewrite IH.
    + destruct (is_argmax (io_sr c)) eqn:Ea; injection En as <-; unfold word_rows; rewrite Ea.
      * f_equal. generalize (io_words c) as ws. induction ws as [|w ws IH]; [reflexivity|]. cbn [length seq map nth]. f_equal. rewrite <- seq_shift, map_map. exact IH.
      * unfold plan_total, is_plan. cbn [is_mode is_words word_ext]. unfold unique_el_depth. cbn [Nat.add].
        assert (Lp : length (create_plan (map iw_str (io_words c))) = length (io_words c)) by (unfold create_plan; now rewrite map_length, seq_length, map_length).
        rewrite <- Lp. apply list_sum_nth.
  - unfold cos_batches in E. cbn [iss_n] in En. injection En as <-. unfold cos_n. revert E.
    enough (H : forall ws k bs, cos_gen c st X 1 k ws [] = map Ok bs -> length (concat bs) = length (cw_freqs c) * length ws /\ forall Y, In Y (concat bs) -> length Y = length X) by exact (H (cw_words c) 0 bs).
    clear bs. induction ws as [|w ws IH]; intros k bs E; cbn [cos_gen] in E.
    + destruct bs; [|discriminate]. split; [cbn; lia|intros Y []].
    + destruct (cos_word c st X k w) as [rows|e] eqn:Ew; [|destruct bs; discriminate]. cbn [app length Nat.eqb concat] in E. destruct bs as [|b bs]; [discriminate|].
      cbn [map] in E. injection E as <- E. destruct (IH (S k) bs E) as (H1 & H2). cbn [concat]. rewrite app_length, H1.
      assert (Hr : length rows = length (cw_freqs c) /\ forall Y, In Y rows -> length Y = length X).
      { unfold cos_word in Ew. destruct (cw_ffn c); [destruct (cs_ffn st); [|discriminate]|destruct (cw_drop c); [destruct (cs_drop st); [|discriminate]|]];
          injection Ew as <-; (split; [rewrite map_length, combine_length, seq_length; lia|intros Y HY; apply in_map_iff in HY as (jf & <- & _); apply map_length]). }
      destruct Hr as (R1 & R2). rewrite app_nil_r, R1. split; [cbn [length]; lia|]. intros Y HY. apply in_app_iff in HY as [HY|HY]; auto.
Qed.
End Shapes.
