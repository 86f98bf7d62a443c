(** Lemmas for C83 and C84. *)
From Coq Require Import Ascii String List Arith ZArith Reals Bool Lia Lra.
From Verif Require Import Num Arr M_Str M_Np M_Prep M_Cache M_PrepObj M_Semiring M_Words M_ISS M_Cos M_Seeds M_Dtype S_Dtype L_Np L_Seeds2 L_Prep3.
Import ListNotations.

(** ** What holds of any kind of numbers *)
Section G.
Context {T : Type} `{Num T}.
Variable parse : pystr -> res T.
Variable powf : T -> T -> T.

Lemma map_id_in {A} (f : A -> A) l : (forall x, In x l -> f x = x) -> map f l = l.
Proof. intros E. rewrite <- (map_id l) at 2. apply map_ext_in. exact E. Qed.
Lemma map3_store_float (X : dataset T) : map (map (map (store TFloat))) X = X.
Proof. apply map_id_in. intros x _. apply map_id_in. intros r _. apply map_id_in. reflexivity. Qed.

Lemma cache_dt_cases cd inp t key : cache_dt parse cd inp t key = Err TypeError \/ cache_dt parse cd inp t key = cache_fresh parse inp t key.
Proof.
  unfold cache_dt. destruct cd; cbn [float_only].
  - destruct t.
    + destruct (split_on colon key) as [|c [|n [|? ?]]]; try (now right). destruct (eqs n (str "L1") || eqs n (str "L2")); [now left|now right].
    + destruct (eqs key (str "L1") || eqs key (str "L2")); [now left|now right].
  - right. destruct t.
    + destruct (split_on colon key) as [|c [|n [|? ?]]]; try reflexivity. now destruct (eqs n (str "L1") || eqs n (str "L2")).
    + now destruct (eqs key (str "L1") || eqs key (str "L2")).
Qed.
Lemma cache_dt_float inp t key : cache_dt parse TFloat inp t key = cache_fresh parse inp t key.
Proof.
  unfold cache_dt. cbn [float_only]. destruct t.
  - destruct (split_on colon key) as [|c [|n [|? ?]]]; try reflexivity. now destruct (eqs n (str "L1") || eqs n (str "L2")).
  - now destruct (eqs key (str "L1") || eqs key (str "L2")).
Qed.

(** The result without dtypes, with the dtype it has. *)
Definition typed (d : dtype) (r : res (dataset T)) : res (dtype * dataset T) := let! Y := r in Ok (d, Y).

Lemma leaf_dt_cases cd inp dt f X : (dt = TInt -> forall s, f <> LNRM s) ->
  leaf_dt parse powf cd inp dt f X = Err TypeError \/
  leaf_dt parse powf cd inp dt f X = typed (if keeps_dtype f then dt else TFloat) (leaf_transform parse powf inp f X).
Proof.
  intros N. destruct f; cbn [leaf_dt leaf_transform keeps_dtype]; try (right; reflexivity).
  - destruct (inc_depth c); [right; reflexivity|]. destruct dt; [left; reflexivity|right; reflexivity].
  - destruct dt; [exfalso; now apply (N eq_refl scale_dim)|]. right. unfold typed. destruct (nrm_transform scale_dim X) as [Y|e]; [|reflexivity].
    cbn [bind]. now rewrite map3_store_float.
  - destruct st as [v|]; [|right; reflexivity].
    destruct dt; cbn [float_only bind].
    + destruct w as [z|g]; [|left; reflexivity]. destruct z as [|z|z]; [left; reflexivity|left; reflexivity|].
      destruct z; try (left; reflexivity). right; reflexivity.
    + right. destruct w as [z|g]; [|reflexivity]. destruct z as [|z|z]; [reflexivity|reflexivity|]. destruct z; reflexivity.
  - destruct st; [|right; reflexivity]. destruct dt; [left; reflexivity|right; reflexivity].
  - destruct st; [|right; reflexivity]. destruct dt; [left; reflexivity|right; reflexivity].
  - destruct step as [key|]; [|right; reflexivity].
    destruct (cache_dt_cases cd inp CISS key) as [E|E]; rewrite E; [left; reflexivity|].
    right. unfold typed, as_float, spe_run. destruct (cache_fresh parse inp CISS key) as [v|e]; reflexivity.
  - unfold rpe_transform. destruct (dimX X =? 2); [|right; reflexivity]. destruct dt; [left; reflexivity|right; reflexivity].
  - destruct (cache_dt_cases cd inp COQUANTILE (start ++ str ":L2")) as [E|E]; rewrite E; [left; reflexivity|].
    unfold win_run. destruct (cache_fresh parse inp COQUANTILE (start ++ str ":L2")) as [a|e]; [|right; reflexivity]. cbn [bind].
    destruct (cache_dt_cases cd inp COQUANTILE (stop ++ str ":L2")) as [E2|E2]; rewrite E2; [left; reflexivity|].
    destruct (cache_fresh parse inp COQUANTILE (stop ++ str ":L2")) as [b|e]; [|right; reflexivity]. right. reflexivity.
Qed.
Lemma leaf_dt_float inp f X : leaf_dt parse powf TFloat inp TFloat f X = typed TFloat (leaf_transform parse powf inp f X).
Proof.
  destruct f; cbn [leaf_dt leaf_transform]; try reflexivity.
  - destruct (inc_depth c); reflexivity.
  - unfold typed. destruct (nrm_transform scale_dim X) as [Y|e]; [|reflexivity]. cbn [bind]. now rewrite map3_store_float.
  - destruct st as [v|]; [|reflexivity]. destruct w as [z|g]; [|reflexivity]. destruct z as [|z|z]; [reflexivity|reflexivity|]. destruct z; reflexivity.
  - destruct st; reflexivity.
  - destruct st; reflexivity.
  - destruct step as [key|]; [|reflexivity]. rewrite cache_dt_float.
    unfold typed, as_float, spe_run. destruct (cache_fresh parse inp CISS key) as [v|e]; reflexivity.
  - unfold rpe_transform. destruct (dimX X =? 2); reflexivity.
  - rewrite !cache_dt_float. unfold win_run. destruct (cache_fresh parse inp COQUANTILE (start ++ str ":L2")) as [a|e]; [|reflexivity]. cbn [bind].
    destruct (cache_fresh parse inp COQUANTILE (stop ++ str ":L2")) as [b|e]; reflexivity.
Qed.

Lemma fst_leaf f ca X : fst (pr_transform parse powf (PLeaf f ca) X) = leaf_transform parse powf (match ca with Some i => i | None => X end) f X.
Proof. cbn [pr_transform pr_cache]. now destruct (leaf_transform parse powf (match ca with Some i => i | None => X end) f X). Qed.
Lemma fst_dim q d ca X : fst (pr_transform parse powf (PDim q d ca) X)
  = (let! dims := M_Np.mapM (py_index (dimX X)) d in dim_transform d (fun _ => fst (pr_transform parse powf q (map (select_dims dims) X))) X).
Proof.
  cbn [pr_transform pr_cache]. destruct (M_Np.mapM (py_index (dimX X)) d) as [dims|e] eqn:E; [|reflexivity]. cbn [bind].
  destruct (pr_transform parse powf q (map (select_dims dims) X)) as [r q']. cbn [fst]. now destruct (dim_transform d (fun _ => r) X).
Qed.
Lemma fst_new0 ca X : fst (pr_transform parse powf (PNew0 ca) X) = new_transform None X.
Proof. reflexivity. Qed.
Lemma fst_new q ca X : fst (pr_transform parse powf (PNew q ca) X) = new_transform (Some (fun _ => fst (pr_transform parse powf q X))) X.
Proof.
  cbn [pr_transform pr_cache]. destruct (pr_transform parse powf q X) as [r q']. cbn [fst]. now destruct (new_transform (Some (fun _ => r)) X).
Qed.

Lemma pr_dt_float p : forall X, pr_dt parse powf TFloat p TFloat X = typed TFloat (fst (pr_transform parse powf p X)).
Proof.
  induction p as [f ca|q IH d ca|ca|q IH ca]; intros X.
  - rewrite fst_leaf. cbn [pr_dt]. destruct ca; apply leaf_dt_float.
  - rewrite fst_dim. cbn [pr_dt]. destruct (M_Np.mapM (py_index (dimX X)) d) as [dims|e] eqn:E; [|reflexivity]. cbn [bind].
    rewrite IH. unfold typed. unfold dim_transform. rewrite E. cbn [bind].
    destruct (fst (pr_transform parse powf q (map (select_dims dims) X))) as [Y|e]; [|reflexivity]. cbn [bind].
    unfold as_is, promote. reflexivity.
  - rewrite fst_new0. reflexivity.
  - rewrite fst_new. cbn [pr_dt]. rewrite IH. unfold typed. destruct (fst (pr_transform parse powf q X)) as [Y|e]; [|reflexivity]. cbn [bind].
    now rewrite map3_store_float.
Qed.
Lemma chain_dt_float ps : forall X, chain_dt parse powf TFloat ps TFloat X = typed TFloat (chain parse powf ps X).
Proof.
  induction ps as [|p r IH]; intros X; [reflexivity|]. cbn [chain_dt chain]. rewrite pr_dt_float. unfold typed.
  destruct (fst (pr_transform parse powf p X)) as [Y|e]; [|reflexivity]. cbn [bind]. apply IH.
Qed.

(** Iterated sums. *)
Variable eps5 : T.
Lemma lookup_dt_cases cd dt inp k X : lookup_dt eps5 cd dt inp k X = Err TypeError \/ lookup_dt eps5 cd dt inp k X = wt_lookup eps5 inp k X.
Proof.
  unfold lookup_dt. destruct k; try (now right). destruct (if on_prepared then dt else cd); [now left|now right].
Qed.
Lemma lookup_dt_float inp k X : lookup_dt eps5 TFloat TFloat inp k X = wt_lookup eps5 inp k X.
Proof. unfold lookup_dt. destruct k; try reflexivity. now destruct on_prepared. Qed.
(** [b] is [a] cut at a TypeError, or [a]. *)
Inductive cut_at_type {A} : list (res A) -> list (res A) -> Prop :=
| ct_all l : cut_at_type l l
| ct_here l : l <> [] -> cut_at_type l [Err TypeError]
| ct_later x l m : cut_at_type l m -> cut_at_type (x :: l) (x :: m).
Lemma plain_dt_cases cd dt inp c X ws : forall i, cut_at_type (plain_gen eps5 inp c X i ws) (plain_dt eps5 cd dt inp c X i ws).
Proof.
  induction ws as [|w r IH]; intros i; [constructor|].
  cbn [plain_gen plain_dt].
  destruct (match is_plan_opt (io_cfg eps5 inp c) with Some _ => false | None => is_argmax (io_sr c) end); [constructor|].
  set (B := batch_rows (io_sr c) X (is_wt (io_cfg eps5 inp c)) (is_plan_opt (io_cfg eps5 inp c)) i [iw_val w]).
  assert (K : forall lk, cut_at_type
     (match (let! _ := (lk : res (list (series T))) in B) with Err e => [Err e] | Ok b => Ok b :: plain_gen eps5 inp c X (S i) r end)
     (match (let! _ := lk in let! _ := (if is_simple w then float_only dt else Ok tt) in B) with Err e => [Err e] | Ok b => Ok b :: plain_dt eps5 cd dt inp c X (S i) r end)).
  { intros [l|e]; cbn [bind]; [|constructor].
    destruct (if is_simple w then float_only dt else Ok tt) as [[]|e] eqn:E; cbn [bind].
    - destruct B; [|constructor]. apply ct_later. apply IH.
    - assert (e = TypeError) as -> by (destruct (is_simple w); [|discriminate]; destruct dt; cbn in E; congruence).
      apply ct_here. destruct B; discriminate. }
  destruct (io_wt c) as [[k t]|]; [|apply (K (Ok []))].
  destruct (is_simple w) eqn:S1; [|apply (K (Ok []))].
  destruct (lookup_dt_cases cd dt inp k X) as [E|E]; rewrite E; [|apply (K (wt_lookup eps5 inp k X))].
  cbn [bind]. apply ct_here. destruct (wt_lookup eps5 inp k X); cbn [bind]; [destruct B; discriminate|discriminate].
Qed.
Lemma plain_dt_float inp c X ws : forall i, plain_dt eps5 TFloat TFloat inp c X i ws = plain_gen eps5 inp c X i ws.
Proof.
  induction ws as [|w r IH]; intros i; [reflexivity|]. cbn [plain_gen plain_dt].
  destruct (match is_plan_opt (io_cfg eps5 inp c) with Some _ => false | None => is_argmax (io_sr c) end); [reflexivity|].
  assert (E : (match io_wt c with Some (k, _) => if is_simple w then lookup_dt eps5 TFloat TFloat inp k X else Ok [] | None => Ok [] end)
            = (match io_wt c with Some (k, _) => if is_simple w then wt_lookup eps5 inp k X else Ok [] | None => Ok [] end)).
  { destruct (io_wt c) as [[k t]|]; [|reflexivity]. destruct (is_simple w); [|reflexivity]. apply lookup_dt_float. }
  rewrite E. cbn [float_only].
  assert (E2 : (if is_simple w then Ok tt else Ok tt) = (Ok tt : res unit)) by now destruct (is_simple w).
  destruct (match io_wt c with Some (k, _) => if is_simple w then wt_lookup eps5 inp k X else Ok [] | None => Ok [] end) as [lk|e]; [|reflexivity].
  cbn [bind]. rewrite E2. cbn [bind].
  destruct (batch_rows (io_sr c) X (is_wt (io_cfg eps5 inp c)) (is_plan_opt (io_cfg eps5 inp c)) i [iw_val w]); [|reflexivity]. f_equal. apply IH.
Qed.
Lemma iss_dt_cases cd dt i X : cut_at_type (iss_batches eps5 i X) (iss_dt eps5 cd dt i X).
Proof.
  destruct i as [c ca|c st ca]; cbn [iss_batches iss_dt].
  - destruct (io_words c); [constructor|]. destruct ca; apply plain_dt_cases.
  - destruct dt; [|constructor]. destruct (cos_batches c st X 1) as [|b l] eqn:E; [constructor|]. now apply ct_here.
Qed.
Lemma iss_dt_float i X : iss_dt eps5 TFloat TFloat i X = iss_batches eps5 i X.
Proof.
  destruct i as [c ca|c st ca]; cbn [iss_batches iss_dt]; [|reflexivity].
  destruct (io_words c); [reflexivity|]. destruct ca; apply plain_dt_float.
Qed.
End G.

(** ** Integers *)
Local Open Scope R_scope.
Section Z.
Variable parse : pystr -> res R.
Variable powf : R -> R -> R.

Definition zrow (r : list R) : Prop := forall v, In v r -> exists z : int, v = IZR z.
Definition zmts (x : list (list R)) : Prop := forall r, In r x -> zrow r.
Lemma integral_zmts X : integral X <-> forall x, In x X -> zmts x.
Proof. unfold integral, zmts, zrow. split; intros Hi; intros; eauto. Qed.
Lemma zrow_app a b : zrow a -> zrow b -> zrow (a ++ b).
Proof. intros Ha Hb v Hv. apply in_app_iff in Hv as [Hv|Hv]; auto. Qed.
Lemma zrow_firstn n a : zrow a -> zrow (firstn n a).
Proof. intros Ha v Hv. apply Ha. rewrite <- (firstn_skipn n a). apply in_app_iff. now left. Qed.
Lemma zrow_skipn n a : zrow a -> zrow (skipn n a).
Proof. intros Ha v Hv. apply Ha. rewrite <- (firstn_skipn n a). apply in_app_iff. now right. Qed.
Lemma zrow_repeat z n : zrow (repeat (IZR z) n).
Proof. intros v Hv. apply repeat_spec in Hv. eauto. Qed.
Lemma zrow_repeat' (x : R) n : (exists z : int, x = IZR z) -> zrow (repeat x n).
Proof. intros [z ->]. apply zrow_repeat. Qed.
Lemma zrow_zeros n : zrow (zeros n).
Proof. apply (zrow_repeat 0). Qed.
Lemma zrow_slice lo hi a : zrow a -> zrow (py_slice lo hi a).
Proof. intros Ha. unfold py_slice. now apply zrow_firstn, zrow_skipn. Qed.
Lemma zrow_set lo hi v a b : zrow v -> zrow a -> py_set_slice lo hi v a = Ok b -> zrow b.
Proof.
  intros Hv Ha. unfold py_set_slice. destruct (length v =? _)%nat.
  - intros [= <-]. apply zrow_app; [now apply zrow_firstn|]. apply zrow_app; [assumption|now apply zrow_skipn].
  - destruct v as [|x [|y v]]; try discriminate. intros [= <-]. apply zrow_app; [now apply zrow_firstn|].
    apply zrow_app; [|now apply zrow_skipn]. apply zrow_repeat'. apply Hv. now left.
Qed.
Lemma zrow_fill lo hi a : zrow a -> zrow (py_fill_slice lo hi 0 a).
Proof.
  intros Ha. unfold py_fill_slice. apply zrow_app; [now apply zrow_firstn|]. apply zrow_app; [|now apply zrow_skipn]. apply (zrow_repeat 0).
Qed.
Lemma cts_row_z p s a b : zrow a -> cts_row p s a = Ok b -> zrow b.
Proof.
  intros Ha. unfold cts_row. destruct p; [intros [= <-]; now apply zrow_fill|].
  destruct (py_set_slice None _ _ a) as [y|e] eqn:E; [|discriminate]. cbn [bind]. intros E2.
  assert (Hy : zrow y) by (eapply zrow_set; [| |exact E]; [now apply zrow_slice|assumption]).
  eapply zrow_set; [| |exact E2]; [now apply zrow_slice|assumption].
Qed.
Lemma dil_row_z s a : zrow a -> zrow (dil_row s a).
Proof. unfold dil_row. revert a. induction (combine (dil_indices s) (dil_lengths s)) as [|p l IH]; intros a Ha; [assumption|]. cbn [fold_left]. apply IH. now apply zrow_fill. Qed.
Lemma pdd_row_z s a : zrow a -> zrow (pdd_row s a).
Proof. unfold pdd_row. revert a. induction (pdd_indices s) as [|p l IH]; intros a Ha; [assumption|]. cbn [fold_left]. apply IH. now apply zrow_fill. Qed.
Lemma map2M_In {A B C} (f : A -> B -> res C) l1 : forall l2 r c, map2M f l1 l2 = Ok r -> In c r -> exists a b, In a l1 /\ In b l2 /\ f a b = Ok c.
Proof.
  induction l1 as [|a l1 IH]; intros [|b l2] r c; try (intros [= <-] []). cbn [map2M].
  destruct (f a b) as [z|e] eqn:E; [|discriminate]. cbn [bind]. destruct (map2M f l1 l2) as [zs|e] eqn:E2; [|discriminate]. cbn [bind].
  intros [= <-] [->|Hc]; [exists a, b; repeat split; auto; now left|]. destruct (IH _ _ _ E2 Hc) as (a' & b' & H1 & H2 & H3).
  exists a', b'. repeat split; auto; now right.
Qed.
Lemma leaf_keeps_z inp f X Y : keeps_dtype f = true -> (forall s, f <> LNRM s) ->
  integral X -> leaf_transform parse powf inp f X = Ok Y -> integral Y.
Proof.
  rewrite !integral_zmts. intros K N HX. destruct f; try discriminate K; cbn [leaf_transform].
  - cbn [keeps_dtype] in K. apply Nat.eqb_eq in K. unfold inc_transform. rewrite K. cbn [inc_loop]. now intros [= <-].
  - exfalso. now apply (N scale_dim).
  - unfold cts_transform. intros E y Hy. destruct (mapM_In _ _ _ _ E Hy) as (x & Hx & Ex). intros r Hr.
    destruct (mapM_In _ _ _ _ Ex Hr) as (r0 & Hr0 & Er). eapply cts_row_z; [|exact Er]. now apply (HX x).
  - destruct st as [st|]; [|discriminate]. intros [= <-] y Hy. apply in_map_iff in Hy as (x & <- & Hx). intros r Hr.
    apply in_map_iff in Hr as (r0 & <- & Hr0). apply dil_row_z. now apply (HX x).
  - unfold win_run. destruct (cache_fresh parse inp COQUANTILE (start ++ str ":L2")) as [a|e]; [|discriminate]. cbn [bind].
    destruct (cache_fresh parse inp COQUANTILE (stop ++ str ":L2")) as [b|e]; [|discriminate]. cbn [bind].
    destruct a as [cs|]; [|discriminate]. destruct b as [ce|]; [|discriminate]. destruct (_ <=? _)%nat; [|discriminate].
    unfold win_apply. intros E y Hy. destruct (map2M_In _ _ _ _ _ E Hy) as (p & x & _ & Hx & Ex). intros r Hr.
    destruct (mapM_In _ _ _ _ Ex Hr) as (r0 & Hr0 & Er). unfold win_row in Er. eapply zrow_set; [| |exact Er]; [|apply zrow_zeros].
    apply zrow_slice. now apply (HX x).
  - destruct st as [st|]; [|discriminate]. intros [= <-] y Hy. apply in_map_iff in Hy as (x & <- & Hx). intros r Hr.
    apply in_map_iff in Hr as (r0 & <- & Hr0). apply pdd_row_z. now apply (HX x).
Qed.
Lemma store_int_z X : integral X -> map (map (map (store TInt))) X = X.
Proof.
  intros HX. apply map_id_in. intros x Hx. apply map_id_in. intros r Hr. apply map_id_in. intros v Hv.
  destruct (HX x r v Hx Hr Hv) as [z ->]. cbn [store]. apply Rtrunc_IZR.
Qed.
Lemma select_z dims X : integral X -> integral (map (select_dims dims) X).
Proof.
  rewrite !integral_zmts. intros HX y Hy. apply in_map_iff in Hy as (x & <- & Hx). intros r Hr. apply in_map_iff in Hr as (j & <- & _).
  destruct (nth_in_or_default j x []) as [Hj| ->]; [now apply (HX x)|intros v []].
Qed.
Lemma delete_z dims x : zmts x -> zmts (delete_dims dims x).
Proof.
  intros Hx r Hr. apply in_map_iff in Hr as (j & <- & _). destruct (nth_in_or_default j x []) as [Hj| ->]; [now apply Hx|intros v []].
Qed.
Lemma map2_In {A B C} (f : A -> B -> C) l1 : forall l2 c, In c (map2 f l1 l2) -> exists a b, In a l1 /\ In b l2 /\ c = f a b.
Proof.
  induction l1 as [|a l1 IH]; intros [|b l2] c; try (intros []; fail). intros [<-|Hc]; [exists a, b; repeat split; now left|].
  destruct (IH _ _ Hc) as (a' & b' & H1 & H2 & H3). exists a', b'. repeat split; auto; now right.
Qed.
Lemma zmts_app a b : zmts a -> zmts b -> zmts (a ++ b).
Proof. intros Ha Hb r Hr. apply in_app_iff in Hr as [Hr|Hr]; auto. Qed.
Lemma dim_z d Y X Z : integral X -> integral Y -> dim_transform d (fun _ => Ok Y) X = Ok Z -> integral Z.
Proof.
  rewrite !integral_zmts. intros HX HY. unfold dim_transform. destruct (M_Np.mapM (py_index (dimX X)) d) as [dims|e]; [|discriminate]. cbn [bind].
  destruct (same_len X Y); [|discriminate]. intros [= <-] z Hz. apply map2_In in Hz as (x & y & Hx & Hy & ->).
  apply zmts_app; [now apply delete_z, HX|now apply HY].
Qed.
Lemma stretch_z n r : zrow r -> zrow (stretch n r).
Proof. intros Hr. destruct r as [|v [|w r]]; try assumption. cbn [stretch]. apply zrow_repeat'. apply Hr. now left. Qed.
Lemma new_z Y X Z : integral X -> integral Y -> new_transform (Some (fun _ => Ok Y)) X = Ok Z -> integral Z.
Proof.
  rewrite !integral_zmts. intros HX HY. unfold new_transform. cbn [bind]. destruct (_ && _)%bool; [|discriminate].
  intros [= <-] z Hz. apply map2_In in Hz as (x & y & Hx & Hy & ->). apply zmts_app; [now apply HX|].
  intros r Hr. apply in_map_iff in Hr as (r0 & <- & Hr0). apply stretch_z.
  assert (Hy' : zmts y).
  { destruct (length X =? length Y)%nat; [now apply HY|]. apply repeat_spec in Hy. subst y. destruct Y as [|y0 Y]; [intros r1 []|]. apply HY. now left. }
  now apply Hy'.
Qed.
Lemma new0_z X Z : integral X -> new_transform None X = Ok Z -> integral Z.
Proof.
  rewrite !integral_zmts. intros HX [= <-] z Hz. apply in_map_iff in Hz as (x & <- & Hx). apply zmts_app; now apply HX.
Qed.

Lemma pr_dt_cases cd p : forall dt X, lossless p dt = true -> array_of dt X ->
  (pr_dt parse powf cd p dt X = Err TypeError \/
   pr_dt parse powf cd p dt X = typed (out_dtype p dt) (fst (pr_transform parse powf p X))) /\
  (forall Y, fst (pr_transform parse powf p X) = Ok Y -> array_of (out_dtype p dt) Y).
Proof.
  induction p as [f ca|q IH d ca|ca|q IH ca]; intros dt X HL HX.
  - rewrite fst_leaf. cbn [pr_dt out_dtype].
    assert (N : dt = TInt -> forall s, f <> LNRM s).
    { intros -> s ->. cbn in HL. discriminate. }
    split.
    + destruct ca; now apply leaf_dt_cases.
    + intros Y EY E. destruct (keeps_dtype f) eqn:K; [|discriminate]. subst dt. eapply leaf_keeps_z; [exact K|now apply N|now apply HX|exact EY].
  - rewrite fst_dim. cbn [pr_dt out_dtype]. destruct (M_Np.mapM (py_index (dimX X)) d) as [dims|e] eqn:E.
    2:{ split; [right; reflexivity|discriminate]. }
    cbn [bind].
    assert (HLq : lossless q dt = true) by (destruct dt; [exact HL|destruct q; reflexivity]).
    assert (HS : array_of dt (map (select_dims dims) X)) by (intros Ed; apply select_z; now apply HX).
    destruct (IH dt _ HLq HS) as [C1 C2]. split.
    + destruct C1 as [C1|C1]; rewrite C1; [left; reflexivity|]. right. unfold typed.
      destruct (fst (pr_transform parse powf q (map (select_dims dims) X))) as [Y|e].
      2:{ unfold dim_transform. rewrite E. reflexivity. }
      cbn [bind]. unfold as_is, promote. destruct dt; [destruct (out_dtype q TInt)|]; reflexivity.
    + intros Z EZ Ed. destruct dt; [|discriminate]. destruct (out_dtype q TInt); [|discriminate].
      destruct (fst (pr_transform parse powf q (map (select_dims dims) X))) as [Y|e] eqn:EY.
      2:{ unfold dim_transform in EZ. rewrite E in EZ. discriminate. }
      eapply dim_z; [now apply HX|now apply (C2 Y eq_refl)|exact EZ].
  - rewrite fst_new0. split; [right; reflexivity|]. intros Y EY Ed. cbn [out_dtype] in Ed. eapply new0_z; [now apply HX|exact EY].
  - rewrite fst_new. cbn [pr_dt out_dtype].
    assert (HLq : lossless q dt = true) by (destruct dt; [cbn [lossless] in HL; now apply andb_prop in HL as [HL _]|destruct q; reflexivity]).
    assert (Ho : dt = TInt -> out_dtype q TInt = TInt).
    { intros ->. cbn [lossless] in HL. apply andb_prop in HL as [_ HL]. destruct (out_dtype q TInt); [reflexivity|discriminate]. }
    destruct (IH dt _ HLq HX) as [C1 C2]. split.
    + destruct C1 as [C1|C1]; rewrite C1; [left; reflexivity|]. right. unfold typed.
      destruct (fst (pr_transform parse powf q X)) as [Y|e]; [|reflexivity]. cbn [bind].
      assert (ES : map (map (map (store dt))) Y = Y).
      { destruct dt; [|apply map3_store_float]. apply store_int_z. apply (C2 Y eq_refl). now apply Ho. }
      now rewrite ES.
    + intros Z EZ Ed. subst dt. destruct (fst (pr_transform parse powf q X)) as [Y|e] eqn:EY.
      2:{ discriminate EZ. }
      eapply new_z; [now apply HX|apply (C2 Y eq_refl); now apply Ho|exact EZ].
Qed.
Lemma chain_dt_cases cd ps : forall dt X, lossless_chain ps dt = true -> array_of dt X ->
  (chain_dt parse powf cd ps dt X = Err TypeError \/
   chain_dt parse powf cd ps dt X = typed (out_chain ps dt) (chain parse powf ps X)) /\
  (forall Y, chain parse powf ps X = Ok Y -> array_of (out_chain ps dt) Y).
Proof.
  induction ps as [|p r IH]; intros dt X HL HX.
  - split; [right; reflexivity|]. now intros Y [= <-].
  - cbn [lossless_chain] in HL. apply andb_prop in HL as [HL1 HL2]. destruct (pr_dt_cases cd p dt X HL1 HX) as [C1 C2].
    cbn [chain_dt chain]. change (out_chain (p :: r) dt) with (out_chain r (out_dtype p dt)).
    destruct (fst (pr_transform parse powf p X)) as [Y|e] eqn:EY.
    + destruct (IH (out_dtype p dt) Y HL2 (C2 Y eq_refl)) as [D1 D2]. cbn [bind]. split; [|exact D2].
      destruct C1 as [C1|C1]; rewrite C1; [left; reflexivity|]. cbn [typed bind]. exact D1.
    + split; [|discriminate]. destruct C1 as [C1|C1]; rewrite C1; [left; reflexivity|right; reflexivity].
Qed.
End Z.
