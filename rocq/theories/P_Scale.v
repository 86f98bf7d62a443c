(** C99: changing the unit of measurement.  If all numbers a sieve is fitted on
    and applied to are multiplied by a positive factor (and the input of the
    cache it reads by any factor but zero), its features are multiplied by a
    power of the factor that depends on the class of the sieve only. *)
From Coq Require Import Ascii String List Arith ZArith Bool Lia Reals Lra.
From Verif Require Import Num Arr L_Arr S_ISS S_Shuffle M_Str M_Semiring M_Words M_ISS L_Homog L_Single L_Algebra P_Algebra M_Np M_Prep M_Cache M_Sieve L_Prep L_Prep2 L_Scale.
Import ListNotations.
Local Open Scope R_scope.

(** The power: 1 for values, 2 for curvatures, 0 for counts, positions and fractions. *)
Definition power_of_kind (q : seg_kind) : nat :=
  match q with KMAX | KMIN | KEND | KMPI _ => 1 | KCUR | KAVG | KSTD => 2 | KNPI _ | KXPI _ | KLPI _ => 0 end.
Fixpoint power (s : sieve R) : nat :=
  match s with SSeg c _ _ => power_of_kind (sg_kind c) | SPpv _ _ _ => 0 | SInc i _ _ _ | SInt i _ => power i end.
(** Fixed thresholds (constant=True) of PPV and CPV, other than 0, are numbers
    in the old unit. *)
Fixpoint no_fixed_threshold (s : sieve R) : Prop :=
  match s with
  | SSeg _ _ _ => True
  | SPpv c _ _ => Forall (fun qc => snd qc = true -> fst qc = 0) (pv_qc c)
  | SInc i _ _ _ | SInt i _ => no_fixed_threshold i
  end.
(** The sieve with the input of its caches changed by [f]. *)
Fixpoint cache_map (f : dataset R -> dataset R) (s : sieve R) : sieve R :=
  match s with
  | SSeg c st ca => SSeg c st (option_map f ca)
  | SPpv c st ca => SPpv c st (option_map f ca)
  | SInc i d sh ca => SInc (cache_map f i) d sh (option_map f ca)
  | SInt i ca => SInt (cache_map f i) (option_map f ca)
  end.
(** [s.fit(A)], [s.transform(B)]. *)
Definition fit_then (parse : pystr -> res R) (qf : R -> list R -> R) (sel : nat -> list nat) (s : sieve R) (A B : mts R) : res (mts R) :=
  match sv_fit qf sel s A with (Err e, _) => Err e | (Ok _, s') => fst (sv_transform parse s' B) end.

Section Scale.
Variable parse : pystr -> res R.
Variables (qf : R -> list R -> R) (sel : nat -> list nat) (k : R) (cf : dataset R -> dataset R).
Hypothesis Hk : 0 < k.
(** The sums of the cache's input are multiplied by some factor or left alone. *)
Hypothesis Hf : forall inp key, get_on parse (cf inp) key = get_on parse inp key.
(** Quantiles are in the unit of the data. *)
Hypothesis qf_unit : forall p v, qf p (map (Rmult k) v) = k * qf p v.

Lemma cell_sc q x a b lo hi : @cell R RNum q (sc k x) a b (xsc k lo) (xsc k hi) = rmap (Rmult (k ^ power_of_kind q)) (cell q x a b lo hi).
Proof.
  unfold cell. rewrite sc_slice, filter_bin, map_bin by exact Hk. set (seg := py_slice _ _ x). set (sel0 := filter _ seg).
  assert (E1 : forall v, k ^ 1 * v = k * v) by (intros; ring).
  assert (Q : vsum (map (fun v => @nmul R RNum v v) (sc k sel0)) = k ^ 2 * vsum (map (fun v => nmul v v) sel0)).
  { rewrite sc_squares, (sc_vsum (k * k)). ring. }
  destruct q; cbn [power_of_kind rmap].
  - destruct (a =? b)%Z; cbn [rmap nzero RNum]; [f_equal; ring|]. rewrite vmax_sc by exact Hk. destruct (vmax sel0); cbn [rmap]; now rewrite ?E1.
  - destruct (a =? b)%Z; cbn [rmap nzero RNum]; [f_equal; ring|]. rewrite vmin_sc by exact Hk. destruct (vmin sel0); cbn [rmap]; now rewrite ?E1.
  - cbn [nzero RNum]. f_equal. ring.
  - now rewrite Q.
  - now rewrite Q.
  - now rewrite Q.
  - rewrite sc_length. f_equal. ring.
  - f_equal. rewrite E1. destruct sel0 as [|v0 r0]; [cbn; ring|]. apply (sc_vmean k (v0 :: r0)).
  - f_equal. ring.
  - f_equal. ring.
Qed.
Lemma pairs_map {A B} (f : A -> B) l : pairs (map f l) = map (fun ab => (f (fst ab), f (snd ab))) (pairs l).
Proof. induction l as [|a [|b l] IH]; cbn; [reflexivity|reflexivity|]. f_equal. exact IH. Qed.
Definition times_rows (n : nat) : mts R -> mts R := map (map (Rmult (k ^ n))).
Lemma backend_sc q edges x cs : @backend_row R RNum q (map (xsc k) edges) (sc k x) cs = rmap (map (Rmult (k ^ power_of_kind q))) (backend_row q edges x cs).
Proof.
  unfold backend_row. rewrite pairs_map. rewrite rmap_bind_out.
  assert (E : forall ab, mapM (fun e => cell q (sc k x) (fst ab) (snd ab) (fst e) (snd e)) (map (fun ab => (xsc k (fst ab), xsc k (snd ab))) (pairs edges)) =
    rmap (map (Rmult (k ^ power_of_kind q))) (mapM (fun e => cell q x (fst ab) (snd ab) (fst e) (snd e)) (pairs edges))).
  { intros ab. rewrite mapM_map, <- mapM_rmap. apply mapM_ext. intros e. apply cell_sc. }
  rewrite (mapM_ext _ _ _ E), mapM_rmap, rmap_bind. apply bind_ext. intros rows. cbn. now rewrite concat_map.
Qed.
Lemma end_sc x cs : @end_row R RNum (sc k x) cs = rmap (map (Rmult (k ^ 1))) (end_row x cs).
Proof.
  unfold end_row. rewrite <- mapM_rmap. apply mapM_ext. intros c. rewrite sc_length. destruct (py_index (length x) (c - 1)); cbn [bind rmap]; [|reflexivity].
  cbn [nzero RNum]. rewrite sc_nth. f_equal. ring.
Qed.
Lemma map2M_sc {C} (f g : list R -> C -> res (list R)) n X cs : (forall x c, g (sc k x) c = rmap (map (Rmult (k ^ n))) (f x c)) ->
  map2M g (scM k X) cs = rmap (times_rows n) (map2M f X cs).
Proof.
  intros E. revert cs. induction X as [|x X IH]; intros [|c cs]; cbn [scM map map2M]; try reflexivity. rewrite E. fold (scM k X). rewrite IH.
  destruct (f x c); cbn; [|reflexivity]. destruct (map2M f X cs); reflexivity.
Qed.
Lemma cuts_ext (get get' : pystr -> res (cval R)) norm n l cut : (forall key, get' key = get key) -> cuts_of get' norm n l cut = cuts_of get norm n l cut.
Proof. intros E. unfold cuts_of. f_equal. apply mapM_ext. intros [z|r]; cbn; [reflexivity|]. now rewrite E. Qed.
Lemma pre_sc q X : pre_transform q (scM k X) = scM k (pre_transform q X).
Proof. unfold pre_transform. destruct (is_inc_kind q); [|reflexivity]. unfold scM. rewrite !map_map. apply map_ext. intros x. apply sc_pre1. Qed.
Lemma input_sc q X : backend_input q (scM k X) = scM k (backend_input q X).
Proof. unfold backend_input, scM. destruct q; try reflexivity; rewrite !map_map; apply map_ext; intros x; now rewrite !sc_inc1. Qed.
Lemma tlen_sc X : tlen (scM k X) = tlen X.
Proof. destruct X as [|x X]; [reflexivity|]. cbn. apply sc_length. Qed.
Lemma concat_sc X : concat (scM k X) = sc k (concat X).
Proof. unfold scM. now rewrite concat_map. Qed.

Lemma seg_sc c get get' st X : (forall key, get' key = get key) ->
  fst (seg_transform c get' (option_map (map (xsc k)) st) (scM k X)) = rmap (times_rows (power_of_kind (sg_kind c))) (fst (seg_transform c get st X)).
Proof.
  intros G. unfold seg_transform. cbv zeta. rewrite pre_sc, tlen_sc. replace (length (scM k (pre_transform (sg_kind c) X))) with (length (pre_transform (sg_kind c) X)) by (symmetry; apply map_length).
  rewrite (cuts_ext get get' _ _ _ _ G).
  set (Y := pre_transform (sg_kind c) X). set (cuts := cuts_of get _ _ _ _).
  assert (EP : (if seg_requires c then Ok (option_map (map (xsc k)) st) else let! e := mapM edge_plain (sg_q c) in Ok (Some e)) =
     rmap (option_map (map (xsc k))) (if seg_requires c then Ok st else let! e := mapM edge_plain (sg_q c) in Ok (Some e))).
  { destruct (seg_requires c); [reflexivity|]. rewrite rmap_bind_out. rewrite (mapM_ext edge_plain (fun q => rmap (xsc k) (edge_plain q))) at 1 by (apply edge_plain_sc).
    rewrite mapM_rmap, rmap_bind. reflexivity. }
  destruct (sg_kind c) eqn:K; try (cbn [fst]; rewrite rmap_bind_out; apply bind_ext; intros cs; apply map2M_sc; intros x c0; exact (end_sc x c0)).
  all: rewrite EP; destruct (if seg_requires c then Ok st else _) as [st'|e]; cbn [rmap fst]; [|reflexivity];
    rewrite rmap_bind_out; apply bind_ext; intros cs; destruct st' as [[|e0 edges]|]; cbn [option_map map]; try reflexivity;
    rewrite input_sc; (apply map2M_sc; intros x c0; exact (backend_sc _ (e0 :: edges) x c0)).
Qed.
Lemma vcount_sc (p p' : R -> bool) x : (forall v, p' (k * v) = p v) -> vcount p' (sc k x) = vcount p x.
Proof. intros E. unfold vcount. induction x as [|a x IH]; cbn [map filter]; [reflexivity|]. rewrite E. destruct (p a); cbn [length]; now rewrite IH. Qed.
Lemma ppv_sc c st X : ppv_transform c (option_map (sc k) st) (scM k X) = ppv_transform c st X.
Proof.
  unfold ppv_transform. destruct st as [q|]; [|reflexivity]. cbn [option_map]. f_equal. unfold scM. rewrite map_map. apply map_ext. intros x.
  set (F := fun x (p : R -> bool) => if pv_components c then components p x else fraction p x).
  change (map (F (sc k x)) (ppv_conditions c (sc k q)) = map (F x) (ppv_conditions c q)).
  assert (EF : forall p p', (forall v, p' (k * v) = p v) -> F (sc k x) p' = F x p).
  { intros p p' E. unfold F. destruct (pv_components c).
    - unfold components. rewrite sc_length. rewrite map_map. rewrite (map_ext _ (fun v => if p v then nunit else nzero)) by (intros v; now rewrite E). reflexivity.
    - unfold fraction. now rewrite (vcount_sc p p' x E), sc_length. }
  unfold ppv_conditions. destruct (pv_segments c).
  - rewrite pairs_map, !map_map. apply map_ext. intros [a b]. apply EF. intros v. cbn [fst snd]. now rewrite leb_sc, ltb_sc by exact Hk.
  - rewrite !map_map. apply map_ext. intros a. apply EF. intros v. now rewrite leb_sc by exact Hk.
Qed.
Lemma wrap_sc d sh X Acc : wrap_inc d sh (scM k X) (scM k Acc) = rmap (scM k) (wrap_inc d sh X Acc).
Proof.
  revert Acc. induction d as [|d IH]; intros Acc; cbn; [reflexivity|]. unfold scM at 1. rewrite mapM_map.
  rewrite (mapM_ext _ (fun x => rmap (sc k) (increments1 sh x))) by (intros; apply sc_increments). rewrite mapM_rmap, rmap_bind, rmap_bind_out. apply bind_ext. intros Y. apply IH.
Qed.
Lemma cumsum_sc X : map cumsum (scM k X) = scM k (map cumsum X).
Proof. unfold scM. rewrite !map_map. apply map_ext. intros x. apply sc_cumsum. Qed.

(** What has been learned, in the new unit. *)
Fixpoint new_unit (s : sieve R) : sieve R :=
  match s with
  | SSeg c st ca => SSeg c (option_map (map (xsc k)) st) (option_map cf ca)
  | SPpv c st ca => SPpv c (option_map (sc k) st) (option_map cf ca)
  | SInc i d sh ca => SInc (new_unit i) d sh (option_map cf ca)
  | SInt i ca => SInt (new_unit i) (option_map cf ca)
  end.
Lemma transform_sc s : forall X, fst (sv_transform parse (new_unit s) (scM k X)) = rmap (times_rows (power s)) (fst (sv_transform parse s X)).
Proof.
  induction s as [c st ca|c st ca|i IH d sh ca|i IH ca]; intros X.
  - cbn [new_unit sv_transform sv_cache power]. set (get := get_on parse (match ca with Some inp => inp | None => map (fun x => [x]) X end)).
    set (get' := get_on parse (match option_map cf ca with Some inp => inp | None => map (fun x => [x]) (scM k X) end)).
    assert (G : forall key, get' key = get key).
    { intros key. unfold get', get. destruct ca as [inp|]; cbn [option_map]; [apply Hf|].
      replace (map (fun x => [x]) (scM k X)) with (scD k (map (fun x => [x]) X)) by (unfold scD, scM; rewrite !map_map; reflexivity). apply get_on_sc. lra. }
    pose proof (seg_sc c get get' st X G) as E. destruct (seg_transform c get st X) as [[r|e] st1], (seg_transform c get' (option_map (map (xsc k)) st) (scM k X)) as [[r'|e'] st1'];
      cbn [fst rmap] in *; congruence.
  - cbn [new_unit sv_transform power]. rewrite ppv_sc. destruct (ppv_transform c st X) as [r|e]; cbn [fst rmap]; [|reflexivity].
    f_equal. unfold times_rows. cbn [pow]. rewrite (map_ext _ (fun x => x)), map_id; [reflexivity|]. intros x. rewrite (map_ext _ (fun x => x)), map_id; [reflexivity|]. intros; ring.
  - cbn [new_unit sv_transform power]. rewrite wrap_sc. destruct (wrap_inc d sh X X) as [Y|e]; cbn [rmap]; [|reflexivity]. specialize (IH Y).
    destruct (sv_transform parse i Y) as [[r|e] i'], (sv_transform parse (new_unit i) (scM k Y)) as [[r'|e'] i'']; cbn [fst rmap] in *; congruence.
  - cbn [new_unit sv_transform power]. rewrite cumsum_sc. specialize (IH (map cumsum X)).
    destruct (sv_transform parse i (map cumsum X)) as [[r|e] i'], (sv_transform parse (new_unit i) (scM k (map cumsum X))) as [[r'|e'] i'']; cbn [fst rmap] in *; congruence.
Qed.
Lemma ppv_fit_sc qc X : Forall (fun qc => snd qc = true -> fst qc = 0) qc -> forall i,
  match ppv_fit_from qf i qc sel X with
  | (Ok _, q) => ppv_fit_from qf i qc sel (scM k X) = (Ok tt, sc k q)
  | (Err e, _) => fst (ppv_fit_from qf i qc sel (scM k X)) = Err e
  end.
Proof.
  induction 1 as [|[p b] qc E F IH]; intros i; cbn [ppv_fit_from]; [reflexivity|]. cbn in E.
  assert (U : forall u, Ok tt = u -> True) by auto. clear U.
  destruct b.
  - specialize (IH (S i)). destruct (ppv_fit_from qf (S i) qc sel X) as [[[]|e] q].
    + rewrite IH. f_equal. cbn [map]. f_equal. rewrite (E eq_refl). ring.
    + destruct (ppv_fit_from qf (S i) qc sel (scM k X)) as [[[]|e'] q']; cbn in *; congruence.
  - destruct (is_prob_value p); [|reflexivity]. specialize (IH (S i)).
    replace (concat (map (fun s => nth s (scM k X) []) (sel i))) with (sc k (concat (map (fun s => nth s X []) (sel i)))).
    + destruct (ppv_fit_from qf (S i) qc sel X) as [[[]|e] q].
      * rewrite IH. rewrite qf_unit. reflexivity.
      * destruct (ppv_fit_from qf (S i) qc sel (scM k X)) as [[[]|e'] q']; cbn in *; congruence.
    + rewrite concat_map, map_map. f_equal. apply map_ext. intros s. change (@nil R) with (map (Rmult k) []) at 2. unfold scM. symmetry. apply (map_nth (sc k)).
Qed.
Lemma fit_sc s : no_fixed_threshold s -> forall X,
  match sv_fit qf sel s X with
  | (Ok _, s') => sv_fit qf sel (cache_map cf s) (scM k X) = (Ok tt, new_unit s') /\ power s' = power s
  | (Err e, _) => fst (sv_fit qf sel (cache_map cf s) (scM k X)) = Err e
  end.
Proof.
  induction s as [c st ca|c st ca|i IH d sh ca|i IH ca]; intros NF X; cbn [sv_fit cache_map no_fixed_threshold power sv_cache] in *.
  - split; [|reflexivity]. cbn [new_unit option_map]. do 3 f_equal. unfold seg_fit, edges_fit. rewrite pre_sc, concat_sc, <- xsort_sc by exact Hk. f_equal.
    rewrite map_map. apply map_ext. intros q. now apply edge_fit_sc.
  - unfold ppv_fit. pose proof (ppv_fit_sc (pv_qc c) X NF 0%nat) as E. destruct (ppv_fit_from qf 0 (pv_qc c) sel X) as [[[]|e] q].
    + rewrite E. split; reflexivity.
    + destruct (ppv_fit_from qf 0 (pv_qc c) sel (scM k X)) as [[[]|e'] q']; cbn in *; congruence.
  - rewrite wrap_sc. destruct (wrap_inc d sh X X) as [Y|e]; cbn [rmap]; [|reflexivity]. specialize (IH NF Y). destruct (sv_fit qf sel i Y) as [[[]|e] i'].
    + destruct IH as (E & P). rewrite E. split; [reflexivity|exact P].
    + destruct (sv_fit qf sel (cache_map cf i) (scM k Y)) as [[[]|e'] i'']; cbn in *; congruence.
  - rewrite cumsum_sc. specialize (IH NF (map cumsum X)). destruct (sv_fit qf sel i (map cumsum X)) as [[[]|e] i'].
    + destruct IH as (E & P). rewrite E. split; [reflexivity|exact P].
    + destruct (sv_fit qf sel (cache_map cf i) (scM k (map cumsum X))) as [[[]|e'] i'']; cbn in *; congruence.
Qed.
End Scale.

Lemma scale_dim_cache parse d j inp key : j <> 0 -> @get_on R RNum parse (map (scale_dim d j) inp) key = get_on parse inp key.
Proof.
  intros Hj. destruct d as [|d].
  - rewrite <- (get_on_sc parse j inp key Hj). assert (E : forall x, inc_first (scale_dim 0 j x) = inc_first (scM j x)).
    { intros x. unfold inc_first. replace (nth 0 (scale_dim 0 j x) []) with (nth 0 (scM j x) []); [reflexivity|]. destruct x as [|r x]; [reflexivity|]. reflexivity. }
    unfold get_on, cache_fresh, compute. assert (E1 : L1_sum (map (scale_dim 0 j) inp) = L1_sum (scD j inp)) by (unfold L1_sum, scD; rewrite !map_map; apply map_ext; intros x; now rewrite E).
    assert (E2 : L2_sum (map (scale_dim 0 j) inp) = L2_sum (scD j inp)) by (unfold L2_sum, scD; rewrite !map_map; apply map_ext; intros x; now rewrite E).
    now rewrite E1, E2.
  - assert (E : forall x, inc_first (scale_dim (S d) j x) = inc_first x).
    { intros x. unfold inc_first. destruct x as [|r x]; reflexivity. }
    unfold get_on, cache_fresh, compute. assert (E1 : L1_sum (map (scale_dim (S d) j) inp) = L1_sum inp) by (unfold L1_sum; rewrite map_map; apply map_ext; intros x; now rewrite E).
    assert (E2 : L2_sum (map (scale_dim (S d) j) inp) = L2_sum inp) by (unfold L2_sum; rewrite map_map; apply map_ext; intros x; now rewrite E).
    now rewrite E1, E2.
Qed.
Lemma sieves_ parse qf sel k f (s : sieve R) (A B : mts R) :
  0 < k -> (forall inp key, @get_on R RNum parse (f inp) key = get_on parse inp key) -> (forall p v, qf p (map (Rmult k) v) = k * qf p v) -> no_fixed_threshold s ->
  let unit := map (map (Rmult k)) in
  fit_then parse qf sel (cache_map f s) (unit A) (unit B) =
  match fit_then parse qf sel s A B with Ok F => Ok (map (map (Rmult (k ^ power s))) F) | Err e => Err e end.
Proof.
  intros Hk Hf Q NF unit. unfold fit_then. pose proof (fit_sc qf sel k f Hk Q s NF A) as E. change (map (map (Rmult k))) with (scM k) in unit. unfold unit.
  destruct (sv_fit qf sel s A) as [[[]|e] s'].
  - destruct E as (E & P). rewrite E, (transform_sc parse k f Hk Hf), P. destruct (fst (sv_transform parse s' B)); reflexivity.
  - destruct (sv_fit qf sel (cache_map f s) (scM k A)) as [[[]|e'] s'']; cbn in *; congruence.
Qed.
(** Any sieve. *)
Theorem C99_sieves parse qf sel k j d (s : sieve R) (A B : mts R) :
  0 < k -> j <> 0 -> (forall p v, qf p (map (Rmult k) v) = k * qf p v) -> no_fixed_threshold s ->
  let unit := map (map (Rmult k)) in
  let outcome := match fit_then parse qf sel s A B with Ok F => Ok (map (map (Rmult (k ^ power s))) F) | Err e => Err e end in
  fit_then parse qf sel (cache_map (map (scale_all j)) s) (unit A) (unit B) = outcome /\
  fit_then parse qf sel (cache_map (map (scale_dim d j)) s) (unit A) (unit B) = outcome.
Proof.
  intros Hk Hj Q NF unit outcome. split; apply sieves_; auto; intros inp key; [exact (get_on_sc parse j inp key Hj)|now apply scale_dim_cache].
Qed.
Print Assumptions C99_sieves.

(** Features of iterated sums: dimension [d] of the training data, of the new
    data and of the cache's input is given in another unit. *)
Lemma row_scaled (w : sword R) X n d k : k <> 0 ->
  map (fun x => map (iss x (sw_exts w)) (seq 0 n)) (map (scale_dim d k) X)
  = map (map (Rmult (powerRZ k (total_exponent d (sw_exts w))))) (map (fun x => map (iss x (sw_exts w)) (seq 0 n)) X).
Proof.
  intros Hk. rewrite !map_map. apply map_ext. intros x. rewrite map_map. apply map_ext. intros t. now apply iss_scale.
Qed.


Theorem C99_features parse qf sel (c : iss_cfg R) (words : list (sword R)) A B n m d k :
  is_words c = map simple_iword words -> is_mode c = SINGLE -> is_sr c = Reals -> is_wt c = None ->
  words <> [] -> wf_dataset A n -> wf_dataset B m -> 0 < k ->
  (forall j p v, 0 < j -> qf p (map (Rmult j) v) = j * qf p v) ->
  Forall (fun w => sw_exts w <> [] /\
      Forall (fun x => letters_in (length x) (sw_exts w) /\ nonzero_where_neg x n (sw_exts w)) A /\
      Forall (fun x => letters_in (length x) (sw_exts w) /\ nonzero_where_neg x m (sw_exts w)) B) words ->
  exists a b a' b', iss_transform c A = Ok a /\ iss_transform c B = Ok b /\
    iss_transform c (map (scale_dim d k) A) = Ok a' /\ iss_transform c (map (scale_dim d k) B) = Ok b' /\
    forall r w (s : sieve R), nth_error words r = Some w -> no_fixed_threshold s ->
      fit_then parse qf sel (cache_map (map (scale_dim d k)) s) (nth r a' []) (nth r b' []) =
      match fit_then parse qf sel s (nth r a []) (nth r b []) with
      | Ok F => Ok (map (map (Rmult (powerRZ k (total_exponent d (sw_exts w)) ^ power s))) F)
      | Err e => Err e
      end.
Proof.
  intros Ew Hm Hs Hwt Hne HA HB Hk Q HW.
  assert (HWA : Forall (fun w => sw_exts w <> [] /\ Forall (fun x => letters_in (length x) (sw_exts w) /\ nonzero_where_neg x n (sw_exts w)) A) words)
    by (eapply Forall_impl; [|exact HW]; cbn; tauto).
  assert (HWB : Forall (fun w => sw_exts w <> [] /\ Forall (fun x => letters_in (length x) (sw_exts w) /\ nonzero_where_neg x m (sw_exts w)) B) words)
    by (eapply Forall_impl; [|exact HW]; cbn; tauto).
  assert (k0 : k <> 0) by lra.
  assert (SC : forall X q, wf_dataset X q ->
    Forall (fun w => sw_exts w <> [] /\ Forall (fun x => letters_in (length x) (sw_exts w) /\ nonzero_where_neg x q (sw_exts w)) X) words ->
    iss_transform c (map (scale_dim d k) X) = Ok (map (fun w => map (fun x => map (iss x (sw_exts w)) (seq 0 q)) (map (scale_dim d k) X)) words)).
  { intros X q HX HWX. apply reals_api; auto.
    - apply Forall_map. eapply Forall_impl; [|exact HX]. intros x Hx. now apply scale_dim_wf.
    - eapply Forall_impl; [|exact HWX]. intros w [H1 H2]. split; [assumption|]. apply Forall_map.
      eapply Forall_impl; [|exact H2]. intros x Hx. now apply scale_dim_ok. }
  eexists _, _, _, _. split; [now apply (reals_api c words A n)|]. split; [now apply (reals_api c words B m)|].
  split; [exact (SC A n HA HWA)|]. split; [exact (SC B m HB HWB)|]. intros r w s Er NF.
  rewrite !(nth_error_nth_ (map _ words) r _ [] (map_nth_error _ _ _ Er)). rewrite !row_scaled by exact k0.
  pose proof (powerRZ_lt k (total_exponent d (sw_exts w)) Hk) as HP.
  apply sieves_; auto. intros inp key. now apply scale_dim_cache.
Qed.
Print Assumptions C99_features.

(** The same in the max-plus semiring when all dimensions change their unit. *)
Theorem C99_features_arctic parse qf sel (c : iss_cfg R) (words : list (sword R)) A B n m k :
  is_words c = map simple_iword words -> is_mode c = SINGLE -> is_sr c = Arctic false -> is_wt c = None ->
  words <> [] -> wf_dataset A n -> wf_dataset B m -> 0 < k ->
  (forall j p v, 0 < j -> qf p (map (Rmult j) v) = j * qf p v) ->
  Forall (fun w => sw_exts w <> [] /\ Forall (fun x => tables_in (length x) (sw_exts w)) A /\ Forall (fun x => tables_in (length x) (sw_exts w)) B) words ->
  exists a b a' b', iss_transform c A = Ok a /\ iss_transform c B = Ok b /\
    iss_transform c (map (scale_all k) A) = Ok a' /\ iss_transform c (map (scale_all k) B) = Ok b' /\
    forall r (s : sieve R), (r < length words)%nat -> no_fixed_threshold s ->
      fit_then parse qf sel (cache_map (map (scale_all k)) s) (nth r a' []) (nth r b' []) =
      match fit_then parse qf sel s (nth r a []) (nth r b []) with
      | Ok F => Ok (map (map (Rmult (k ^ power s))) F)
      | Err e => Err e
      end.
Proof.
  intros Ew Hm Hs Hwt Hne HA HB Hk Q HW.
  assert (RS : forall X q, wf_dataset X q -> Forall (fun w => sw_exts w <> [] /\ Forall (fun x => tables_in (length x) (sw_exts w)) X) words ->
    exists rows rows', iss_transform c X = Ok rows /\ iss_transform c (map (scale_all k) X) = Ok rows' /\
      forall r, (r < length words)%nat -> nth r rows' [] = map (map (Rmult k)) (nth r rows [])).
  { intros X q HX HWX.
    destruct (arctic_api c words X q) as (rows & E & L & Sh & V); auto; [now rewrite Hwt|].
    destruct (arctic_api c words (map (scale_all k) X) q) as (rows' & E' & L' & Sh' & V'); auto.
    - apply Forall_map. eapply Forall_impl; [|exact HX]. intros. now apply scale_all_wf.
    - now rewrite Hwt.
    - eapply Forall_impl; [|exact HWX]. intros w [H1 H2]. split; [assumption|]. apply Forall_map. eapply Forall_impl; [|exact H2].
      intros x Hx. assert (El : length (scale_all k x) = length x) by apply map_length. now rewrite El.
    - destruct (arctic_scaling c words X q k) as (u & u' & Eu & Eu' & _ & _ & W); auto.
      rewrite E in Eu. injection Eu as <-. rewrite E' in Eu'. injection Eu' as <-.
      exists rows, rows'. split; [exact E|]. split; [exact E'|]. intros r Hr.
      destruct (Forall_nth (fun row => length row = length X /\ Forall (fun y => length y = q) row) rows) as [D1 _].
      assert (Sr := D1 Sh r [] ltac:(lia)). destruct (Forall_nth (fun row => length row = length (map (scale_all k) X) /\ Forall (fun y => length y = q) row) rows') as [D2 _].
      assert (Sr' := D2 Sh' r [] ltac:(lia)). clear D1 D2. destruct Sr as [S1 S2], Sr' as [S3 S4]. rewrite map_length in S3.
      apply (list_ext []); [now rewrite map_length, S1, S3|]. intros i Hi. rewrite S3 in Hi.
      change (@nil R) with (map (Rmult k) []) at 2. rewrite (map_nth (map (Rmult k))).
      rewrite Forall_forall in S2, S4. specialize (S2 (nth i (nth r rows []) []) ltac:(apply nth_In; lia)). specialize (S4 (nth i (nth r rows' []) []) ltac:(apply nth_In; lia)).
      apply (list_ext 0); [now rewrite map_length, S2, S4|]. intros t Ht. rewrite S4 in Ht.
      replace 0 with (k * 0) at 2 by ring. rewrite (map_nth (Rmult k)). now apply W. }
  destruct (RS A n HA) as (a & a' & Ea & Ea' & Ra); [eapply Forall_impl; [|exact HW]; cbn; tauto|].
  destruct (RS B m HB) as (b & b' & Eb & Eb' & Rb); [eapply Forall_impl; [|exact HW]; cbn; tauto|].
  exists a, b, a', b'. do 4 (split; [assumption|]). intros r s Hr NF. rewrite (Ra r Hr), (Rb r Hr).
  apply sieves_; auto. intros inp key. apply (get_on_sc parse k inp key). lra.
Qed.
Print Assumptions C99_features_arctic.

(** The hypothesis on thresholds is needed: PPV(quantile=1, constant=True)
    counts the values that are at least 1, in whatever unit. *)
Definition ppv_at_least_one : sieve R := SPpv {| pv_components := false; pv_qc := [(1, true)]; pv_segments := false |} None None.
Theorem C99_fixed_threshold_refuted : ~ (forall parse qf sel k (s : sieve R) (A B : mts R),
  0 < k -> (forall p v, qf p (map (Rmult k) v) = k * qf p v) ->
  fit_then parse qf sel (cache_map (map (scale_all k)) s) (map (map (Rmult k)) A) (map (map (Rmult k)) B) =
  match fit_then parse qf sel s A B with Ok F => Ok (map (map (Rmult (k ^ power s))) F) | Err e => Err e end).
Proof.
  intros C. specialize (C (fun _ => Err ValueError) (fun _ v => @np_quantile R RNum 1 2 v) (fun _ => []) 2 ppv_at_least_one [[1/2]] [[1/2]] ltac:(lra)).
  specialize (C (fun _ v => quantile_sc 2 ltac:(lra) 1 2 v)).
  unfold fit_then, ppv_at_least_one in C. cbn [sv_fit sv_transform cache_map option_map ppv_fit ppv_fit_from pv_qc pv_components pv_segments ppv_transform fst snd ppv_conditions map power] in C.
  injection C as C. unfold fraction, vcount in C. cbn [filter length] in C.
  assert (E1 : @nleb R RNum 1 (2 * (1 / 2)) = true) by (destruct (Rleb_spec 1 (2 * (1 / 2))); [reflexivity|lra]).
  assert (E2 : @nleb R RNum 1 (1 / 2) = false) by (destruct (Rleb_spec 1 (1 / 2)); [lra|reflexivity]).
  cbn [nleb RNum] in C, E1, E2. rewrite E1, E2 in C. cbn in C. unfold Rdiv in C. rewrite Rinv_1 in C. lra.
Qed.
Print Assumptions C99_fixed_threshold_refuted.

(** The hypotheses are met: the data and words of C59 (word "[12][-1]", whose
    sums carry the factor k for dimension 1 and are left alone by dimension 0),
    np.quantile as modelled in M_Np (any probability a/b), the sieves PPV(0.5),
    CPV around 0 (constant=True) and the last value of the increments (INC of
    END), whose value is computed in two units. *)
Definition ex_ppv : sieve R := SPpv {| pv_components := true; pv_qc := [(1/2, false); (0, true)]; pv_segments := false |} None None.
Definition ex_end : sieve R := SInc (SSeg (seg_new KEND [CutI (-1)] None (str "L2")) None None) 1 1 (Some ex_X).
Example C99_nonvacuous :
  (wf_dataset ex_X 3 /\ letters_in 2 (sw_exts ex_word) /\ nonzero_where_neg (nth 0 ex_X []) 3 (sw_exts ex_word) /\
   total_exponent 0 (sw_exts ex_word) = 0%Z /\ total_exponent 1 (sw_exts ex_word) = 1%Z) /\
  (forall j (p : R) v, 0 < j -> @np_quantile R RNum 1 2 (map (Rmult j) v) = j * np_quantile 1 2 v) /\
  no_fixed_threshold ex_ppv /\ no_fixed_threshold ex_end /\ power ex_ppv = 0%nat /\ power ex_end = 1%nat /\
  (forall parse qf sel, fit_then parse qf sel ex_end [[1; 2; 4]] [[1; 2; 4]] = Ok [[2]]) /\
  (forall parse qf sel, fit_then parse qf sel (cache_map (map (scale_dim 1 3)) ex_end) [[3; 6; 12]] [[3; 6; 12]] = Ok [[6]]).
Proof.
  pose proof C59_nonvacuous as N. split; [tauto|]. split; [intros j _ v Hj; now apply quantile_sc|].
  split; [|split; [exact Logic.I|split; [reflexivity|split; [reflexivity|]]]].
  - cbn. constructor; [discriminate|]. constructor; [reflexivity|constructor].
  - split; intros parse qf sel; cbv -[Rplus Rminus Rmult IZR]; do 4 f_equal; ring.
Qed.
