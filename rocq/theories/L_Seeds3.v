(** What the seeds of the library read from the cache: only the rows at the
    positions of the series they are given (C34). *)
From Coq Require Import Ascii String List Arith ZArith Bool RelationClasses Lia.
From Verif Require Import Num Arr M_Str M_Semiring M_Words M_ISS M_Np M_Prep M_Cache M_Sieve M_PrepObj M_Cos M_Fruit M_Seeds
  S_Fruit L_Arr L_Fruit L_Fruit10 L_Fruit11 P_Copy L_Seeds L_Seeds2 P_Seeds.
Import ListNotations.

(** The same rows at the first [k] positions. *)
Definition agree {A} (k : nat) (c c' : list A) : Prop := firstn k c = firstn k c' /\ k <= length c /\ k <= length c'.
(** At least one time step in the first dimension of every series. *)
Definition full {T} (c : dataset T) : Prop := forall x, In x c -> nth 0 x [] <> [].

Section Local.
Context {T : Type} `{N : Num T}.
Variable W : oracles T.
Variable parse : pystr -> res T.
Variable powf : T -> T -> T.
Variable qf : T -> list T -> T.
Variable eps5 : T.
Variable order : list T -> list T.
Variable show_prep : prep T -> pystr.
Variable show_cut : cut_arg -> pystr.
Variable show_q : q_arg -> pystr.
Variable show_num : T -> pystr.
Variable show_ppv : ppv_cfg T -> pystr.
Notation lib := (library W parse powf qf eps5 order show_prep show_cut show_q show_num show_ppv).
Notation law := (library_lawful W parse powf qf eps5 order show_prep show_cut show_q show_num show_ppv).

(** ** Lists *)
Lemma firstn_map {A B} (f : A -> B) k l : firstn k (map f l) = map f (firstn k l).
Proof. revert l. induction k; intros [|x l]; cbn; congruence. Qed.
Lemma agree_map {A B} (f : A -> B) k c c' : agree k c c' -> agree k (map f c) (map f c').
Proof. intros (E & L & L'). unfold agree. rewrite !firstn_map, !map_length, E. auto. Qed.
Lemma map2M_firstn {A B C} (f : A -> B -> res C) X : forall l l', agree (length X) l l' -> map2M f l X = map2M f l' X.
Proof.
  induction X as [|x X IH]; intros l l' (E & L & L').
  - now destruct l, l'.
  - destruct l as [|y l], l' as [|y' l']; cbn in E, L, L'; try lia. injection E as <- E. cbn. destruct (f y x); [|reflexivity]. cbn.
    rewrite (IH l l'); [reflexivity|]. split; [exact E|]. split; lia.
Qed.
Lemma map2_firstn {A B C} (f : A -> B -> C) X : forall l l', agree (length X) l l' -> map2 f X l = map2 f X l'.
Proof.
  induction X as [|x X IH]; intros l l' (E & L & L').
  - reflexivity.
  - destruct l as [|y l], l' as [|y' l']; cbn in E, L, L'; try lia. injection E as <- E. cbn. f_equal. apply IH. split; [exact E|]. split; lia.
Qed.
Lemma agree_combine {A B} k (a a' : list A) (b b' : list B) : agree k a a' -> agree k b b' -> agree k (combine a b) (combine a' b').
Proof.
  intros (E & L1 & L2) (F & L3 & L4). split; [now rewrite !combine_firstn, E, F|]. rewrite !combine_length. lia.
Qed.
Lemma agree_app {A} k (a : list A) l l' : k = length a -> agree k (a ++ l) (a ++ l').
Proof. intros ->. unfold agree. rewrite !firstn_app, Nat.sub_diag, !app_length. cbn. split; [reflexivity|lia]. Qed.

(** ** Preparateurs *)
Lemma fresh_coquantile key : (exists e, forall c, cache_fresh parse c COQUANTILE key = Err e) \/
  exists f : mts T -> nat, forall c, cache_fresh parse c COQUANTILE key = Ok (VCoq (map f c)).
Proof.
  unfold cache_fresh, compute. destruct (split_on colon key) as [|s [|norm [|]]]; try (left; eexists; intros; reflexivity).
  destruct (eqs norm (str "L1")); [|destruct (eqs norm (str "L2")); [|left; eexists; intros; reflexivity]];
    (destruct (parse s) as [q|e]; [|left; exists e; intros; reflexivity]; right; cbn [bind];
     eexists; intros c; unfold coquantile, L1_sum, L2_sum; rewrite map_map; reflexivity).
Qed.
Lemma win_local c c' a b (X : dataset T) : agree (length X) c c' -> win_run parse c a b X = win_run parse c' a b X.
Proof.
  intros A. unfold win_run.
  destruct (fresh_coquantile (a ++ str ":L2")) as [(e & Ea)|(f & Ea)]; rewrite !Ea; [reflexivity|]. cbn [bind].
  destruct (fresh_coquantile (b ++ str ":L2")) as [(e & Eb)|(g & Eb)]; rewrite !Eb; [reflexivity|]. cbn [bind].
  pose proof A as (_ & L & L'). rewrite !map_length, !Nat.min_id. apply Nat.leb_le in L, L'. rewrite L, L'.
  unfold win_apply. apply map2M_firstn, agree_combine; now apply agree_map.
Qed.
(** FUN preparateurs keep the number of series and no SPE preparateur takes
    its steps from the cache: the latter broadcasts the rows of all series. *)
Definition local_prep (p : prep T) : Prop := keeps_rows p /\ match p with PLeaf (LSPE _ _ _ (Some _) _) _ => False | _ => True end.
Lemma leaf_local c c' f (X : dataset T) : agree (length X) c c' -> (match f with LSPE _ _ _ (Some _) _ => False | _ => True end) ->
  leaf_transform parse powf c f X = leaf_transform parse powf c' f X.
Proof. intros A Hf. destruct f as [| | | | | | | | |? ? ? [key|] ?| | | | | | | |]; try reflexivity; [destruct Hf|]. exact (win_local c c' _ _ X A). Qed.
Lemma fit_local r p (Y : dataset T) : exists x p', forall a, pr_fit eps5 r (pr_set_cache p (Some a)) Y = (x, pr_set_cache p' (Some a)).
Proof.
  destruct p as [f ca|q d ca|ca|q ca]; cbn [pr_set_cache pr_fit pr_cache].
  - destruct (leaf_fit eps5 r f Y) as [f'|e]; [exists (Ok tt), (PLeaf f' None)|exists (Err e), (PLeaf f None)]; reflexivity.
  - destruct (mapM _ d) as [dims|e]; [|exists (Err e), (PDim q d None); reflexivity].
    destruct (pr_fit eps5 r q _) as [[u|e] q']; [exists (Ok tt), (PDim q' d None)|exists (Err e), (PDim q' d None)]; reflexivity.
  - exists (Ok tt), (PNew0 None). reflexivity.
  - destruct (pr_fit eps5 r q Y) as [[u|e] q']; [exists (Ok tt), (PNew q' None)|exists (Err e), (PNew q' None)]; reflexivity.
Qed.
Lemma transform_local c c' p (Y : dataset T) : agree (length Y) c c' -> local_prep p ->
  exists x p', pr_transform parse powf (pr_set_cache p (Some c)) Y = (x, pr_set_cache p' (Some c)) /\
               pr_transform parse powf (pr_set_cache p (Some c')) Y = (x, pr_set_cache p' (Some c')).
Proof.
  intros A (_ & Hp). destruct p as [f ca|q d ca|ca|q ca]; cbn [pr_set_cache pr_transform pr_cache].
  - rewrite (leaf_local c c' f Y A Hp). destruct (leaf_transform parse powf c' f Y) as [Z|e]; [exists (Ok Z)|exists (Err e)]; exists (PLeaf f None); split; reflexivity.
  - destruct (mapM _ d) as [dims|e]; [|exists (Err e), (PDim q d None); split; reflexivity].
    destruct (pr_transform parse powf q _) as [r q']. destruct (dim_transform d (fun _ => r) Y) as [Z|e]; [exists (Ok Z)|exists (Err e)]; exists (PDim q' d None); split; reflexivity.
  - destruct (new_transform None Y) as [Z|e]; [exists (Ok Z)|exists (Err e)]; exists (PNew0 None); split; reflexivity.
  - destruct (pr_transform parse powf q Y) as [r q']. destruct (new_transform (Some (fun _ => r)) Y) as [Z|e]; [exists (Ok Z)|exists (Err e)]; exists (PNew q' None); split; reflexivity.
Qed.
Lemma local_closed : closed lib (local_prep : prepT lib -> Prop) (covers_rows : issT lib -> Prop) (fun _ => True).
Proof.
  pose proof (library_closed W parse powf qf eps5 order show_prep show_cut show_q show_num show_ppv) as C. constructor; try exact (fun _ _ _ => Logic.I).
  - intros c p (H1 & H2). split; [exact (cl_pa lib _ _ _ C c p H1)|]. now destruct p.
  - intros g X p (H1 & H2). split; [exact (cl_pf lib _ _ _ C g X p H1)|]. cbn. destruct p as [f ca|q d ca|ca|q ca]; cbn [pr_fit pr_cache].
    + destruct (leaf_fit eps5 _ f X) as [f'|e] eqn:E; [|exact H2]. cbn.
      destruct f as [| | | | | |? ? ? ? [k|]| | |? ? ? [k|]| | | | | | | |]; cbn in E; try (injection E as <-; exact Logic.I || exact H2);
        match type of E with (let! _ := ?m in _) = _ => destruct m; [|discriminate] end; injection E as <-; exact Logic.I.
    + destruct (mapM _ d); [|exact Logic.I]. destruct (pr_fit eps5 _ q _) as [[u|e] q']; exact Logic.I.
    + exact Logic.I.
    + destruct (pr_fit eps5 _ q X) as [[u|e] q']; exact Logic.I.
  - intros X p (H1 & H2). split; [exact (cl_pt lib _ _ _ C X p H1)|]. cbn. destruct p as [f ca|q d ca|ca|q ca]; cbn [pr_transform pr_cache].
    + destruct (leaf_transform parse powf _ f X); exact H2.
    + destruct (mapM _ d); [|exact Logic.I]. destruct (pr_transform parse powf q _) as [r q']. destruct (dim_transform _ _ _); exact Logic.I.
    + destruct (new_transform _ X); exact Logic.I.
    + destruct (pr_transform parse powf q X) as [r q']. destruct (new_transform _ _); exact Logic.I.
  - intros p q (H1 & H2) E. split; [exact (cl_pc lib _ _ _ C p q H1 E)|]. cbn in E. injection E as <-. destruct p as [f ca|q d ca|ca|q ca]; cbn [pr_copy]; try exact Logic.I.
    destruct f; try exact Logic.I. exact H2.
  - exact (cl_ia lib _ _ _ C).
  - exact (cl_if lib _ _ _ C).
  - exact (cl_ic lib _ _ _ C).
  - exact (fun _ _ _ _ => Logic.I).
  - exact (fun _ _ _ _ => Logic.I).
Qed.

(** ** ISS *)
Lemma inc_first_cons (x : mts T) : nth 0 x [] <> [] -> inc_first x <> [].
Proof.
  unfold inc_first. intros Hx. set (r := nth 0 x []) in *. destruct r as [|a r]; [congruence|]. unfold increments1.
  assert (La : length (py_slice (Some 1%Z) None (a :: r)) = length r).
  { unfold py_slice, lo_bound, hi_bound, py_bound. cbn [length]. change (1 <? 0)%Z with false. cbn [Nat.min]. rewrite firstn_length, skipn_length. cbn [length]. change (Z.to_nat 1) with 1. lia. }
  assert (Lb : length (py_slice None (Some (-1)%Z) (a :: r)) = length r).
  { unfold py_slice, lo_bound, hi_bound, py_bound. cbn [length]. change (-1 <? 0)%Z with true. cbv iota. rewrite firstn_length. cbn [skipn length]. rewrite Nat2Z.inj_succ. lia. }
  change (- (1))%Z with (-1)%Z. rewrite La, Lb, Nat.eqb_refl. unfold py_set_slice, zeros. rewrite repeat_length.
  assert (Lv : length (map2 nsub (py_slice (Some 1%Z) None (a :: r)) (py_slice None (Some (-1)%Z) (a :: r))) = length r) by (rewrite map2_len, La, Lb; lia).
  rewrite Lv. unfold lo_bound, hi_bound, py_bound. change (1 <? 0)%Z with false. cbv iota. change (Z.to_nat 1) with 1. cbn [length].
  replace (S (length r) - Nat.min 1 (S (length r))) with (length r) by lia. rewrite Nat.eqb_refl. cbn [Nat.min repeat firstn app]. discriminate.
Qed.
Lemma accumulate_nil {A} (f : A -> A -> A) l : accumulate f l = [] -> l = [].
Proof. destruct l; cbn; [reflexivity|discriminate]. Qed.
Lemma nrm_scale_ok sc (r : dtype * series T) : snd r <> [] -> exists s, nrm_scale sc r = Ok s.
Proof. destruct r as [dt [|v r]]; cbn [snd]; [congruence|]. intros _. eexists. reflexivity. Qed.
Lemma lp_row_cons rel e tr (y : series T) : y <> [] -> snd (lp_row rel e tr y) <> [].
Proof. unfold lp_row. cbv zeta. destruct y as [|v y]; [congruence|]. intros _. destruct rel, tr; unfold vectorize; discriminate. Qed.
Lemma mapM_total {A B} (f : A -> res B) (d : B) l : (forall x, In x l -> exists y, f x = Ok y) -> mapM f l = Ok (map (fun x => match f x with Ok y => y | Err _ => d end) l).
Proof.
  induction l as [|x l IH]; intros Hf; [reflexivity|]. cbn. destruct (Hf x (or_introl eq_refl)) as (y & ->). cbn. rewrite IH by (intros z Hz; apply Hf; now right). reflexivity.
Qed.
Lemma lp_total (two rel : bool) tr sc (c : dataset T) : full c ->
  lp_lookup rel eps5 tr sc (if two then L2_sum c else L1_sum c) =
  Ok (map (fun x => match nrm_scale sc (lp_row rel eps5 tr (cumsum (map (if two then (fun v : T => nmul v v) else nabs) (inc_first x)))) with Ok y => y | Err _ => [] end) c).
Proof.
  intros Hc. unfold lp_lookup. rewrite (mapM_total (B := series T) _ []).
  - destruct two; unfold L1_sum, L2_sum; rewrite map_map; reflexivity.
  - assert (G : forall (g : T -> T) y, In y (map (fun x => cumsum (map g (inc_first x))) c) -> exists s, nrm_scale sc (lp_row rel eps5 tr y) = Ok s).
    { intros g y Hy. apply in_map_iff in Hy as (x & <- & Hx). apply nrm_scale_ok, lp_row_cons. intros E. apply accumulate_nil, map_eq_nil in E. exact (inc_first_cons x (Hc x Hx) E). }
    destruct two; exact (G _).
Qed.
Lemma lookup_local c c' k (X : dataset T) : agree (length X) c c' -> full c -> full c' ->
  (match k with WCustom f => forall X l, f X = Ok l -> length X <= length l | _ => True end) ->
  match wt_lookup eps5 c k X, wt_lookup eps5 c' k X with
  | Ok l, Ok l' => agree (length X) l l'
  | Err e, Err e' => e = e'
  | _, _ => False
  end.
Proof.
  intros A Fc Fc' Hk.
  assert (R : match k with WLp _ false _ _ _ => True | _ => wt_lookup eps5 c k X = wt_lookup eps5 c' k X end) by (destruct k as [|? [|] ? ? ?| |]; reflexivity || exact Logic.I).
  destruct k as [rel tr sc|two [|] rel tr sc|n r sc|f] eqn:Ek; try
    (rewrite <- R; destruct (wt_lookup eps5 c _ X) as [l|e] eqn:E; [|reflexivity]; apply wt_lookup_length in E; [|apply A|exact Hk || exact Logic.I]; repeat split; exact E).
  cbn [wt_lookup]. rewrite !lp_total by assumption. now apply agree_map.
Qed.
Definition wt_ok (c : iss_obj) : Prop := match io_wt c with Some (WCustom f, _) => forall (X : dataset T) l, f X = Ok l -> length X <= length l | _ => True end.
Lemma plain_gen_local c c' o (X : dataset T) : agree (length X) c c' -> full c -> full c' -> covers_rows (IPlain o None) ->
  forall ws i, plain_gen eps5 c o X i ws = plain_gen eps5 c' o X i ws /\
    forall b Z, In (Ok b) (plain_gen eps5 c o X i ws) -> In Z b -> length Z = length X.
Proof.
  intros A Fc Fc' Ho. induction ws as [|w ws IH]; intros i; cbn [plain_gen]; [split; [reflexivity|intros b Z []]|].
  assert (Ep : is_plan_opt (io_cfg eps5 c o) = is_plan_opt (io_cfg eps5 c' o)) by reflexivity. rewrite <- Ep.
  destruct (match is_plan_opt (io_cfg eps5 c o) with None => is_argmax (io_sr o) | Some _ => false end);
    [split; [reflexivity|intros b Z [E|[]]; discriminate]|].
  destruct (IH (S i)) as (IH1 & IH2). clear IH.
  assert (Rows : forall ext, (match iw_val w, io_wt o with WSimple _ _, Some (k, _) => exists l, wt_lookup eps5 c k X = Ok l | _, _ => True end) ->
     iterated_sums (io_sr o) X (iw_val w) ext (is_wt (io_cfg eps5 c o)) = iterated_sums (io_sr o) X (iw_val w) ext (is_wt (io_cfg eps5 c' o)) /\
     length (iterated_sums (io_sr o) X (iw_val w) ext (is_wt (io_cfg eps5 c o))) = length X).
  { intros ext Hl. unfold io_cfg. cbn [is_wt]. unfold covers_rows in Ho. destruct (io_wt o) as [[k tot]|]; cbn [option_map].
    - destruct (iw_val w) as [e a|e] eqn:Ew; cbn [iterated_sums]; [|split; [reflexivity|apply map_length]]. cbn [wg_lookup wg_total fst snd].
      destruct Hl as (l & El). assert (Hk : match k with WCustom f => forall (X : dataset T) l, f X = Ok l -> length X <= length l | _ => True end) by (destruct k; exact Ho || exact Logic.I).
      pose proof (lookup_local c c' k X A Fc Fc' Hk) as L. rewrite El in L |- *. destruct (wt_lookup eps5 c' k X) as [l'|]; [|contradiction].
      split; [now apply map2_firstn|]. rewrite map2_len. destruct L as (_ & L & _). lia.
    - split; [reflexivity|]. apply iterated_sums_length. destruct (iw_val w); exact Logic.I. }
  cbn [batch_rows].
  assert (Lk : match (match io_wt o with Some (k, _) => if is_simple w then wt_lookup eps5 c k X else Ok [] | None => Ok [] end),
                     (match io_wt o with Some (k, _) => if is_simple w then wt_lookup eps5 c' k X else Ok [] | None => Ok [] end) with
     | Ok _, Ok _ => match iw_val w, io_wt o with WSimple _ _, Some (k, _) => exists l, wt_lookup eps5 c k X = Ok l | _, _ => True end
     | Err e, Err e' => e = e' | _, _ => False end).
  { unfold is_simple. unfold covers_rows in Ho. destruct (io_wt o) as [[k tot]|]; [|now destruct (iw_val w)]. destruct (iw_val w); [|exact Logic.I].
    assert (Hk : match k with WCustom f => forall (X : dataset T) l, f X = Ok l -> length X <= length l | _ => True end) by (destruct k; exact Ho || exact Logic.I).
    pose proof (lookup_local c c' k X A Fc Fc' Hk) as L. destruct (wt_lookup eps5 c k X) as [l|e], (wt_lookup eps5 c' k X) as [l'|e']; try exact L. now exists l. }
  destruct (match io_wt o with Some (k, _) => if is_simple w then wt_lookup eps5 c k X else Ok [] | None => Ok [] end) as [l|e],
           (match io_wt o with Some (k, _) => if is_simple w then wt_lookup eps5 c' k X else Ok [] | None => Ok [] end) as [l'|e']; try contradiction.
  - cbn [bind]. destruct (Rows (word_ext (is_plan_opt (io_cfg eps5 c o)) i) Lk) as (<- & LR).
    match goal with |- context [assign_rows ?m ?B] => destruct (assign_rows m B) as [blk|e] eqn:Ea end; cbn [bind].
    + rewrite <- IH1. split; [reflexivity|]. intros b Z [E|Hb] HZ; [|exact (IH2 b Z Hb HZ)]. injection E as <-. rewrite app_nil_r in HZ.
      refine (proj2 (assign_rows_shape _ _ _ _ _ Ea) Z HZ). exact (swap01_rows _ _ _ LR).
    + split; [reflexivity|]. intros b Z [E|[]]; discriminate.
  - subst e'. cbn [bind]. split; [reflexivity|]. intros b Z [E|[]]; discriminate.
Qed.
Lemma cos_rows c st (X : dataset T) b Z : In (Ok b) (cos_batches c st X 1) -> In Z b -> length Z = length X.
Proof.
  unfold cos_batches. enough (G : forall ws k, In (Ok b) (cos_gen c st X 1 k ws []) -> In Z b -> length Z = length X) by apply G.
  induction ws as [|w ws IH]; intros k Hb HZ; cbn [cos_gen] in Hb; [destruct Hb|].
  destruct (cos_word c st X k w) as [rows|e] eqn:Ew; [|destruct Hb as [Hb|[]]; discriminate]. cbn [app length Nat.eqb concat] in Hb.
  destruct Hb as [Hb|Hb]; [|exact (IH _ Hb HZ)]. injection Hb as <-. rewrite app_nil_r in HZ.
  unfold cos_word in Ew. destruct (cw_ffn c); [destruct (cs_ffn st); [|discriminate]|destruct (cw_drop c); [destruct (cs_drop st); [|discriminate]|]];
    injection Ew as <-; apply in_map_iff in HZ as (jf & <- & _); apply map_length.
Qed.
Lemma twins_local k c c' (i : issO T) : agree k c c' -> full c -> full c' -> covers_rows i ->
  twins lib k (iss_set_cache (Some c) i : issT lib) (iss_set_cache (Some c') i).
Proof.
  intros A Fc Fc' Hi Y Ly. subst k. destruct i as [o ca|o st ca]; cbn.
  - destruct (io_words o) as [|w ws]; [split; [reflexivity|intros b Z [E|[]]; discriminate]|]. exact (plain_gen_local c c' o Y A Fc Fc' Hi (w :: ws) 0).
  - split; [reflexivity|]. intros b Z. apply cos_rows.
Qed.

(** ** Sieves *)
Lemma sieve_fit_local sel (s : sieve T) Y : exists x s', forall a, sv_fit qf sel (sv_set_cache s (Some a)) Y = (x, sv_set_cache s' (Some a)).
Proof.
  destruct s as [c st ca|c st ca|i d k ca|i ca]; cbn [sv_set_cache sv_fit sv_cache].
  - exists (Ok tt), (SSeg c (Some (seg_fit c Y)) None). reflexivity.
  - destruct (ppv_fit qf c sel Y) as [[u|e] q]; [exists (Ok tt)|exists (Err e)]; exists (SPpv c (Some q) None); reflexivity.
  - destruct (wrap_inc d k Y Y) as [Z|e]; [|exists (Err e), (SInc i d k None); reflexivity].
    destruct (sv_fit qf sel i Z) as [[u|e] i']; [exists (Ok tt)|exists (Err e)]; exists (SInc i' d k None); reflexivity.
  - destruct (sv_fit qf sel i (map cumsum Y)) as [[u|e] i']; [exists (Ok tt)|exists (Err e)]; exists (SInt i' None); reflexivity.
Qed.
Lemma eqv_fit sel (s t : sieve T) Y : sv_eqv s t -> fst (sv_fit qf sel s Y) = fst (sv_fit qf sel t Y) /\ sv_eqv (snd (sv_fit qf sel s Y)) (snd (sv_fit qf sel t Y)).
Proof.
  revert t Y. induction s as [c st ca|c st ca|i IH d k ca|i IH ca]; intros [c' st' ca'|c' st' ca'|i' d' k' ca'|i' ca'] Y E; cbn [sv_eqv] in E; try contradiction; cbn [sv_fit].
  - destruct E as (-> & -> & _). cbn. auto.
  - destruct E as (-> & -> & ->). split; [reflexivity|apply (eqv_refl powf qf eps5)].
  - destruct E as (E & -> & -> & ->). destruct (wrap_inc d' k' Y Y) as [Z|e]; [|cbn; auto]. specialize (IH i' Z E).
    destruct (sv_fit qf sel i Z) as [[[]|e] i1], (sv_fit qf sel i' Z) as [[[]|e'] i1']; cbn in *; destruct IH as (E1 & E2); try discriminate; auto.
  - destruct E as (E & ->). specialize (IH i' (map cumsum Y) E).
    destruct (sv_fit qf sel i (map cumsum Y)) as [[[]|e] i1], (sv_fit qf sel i' (map cumsum Y)) as [[[]|e'] i1']; cbn in *; destruct IH as (E1 & E2); try discriminate; auto.
Qed.
Lemma eqv_copy (s : sieve T) : forall t, sv_eqv s t -> sv_copy order s = sv_copy order t.
Proof.
  induction s as [c st ca|c st ca|i IH d k ca|i IH ca]; intros [c' st' ca'|c' st' ca'|i' d' k' ca'|i' ca'] E; cbn [sv_eqv] in E; try contradiction; cbn [sv_copy].
  - destruct E as (-> & _). reflexivity.
  - destruct E as (-> & _). reflexivity.
  - destruct E as (E & -> & -> & _). now rewrite (IH i' E).
  - destruct E as (E & _). now rewrite (IH i' E).
Qed.
Lemma copy_set (s : sieve T) ca : sv_copy order (sv_set_cache s ca) = sv_copy order s.
Proof. now destruct s. Qed.
Lemma sieve_copy_err_aux s r (E0 : sv_copy order (so order s) = r) e :
  (match r as r0 return sv_copy order (so order s) = r0 -> res (sieveO order) with
   | Ok v => fun E => Ok (exist _ v (regular_copy order (so order s) v (proj2_sig s) E))
   | Err e => fun _ => Err e end E0) = Err e -> sv_copy order (so order s) = Err e.
Proof. destruct r as [v|e']; [discriminate|]. intros E. injection E as <-. exact E0. Qed.
Lemma sieve_copy_err s e : sieve_copy order s = Err e -> sv_copy order (so order s) = Err e.
Proof. exact (sieve_copy_err_aux s _ eq_refl e). Qed.

Lemma local_library k c c' : agree k c c' -> full c -> full c' ->
  cache_local lib law (local_prep : prepT lib -> Prop) (covers_rows : issT lib -> Prop) k c c'.
Proof.
  intros A Fc Fc'. constructor.
  - intros g Y p q Lp _ E Ly. cbn in E |- *. rewrite <- (same_prep_set p q (Some c') E).
    destruct (fit_local (o_rand W g) p Y) as (x & p' & Ef). rewrite !Ef. cbn [fst snd].
    pose proof (cl_pf lib _ _ _ local_closed g Y (pr_set_cache p (Some c)) (cl_pa lib _ _ _ local_closed c p Lp)) as Lp'. cbn in Lp'. rewrite Ef in Lp'. cbn in Lp'.
    assert (Lq : local_prep p') by (destruct p'; exact Lp'). rewrite <- Ly in A.
    destruct (transform_local c c' p' Y A Lq) as (z & p2 & Et & Et').
    split; [reflexivity|]. split; [reflexivity|]. split; [unfold same_prep; now rewrite !set_cache_twice_p|]. intros _. rewrite Et, Et'. cbn [fst snd].
    split; [reflexivity|]. split; [unfold same_prep; now rewrite !set_cache_twice_p|]. intros Z ->. rewrite <- Ly.
    refine (pr_transform_rows parse powf p' c Y Z (proj1 Lq) _ _); [|now rewrite Et]. destruct Lq as (_ & Lq). destruct p' as [f ca| | |]; try exact Logic.I.
    destruct f as [| | | | | | | | |? ? ? [key|] ?| | | | | | | |]; try exact Logic.I. destruct Lq.
  - intros g Y i j Li _ E Ly. cbn in E. change (i_attach lib c' j) with (iss_set_cache (Some c') j). rewrite <- (same_iss_set i j (Some c') E). change (i_attach lib c i) with (iss_set_cache (Some c) i).
    pose proof (fun i0 => twins_local k c c' i0 A Fc Fc') as Tw. split; [now destruct i|]. split; [intros _; now apply Tw|].
    cbn. destruct i as [o ca|o st ca]; cbn [iss_set_cache iss_fit].
    + cbn. split; [reflexivity|]. split; [reflexivity|]. split; [reflexivity|]. intros _. exact (Tw (IPlain o ca) Li).
    + destruct (cos_fit o (o_net W g) (o_idx W g) Y st) as [[u|e] st']; cbn; (split; [reflexivity|]); (split; [reflexivity|]); (split; [reflexivity|]); [|discriminate].
      intros _. exact (Tw (ICos o st' ca) Logic.I).
  - intros g Y s t E. cbn in E |- *. unfold sieve_fit. cbn [fst snd sieve_attach so proj1_sig].
    pose proof (same_sieve_set parse powf qf eps5 show_num show_ppv (so order s) (so order t) (Some c) E) as E1.
    destruct (sieve_fit_local (r_idx (o_rand W g)) (so order t) Y) as (x & t' & Et).
    destruct (eqv_fit (r_idx (o_rand W g)) _ _ Y E1) as (F1 & F2). split; [rewrite F1, !Et; reflexivity|]. split; [reflexivity|].
    unfold same_sieve, same_sieve0. cbn [so proj1_sig]. apply (sv_eqv_set parse powf qf eps5 show_num show_ppv _ _ None) in F2. rewrite !Et in *. cbn [snd] in *. now rewrite !set_cache_twice_s in *.
  - intros s t E. cbn in E |- *. pose proof (eqv_copy _ _ E) as Ec. rewrite !copy_set in Ec.
    destruct (sieve_copy order s) as [a|e] eqn:Es, (sieve_copy order t) as [b|e'] eqn:Et;
      try apply sieve_copy_inv in Es; try apply sieve_copy_inv in Et; try apply sieve_copy_err in Es; try apply sieve_copy_err in Et; rewrite Es, Et in Ec; try discriminate.
    + injection Ec as Ec. unfold same_sieve, same_sieve0. rewrite Ec. apply (eqv_refl powf qf eps5).
    + now injection Ec.
Qed.
End Local.
