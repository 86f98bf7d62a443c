(** * C30: copies of seeds *)
From Coq Require Import Ascii String List Arith ZArith Bool Reals Permutation Sorting Lia Lra.
From Verif Require Import Num Arr M_Str M_Np M_Prep M_Cache M_Sieve M_PrepObj S_ISS S_Prep S_Sieve
  L_Arr L_Tuples L_Str L_Np L_Prep L_Prep2 L_Sieve L_Sieve2 L_RComp P_Sieve3 P_Copy.
Import ListNotations.

Section Generic.
Context {T : Type} `{Num T}.
Variable parse : pystr -> res T.
Variable qf : T -> list T -> T.
Variable powf : T -> T -> T.
Variable eps0 : T.
(** Every STD in it uses the default std_eps. *)
Fixpoint default_eps (p : prep T) : Prop :=
  match p with
  | PLeaf (LSTD c _) _ => std_eps c = eps0
  | PLeaf _ _ => True | PNew0 _ => True
  | PDim q _ _ => default_eps q | PNew q _ => default_eps q
  end.
Lemma leaf_copy_fit r f X g : leaf_fit eps0 r f X = Ok g -> leaf_copy eps0 g = leaf_copy eps0 f.
Proof.
  destruct f; cbn [leaf_fit]; try (destruct kernel);
    try (match goal with |- (let! _ := ?q in _) = _ -> _ => destruct q; cbn [bind]; [|discriminate] end);
    intros E; injection E as <-; reflexivity.
Qed.
Lemma pr_copy_call p c : pr_copy eps0 (snd (pr_call parse powf eps0 p c)) = pr_copy eps0 p.
Proof.
  destruct c as [r X|X]; unfold pr_call.
  - destruct (pr_fit eps0 r p X) as [x s'] eqn:E. cbn [snd]. revert X x s' E.
    induction p as [f ca|p IH d ca|ca|p IH ca]; intros X x s' E; cbn [pr_fit] in E.
    + destruct (leaf_fit eps0 r f X) as [g|e] eqn:F; injection E as <- <-; cbn [pr_copy]; [now rewrite (leaf_copy_fit _ _ _ _ F)|reflexivity].
    + destruct (mapM (py_index (dimX X)) d) as [dims|e]; [|injection E as <- <-; reflexivity].
      destruct (pr_fit eps0 r p (map (select_dims dims) X)) as [[[]|e] q] eqn:F; injection E as <- <-; cbn [pr_copy]; now rewrite (IH _ _ _ F).
    + injection E as <- <-. reflexivity.
    + destruct (pr_fit eps0 r p X) as [[[]|e] q] eqn:F; injection E as <- <-; cbn [pr_copy]; now rewrite (IH _ _ _ F).
  - destruct (pr_transform parse powf p X) as [x s'] eqn:E. cbn [snd]. revert X x s' E.
    induction p as [f ca|p IH d ca|ca|p IH ca]; intros X x s' E; cbn [pr_transform] in E.
    + destruct (leaf_transform parse powf _ f X); injection E as <- <-; reflexivity.
    + destruct (mapM (py_index (dimX X)) d) as [dims|e]; [|injection E as <- <-; reflexivity].
      destruct (pr_transform parse powf p (map (select_dims dims) X)) as [y q] eqn:F.
      destruct (dim_transform d (fun _ => y) X); injection E as <- <-; cbn [pr_copy]; now rewrite (IH _ _ _ F).
    + destruct (new_transform None X); injection E as <- <-; reflexivity.
    + destruct (pr_transform parse powf p X) as [y q] eqn:F.
      destruct (new_transform (Some (fun _ => y)) X); injection E as <- <-; cbn [pr_copy]; now rewrite (IH _ _ _ F).
Qed.
Lemma pr_copy_after p h : pr_copy eps0 (pr_after parse powf eps0 p h) = pr_copy eps0 p.
Proof.
  revert p. induction h as [|c h IH]; intros p; [reflexivity|].
  unfold pr_after in *. cbn [fold_left]. rewrite IH. apply pr_copy_call.
Qed.
Lemma pr_copy_new p : pr_new p -> default_eps p -> pr_copy eps0 p = p.
Proof.
  induction p as [f ca|p IH d ca|ca|p IH ca]; cbn [pr_new default_eps pr_copy].
  - intros [HN ->] HE. f_equal. destruct f; cbn [leaf_copy leaf_new] in *; subst; try reflexivity.
    f_equal. destruct c; reflexivity.
  - intros [HN ->] HE. now rewrite (IH HN HE).
  - intros ->. reflexivity.
  - intros [HN ->] HE. now rewrite (IH HN HE).
Qed.
(** A copy made after any history of calls (raising or not) is the object as
    it was constructed. *)
Theorem C30_preparateurs p h : pr_new p -> default_eps p -> pr_copy eps0 (pr_after parse powf eps0 p h) = p.
Proof. intros HN HE. rewrite pr_copy_after. now apply pr_copy_new. Qed.

Lemma sv_copy_call order s c : sv_copy order (snd (sv_call parse qf s c)) = sv_copy order s.
Proof.
  destruct c as [r X|X]; unfold sv_call.
  - destruct (sv_fit qf (r_idx r) s X) as [x s'] eqn:E. cbn [snd]. revert X x s' E.
    induction s as [c st ca|c st ca|i IH d k ca|i IH ca]; intros X x s' E; cbn [sv_fit] in E.
    + injection E as <- <-. reflexivity.
    + destruct (ppv_fit qf c (r_idx r) X) as [[[]|e] q]; injection E as <- <-; reflexivity.
    + destruct (wrap_inc d k X X) as [Y|e]; [|injection E as <- <-; reflexivity].
      destruct (sv_fit qf (r_idx r) i Y) as [[[]|e] i1] eqn:F; injection E as <- <-; cbn [sv_copy]; now rewrite (IH _ _ _ F).
    + destruct (sv_fit qf (r_idx r) i (map cumsum X)) as [[[]|e] i1] eqn:F; injection E as <- <-; cbn [sv_copy]; now rewrite (IH _ _ _ F).
  - destruct (sv_transform parse s X) as [x s'] eqn:E. cbn [snd]. revert X x s' E.
    induction s as [c st ca|c st ca|i IH d k ca|i IH ca]; intros X x s' E; cbn [sv_transform] in E.
    + destruct (seg_transform c _ st X) as [[y|e] st']; injection E as <- <-; reflexivity.
    + destruct (ppv_transform c st X); injection E as <- <-; reflexivity.
    + destruct (wrap_inc d k X X) as [Y|e]; [|injection E as <- <-; reflexivity].
      destruct (sv_transform parse i Y) as [[y|e] i1] eqn:F; injection E as <- <-; cbn [sv_copy]; now rewrite (IH _ _ _ F).
    + destruct (sv_transform parse i (map cumsum X)) as [[y|e] i1] eqn:F; injection E as <- <-; cbn [sv_copy]; now rewrite (IH _ _ _ F).
Qed.
Lemma sv_copy_after order s h : sv_copy order (sv_after parse qf s h) = sv_copy order s.
Proof.
  revert s. induction h as [|c h IH]; intros p; [reflexivity|].
  unfold sv_after in *. cbn [fold_left]. rewrite IH. apply sv_copy_call.
Qed.
(** Every segment or increment sieve loses its norm when copied. *)
Theorem C30_segment_sieves_norm order c st ca h :
  sv_copy order (sv_after parse qf (SSeg c st ca) h)
  = Ok (SSeg {| sg_kind := sg_kind c; sg_cut := sg_cut c; sg_q := sg_q c; sg_norm := str "L2" |} None None).
Proof. rewrite sv_copy_after. cbn [sv_copy]. unfold seg_copy, seg_new. destruct (is_inc_kind (sg_kind c)); reflexivity. Qed.
End Generic.
Print Assumptions C30_preparateurs.
Print Assumptions C30_segment_sieves_norm.

Open Scope R_scope.
(** A STD with another std_eps: the copy behaves differently. *)
Theorem C30_std_eps_refuted parse powf (eps0 : R) : eps0 = 1 / 100000 ->
  let p : prep R := PLeaf (LSTD {| std_separately := true; std_var := false; std_eps := 1 |} None) None in
  let X := [[[0; 2]]] in
  pr_new p /\
  fst (pr_transform parse powf p X) = Ok [[[-1/2; 1/2]]] /\
  fst (pr_transform parse powf (pr_copy eps0 p) X) = Ok [[[-100000/100001; 100000/100001]]].
Proof.
  intros ->. cbv zeta. split; [cbn; auto|].
  split; rcompute.
Qed.
Print Assumptions C30_std_eps_refuted.

(** ** PPV and CPV *)
Lemma pair_sorted_unique (b : bool) (l m : list (R * bool)) :
  (forall x, In x l -> snd x = b) ->
  StronglySorted (fun a b => fst a <= fst b) l -> StronglySorted (fun a b => fst a <= fst b) m -> Permutation l m -> l = m.
Proof.
  revert m. induction l as [|x l IH]; intros m HB Hl Hm P.
  - now apply Permutation_nil in P.
  - destruct m as [|y m]; [symmetry in P; now apply Permutation_nil_cons in P|].
    inversion Hl as [|? ? Hl1 Hl2]; inversion Hm as [|? ? Hm1 Hm2]; subst.
    assert (Hy : snd y = b) by (apply HB; eapply Permutation_in; [symmetry; exact P|now left]).
    assert (Hx : snd x = b) by (apply HB; now left).
    assert (x = y).
    { assert (E : fst x = fst y).
      { apply Rle_antisym.
        - assert (K : In y (x :: l)) by (eapply Permutation_in; [symmetry; exact P|now left]).
          destruct K as [->|K]; [lra|]. rewrite Forall_forall in Hl2. auto.
        - assert (K : In x (y :: m)) by (eapply Permutation_in; [exact P|now left]).
          destruct K as [->|K]; [lra|]. rewrite Forall_forall in Hm2. auto. }
      destruct x, y; cbn in *; congruence. }
    subst y. f_equal. apply IH; auto.
    + intros z Hz. apply HB. now right.
    + eapply Permutation_cons_inv, P.
Qed.
Lemma combine_same_flag (l : list R) (fl : list bool) b : length fl = length l -> (forall x, In x fl -> x = b) ->
  combine l fl = map (fun q => (q, b)) l.
Proof.
  revert fl. induction l as [|q l IH]; intros [|f fl] HL HB; try discriminate; [reflexivity|].
  cbn. rewrite (HB f (or_introl eq_refl)). f_equal. apply IH; [now injection HL|]. intros x Hx. apply HB. now right.
Qed.
Lemma combine_split_id {A B} (l : list (A * B)) : combine (map fst l) (map snd l) = l.
Proof. induction l as [|[a b] l IH]; cbn; congruence. Qed.

(** How the PPV/CPV configurations covered by the theorem are made: from
    lists; in segmented form the thresholds are distinct and all flags equal. *)
Definition ppv_listed (c : ppv_cfg R) : Prop :=
  exists quantile constant order,
    ppv_new (pv_components c) quantile constant (pv_segments c) order = Ok c /\
    (pv_segments c = true ->
       NoDup quantile /\ Permutation order quantile /\ exists b, forall f, In f constant -> f = b).
Lemma ppv_copy_same order c : (forall l, Permutation (order l) l) -> ppv_listed c ->
  ppv_new (pv_components c) (map fst (pv_qc c)) (map snd (pv_qc c)) (pv_segments c) (order (map fst (pv_qc c))) = Ok c.
Proof.
  intros HO (q & fl & ord & Hc & HS). destruct (ppv_new_flags _ _ _ _ _ _ Hc) as [Lq [HF [Ec Hn1]]].
  set (segs := pv_segments c) in *. set (cmp := pv_components c) in *.
  assert (EQ : pv_qc c = if segs then qc_sort (combine ord fl) else combine q fl) by now rewrite Ec.
  assert (PQ : forall x, In x (pv_qc c) -> snd x = true \/ is_prob_value (fst x) = true).
  { assert (PC : forall x, In x (combine q fl) -> snd x = true \/ is_prob_value (fst x) = true).
    { intros x Hx. rewrite Forall_forall in HF. destruct (HF x Hx) as [|[Ha Hb]]; [now left|right].
      unfold is_prob_value. destruct (Rleb_spec nzero (fst x)), (Rleb_spec (fst x) nunit); cbn in *; (reflexivity || lra). }
    destruct segs eqn:Sg.
    - destruct (HS eq_refl) as (ND & PO & b & HB). intros x Hx. rewrite EQ in Hx.
      apply (Permutation_in _ (qc_sort_perm _)) in Hx.
      assert (LO : length ord = length q) by now apply Permutation_length.
      rewrite (combine_same_flag ord fl b) in Hx by (congruence || auto).
      apply PC. rewrite (combine_same_flag q fl b) by (congruence || auto).
      apply (Permutation_in _ (Permutation_map _ PO)). exact Hx.
    - intros x Hx. apply PC. now rewrite <- EQ. }
  unfold ppv_new. rewrite !map_length, Nat.eqb_refl. cbn [negb]. rewrite combine_split_id.
  replace (forallb _ (pv_qc c)) with true.
  2:{ symmetry. apply forallb_forall. intros x Hx. apply orb_true_iff. now apply PQ. }
  cbn [negb].
  destruct segs eqn:Sg.
  - destruct (HS eq_refl) as (ND & PO & b & HB).
    assert (LO : length ord = length q) by now apply Permutation_length.
    rewrite (combine_same_flag ord fl b) in EQ by (congruence || auto).
    assert (LQ : length (pv_qc c) = length q).
    { rewrite EQ. rewrite (Permutation_length (qc_sort_perm _)), map_length. exact LO. }
    destruct (Nat.eqb_spec (length (pv_qc c)) 1) as [E1|N1]; [exfalso; apply (Hn1 eq_refl); lia|].
    cbn [andb]. rewrite Ec at 3. f_equal. f_equal.
    assert (BQ : forall x, In x (pv_qc c) -> snd x = b).
    { intros x Hx. rewrite EQ in Hx. apply (Permutation_in _ (qc_sort_perm _)) in Hx. apply in_map_iff in Hx as [y [<- _]]. reflexivity. }
    rewrite (combine_same_flag (order (map fst (pv_qc c))) (map snd (pv_qc c)) b).
    2:{ rewrite (Permutation_length (HO _)), !map_length. reflexivity. }
    2:{ intros f Hf. apply in_map_iff in Hf as [x [<- Hx]]. now apply BQ. }
    rewrite (combine_same_flag ord fl b) by (congruence || auto).
    apply (pair_sorted_unique b).
    + intros x Hx. apply (Permutation_in _ (qc_sort_perm _)) in Hx. apply in_map_iff in Hx as [y [<- _]]. reflexivity.
    + apply qc_sort_sorted.
    + apply qc_sort_sorted.
    + rewrite !qc_sort_perm. apply Permutation_map. rewrite HO, EQ.
      rewrite (Permutation_map fst (qc_sort_perm _)), map_map. cbn. now rewrite map_id.
  - cbn [andb]. rewrite Ec at 2. f_equal. f_equal. exact EQ.
Qed.
(** Sieves: a copy made after any history of calls is the object as it was
    constructed, provided segment sieves use the default norm and PPV/CPV are
    built from lists as above. *)
Fixpoint copy_safe (s : sieve R) : Prop :=
  match s with
  | SSeg c _ _ => sg_norm c = str "L2"
  | SPpv c _ _ => ppv_listed c
  | SInc i _ _ _ => copy_safe i | SInt i _ => copy_safe i
  end.
Theorem C30_sieves parse qf order s h : (forall l, Permutation (order l) l) ->
  sv_new s -> copy_safe s -> sv_copy order (sv_after parse qf s h) = Ok s.
Proof.
  intros HO HN HS. rewrite sv_copy_after. induction s as [c st ca|c st ca|i IH d k ca|i IH ca]; cbn [sv_new copy_safe sv_copy] in *.
  - destruct HN as [-> ->]. unfold seg_copy, seg_new. destruct c as [k cu q nm]. cbn in *. subst nm.
    destruct (is_inc_kind k); reflexivity.
  - destruct HN as [-> ->]. rewrite (ppv_copy_same order c HO HS). reflexivity.
  - destruct HN as [HN ->]. rewrite (IH HN HS). reflexivity.
  - destruct HN as [HN ->]. rewrite (IH HN HS). reflexivity.
Qed.
Print Assumptions C30_sieves.
Example C30_sieves_example (order : list R -> list R) : (forall l, Permutation (order l) l) ->
  exists c, ppv_new (T := R) false [1/2; 2] [true; true] true [2; 1/2] = Ok c /\ ppv_listed c.
Proof.
  intros HO. eexists. split.
  - unfold ppv_new. cbn [length Nat.eqb negb combine forallb snd fst orb andb]. reflexivity.
  - exists [1/2; 2], [true; true], [2; 1/2]. split.
    + unfold ppv_new. cbn [length Nat.eqb negb combine forallb snd fst orb andb pv_components pv_segments]. reflexivity.
    + intros _. repeat split.
      * constructor; [cbn; intros [E|[]]; lra|]. constructor; [intros []|constructor].
      * apply perm_swap.
      * exists true. intros f [<-|[<-|[]]]; reflexivity.
Qed.
(** Outside these conditions: a segmented PPV with one threshold given twice
    can be built but not copied, a single threshold outside [0, 1] likewise. *)
Theorem C30_ppv_copy_raises_refuted (order : list R -> list R) : (forall l, Permutation (order l) l) ->
  (exists c, ppv_new (T := R) false [1/2; 1/2] [true; true] true [1/2] = Ok c /\
     sv_copy order (SPpv c None None) = Err ValueError) /\
  (exists c, ppv_new_scalar (T := R) false 2 false false = Ok c /\
     sv_copy order (SPpv c None None) = Err ValueError).
Proof.
  intros HO. split; eexists; (split; [unfold ppv_new, ppv_new_scalar; cbn [length Nat.eqb negb combine forallb snd fst orb andb]; reflexivity|]).
  - cbn [sv_copy pv_qc pv_components pv_segments qc_sort fold_right qc_insert map fst snd]. unfold ppv_new.
    cbn [length Nat.eqb negb combine forallb snd fst orb andb bind]. reflexivity.
  - cbn [sv_copy pv_qc pv_components pv_segments map fst snd]. unfold ppv_new.
    cbn [length Nat.eqb negb combine forallb snd fst orb andb]. unfold is_prob_value.
    destruct (Rleb_spec 2 nunit) as [L|L]; [cbn in L; lra|]. rewrite andb_false_r. reflexivity.
Qed.
Print Assumptions C30_ppv_copy_raises_refuted.
(** A sieve with norm L1 and its copy give different features. *)
Theorem C30_norm_refuted order :
  let third (_ : pystr) : res R := Ok (1/3) in
  let s := SSeg (seg_new KEND [CutF (str "0.3333333333333333")] None (str "L1")) None None in
  let X := [[0; 1; 5/2]] in
  sv_new s /\ fst (sv_transform third s X) = Ok [[0]] /\
  exists s', sv_copy order s = Ok s' /\ fst (sv_transform third s' X) = Ok [[1]].
Proof.
  cbv zeta. split; [cbn; auto|]. split; [rcompute|]. eexists. split; [reflexivity|]. rcompute.
Qed.
Print Assumptions C30_norm_refuted.
