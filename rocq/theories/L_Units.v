(** Lemmas for C101: units of measurement and normalisation. *)
From Coq Require Import Ascii String List Arith ZArith Bool Lia Reals Lra.
From Verif Require Import Num Arr L_Arr M_Str M_Semiring M_Words M_ISS M_Np M_Prep M_Cache M_Sieve M_PrepObj M_Cos M_Fruit M_Seeds L_Prep2 L_Scale L_Offset L_Offset2.
Import ListNotations.
Local Open Scope R_scope.

(** Every dimension of every series multiplied by its own positive factor. *)
Definition unit_row (r r' : list R) : Prop := exists k, 0 < k /\ r' = map (Rmult k) r.
Definition unit_data (X X' : dataset R) : Prop := Forall2 (Forall2 unit_row) X X'.
(** Units and then offsets. *)
Definition affine (X X' : dataset R) : Prop := exists Y, unit_data X Y /\ off Y X'.
Definition prop_sums (c c' : dataset R) : Prop := Forall2 unit_row (L1_sum c) (L1_sum c') /\ Forall2 unit_row (L2_sum c) (L2_sum c').

Lemma unit_refl r : unit_row r r.
Proof. exists 1. split; [lra|]. rewrite (map_ext (Rmult 1) (fun v => v)) by (intros; ring). now rewrite map_id. Qed.
Lemma prop_refl c : prop_sums c c.
Proof. split; apply F2_refl; exact unit_refl. Qed.
Lemma unit_first x x' : Forall2 unit_row x x' -> unit_row (inc_first x) (inc_first x').
Proof.
  intros F. assert (E : unit_row (nth 0 x []) (nth 0 x' [])) by (destruct F; [apply unit_refl|assumption]). destruct E as [k [Hk E]]. exists k. split; [exact Hk|].
  unfold inc_first. rewrite E, sc_increments. destruct (increments1 1 (nth 0 x [])); reflexivity.
Qed.
Lemma unit_sums X X' : unit_data X X' -> prop_sums X X'.
Proof.
  intros F. unfold prop_sums, L1_sum, L2_sum. induction F as [|x x' X X' Hx _ [IH1 IH2]]; cbn [map]; [split; constructor|].
  destruct (unit_first _ _ Hx) as [k [Hk E]]. split; (constructor; [|assumption]).
  - exists k. split; [exact Hk|]. rewrite E, <- sc_cumsum. f_equal. rewrite !map_map. apply map_ext. intros v. rewrite abs_sc. now rewrite Rabs_pos_eq by lra.
  - exists (k * k). split; [nra|]. now rewrite E, sc_squares, <- sc_cumsum.
Qed.
Lemma affine_sums X X' : affine X X' -> prop_sums X X'.
Proof. intros (Y & HU & HO). destruct (unit_sums _ _ HU) as [E1 E2], (off_sums _ _ HO) as [E3 E4]. split; congruence. Qed.
Lemma unit_coquantile q Y Y' : Forall2 unit_row Y Y' -> @coquantile R RNum q Y = coquantile q Y'.
Proof. unfold coquantile. induction 1 as [|y y' Y Y' (k & Hk & ->) _ IH]; cbn [map]; [reflexivity|]. now rewrite coquantile_sc, IH. Qed.
Lemma cache_prop parse (c c' : dataset R) key : prop_sums c c' -> cache_fresh parse c COQUANTILE key = cache_fresh parse c' COQUANTILE key.
Proof.
  intros [E1 E2]. unfold cache_fresh, compute. destruct (split_on colon key) as [|a [|norm [|z r]]]; try reflexivity.
  destruct (parse a) as [q|e]; [|reflexivity]. cbn [bind]. now rewrite (unit_coquantile q _ _ E1), (unit_coquantile q _ _ E2).
Qed.
(** Preparateurs that do not read sums of the raw input (only SPE with a step does). *)
Definition no_step (f : leaf R) : Prop := match f with LSPE _ _ _ (Some _) _ => False | _ => True end.
Lemma leaf_prop parse powf c c' f X : no_step f -> prop_sums c c' -> leaf_transform parse powf c f X = leaf_transform parse powf c' f X.
Proof.
  intros N E. destruct f; cbn [leaf_transform no_step] in *; try reflexivity.
  - unfold spe_run. destruct step; [contradiction|reflexivity].
  - unfold win_run. now rewrite !(cache_prop parse c c' _ E).
Qed.
Lemma no_step_fit eps5 r f X f' : no_step f -> leaf_fit eps5 r f X = Ok f' -> no_step f'.
Proof.
  intros N E. destruct f; cbn [leaf_fit] in E; try (injection E as <-; exact N);
    repeat match type of E with
           | match ?u with Some _ => _ | None => _ end = _ => destruct u
           | bind ?u _ = _ => destruct u; cbn [bind] in E; [|discriminate]
           end; injection E as <-; exact N.
Qed.
(** Weightings that do not read the raw input. *)
Definition not_raw (k : @wkind R) : Prop := match k with WLp _ prepared _ _ _ => prepared = true | _ => True end.
Lemma wt_prop eps5 c c' k X : not_raw k -> prop_sums c c' -> wt_lookup eps5 c k X = wt_lookup eps5 c' k X.
Proof. intros N _. destruct k; cbn [wt_lookup not_raw] in *; try reflexivity. now rewrite N. Qed.

Lemma unit_nrm_row k mn mx x : 0 < k -> @nrm_row R RNum (k * mn) (k * mx) (map (Rmult k) x) = nrm_row mn mx x.
Proof.
  intros Hk. unfold nrm_row. assert (E : @neqb R RNum (k * mn) (k * mx) = neqb mn mx) by (destruct (Reqb_spec' mn mx), (Reqb_spec' (k * mn) (k * mx)); try reflexivity; [exfalso; congruence|exfalso; match goal with H : _ <> _ |- _ => apply H; apply (Rmult_eq_reg_l k); [assumption|lra] end]).
  rewrite E, map_length, map_map. destruct (Reqb_spec' mn mx) as [->|N]; [reflexivity|]. apply map_ext. intros v. cbn [nsub ndiv RNum]. replace (k * v - k * mn) with (k * (v - mn)) by ring. replace (k * mx - k * mn) with (k * (mx - mn)) by ring. field. split; lra.
Qed.
Lemma unit_nrm x x' : Forall2 unit_row x x' -> @nrm_sample R RNum false x' = nrm_sample false x.
Proof.
  intros F. unfold nrm_sample. cbv iota.
  assert (G : match mapM vmin x, mapM vmin x', mapM vmax x, mapM vmax x' with
     | Ok a, Ok a', Ok b, Ok b' =>
        map (fun p => @nrm_row R RNum (fst (fst p)) (snd (fst p)) (snd p)) (combine (combine a' b') x') = map (fun p => nrm_row (fst (fst p)) (snd (fst p)) (snd p)) (combine (combine a b) x)
     | Err e, Err e', Err _, Err _ => e = e'
     | _, _, _, _ => False end).
  { induction F as [|r r' x x' (k & Hk & ->) _ IH]; cbn [mapM]; [reflexivity|]. rewrite vmin_sc, vmax_sc by exact Hk. destruct r as [|u r]; [cbn; reflexivity|].
    cbn [vmin vmax rmap bind]. set (mn := fold_left nmin r u). set (mx := fold_left nmax r u). set (r0 := u :: r).
    destruct (mapM vmin x), (mapM vmin x'), (mapM vmax x), (mapM vmax x'); cbn [bind] in *; try contradiction; auto.
    cbn [combine map fst snd]. now rewrite unit_nrm_row, IH. }
  destruct (mapM vmin x), (mapM vmin x'), (mapM vmax x), (mapM vmax x'); cbn [bind] in *; try contradiction; congruence.
Qed.
Definition normalises (f : leaf R) : Prop := match f with LNRM scale_dim => scale_dim = false | _ => False end.
Section Units.
Variable parse : pystr -> res R.
Variable powf : R -> R -> R.
Variable eps5 : R.
Lemma nrm_blind inp inp' f X X' : normalises f -> affine X X' -> leaf_transform parse powf inp' f X' = leaf_transform parse powf inp f X.
Proof.
  intros B (Y & HU & HO). assert (B' : blind f) by (destruct f; try contradiction; exact B).
  rewrite (blind_transform parse powf inp inp' f Y X' B' HO). destruct f; cbn [normalises] in B; try contradiction; subst. cbn [leaf_transform].
  clear - HU. unfold nrm_transform. induction HU as [|x x' X X' Hx _ IH]; cbn [mapM]; [reflexivity|]. now rewrite (unit_nrm _ _ Hx), IH.
Qed.
Lemma nrm_fit r f X : normalises f -> leaf_fit eps5 r f X = Ok f.
Proof. destruct f; cbn [normalises]; try contradiction. reflexivity. Qed.
Lemma affine_length X X' : affine X X' -> length X = length X'.
Proof. intros (Y & HU & HO). rewrite (F2_length _ _ _ HU). now apply off_length. Qed.
Lemma affine_sub X X' (l : list nat) : affine X X' -> affine (map (fun i => nth i X []) l) (map (fun i => nth i X' []) l).
Proof.
  intros (Y & HU & HO). exists (map (fun i => nth i Y []) l). split; [|now apply off_sub_list].
  unfold unit_data. induction l as [|i l IH]; cbn [map]; constructor; [|exact IH]. clear - HU. revert i. induction HU as [|x x' X X' Hx _ IH]; intros [|i]; cbn [nth]; auto.
Qed.
Definition units_sim W qf order show_prep show_cut show_q show_num show_ppv :=
  library_sim W parse powf qf eps5 order show_prep show_cut show_q show_num show_ppv prop_sums affine normalises no_step not_raw
    prop_refl (cache_prop parse) (leaf_prop parse powf) (no_step_fit eps5) (wt_prop eps5) affine_sums affine_length affine_sub nrm_blind nrm_fit.
End Units.
