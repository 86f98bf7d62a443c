(** Preparateurs inside DIM and NEW (C76). *)
From Coq Require Import Ascii String List Arith ZArith Bool RelationClasses Lia.
From Verif Require Import Num Arr M_Str M_Np M_Prep M_Cache M_Sieve M_PrepObj M_Cos M_Fruit M_Seeds
  L_API L_Gen S_Fruit S_Rowwise S_Rowwise2 L_Arr L_Np L_Fruit L_Fruit10 P_Copy L_Seeds L_Seeds2 P_Seeds L_Seeds3 L_Rowwise L_Rowwise2.
Import ListNotations.

Section Wrapped.
Context {T : Type} `{N : Num T}.
Variable parse : pystr -> res T.
Variable powf : T -> T -> T.
Notation shp := (map (@length T)).
Notation dset := (list (list (list T))).


Lemma select_shp dims (x x' : mts T) : shp x = shp x' -> shp (select_dims dims x) = shp (select_dims dims x').
Proof.
  intros E. unfold select_dims. rewrite !map_map. apply map_ext. intros j.
  rewrite <- !(map_nth (@length T)). now rewrite E.
Qed.
Lemma delete_shp dims (x x' : mts T) : shp x = shp x' -> shp (delete_dims dims x) = shp (delete_dims dims x').
Proof.
  intros E. unfold delete_dims. rewrite (dim_shp x x' E). rewrite !map_map. apply map_ext. intros j. rewrite <- !(map_nth (@length T)). now rewrite E.
Qed.
Lemma stretch_shp n (x x' : mts T) : shp x = shp x' -> shp (map (stretch n) x) = shp (map (stretch n) x').
Proof.
  revert x'. induction x as [|r x IH]; intros [|r' x'] E; try discriminate; [reflexivity|]. cbn in E. injection E as E1 E2. cbn [map]. rewrite (IH x' E2). f_equal.
  destruct r as [|v [|v2 r]], r' as [|v' [|v2' r']]; cbn in E1; try discriminate; cbn; rewrite ?repeat_length; congruence.
Qed.
Lemma map_rowshape (f : mts T -> mts T) (X : dset) : (forall x x', shp x = shp x' -> shp (f x) = shp (f x')) -> same_shapes X -> same_shapes (map f X).
Proof. intros Hf S y y' Hy Hy'. apply in_map_iff in Hy as (x & <- & Hx). apply in_map_iff in Hy' as (x' & <- & Hx'). now apply Hf, S. Qed.
Lemma map2_pick {A B C} (f : A -> B -> C) l m a b d sel : (forall i, In i sel -> i < length l /\ i < length m) ->
  map2 f (pick a sel l) (pick b sel m) = pick d sel (map2 f l m).
Proof.
  intros Hs. unfold pick. induction sel as [|i sel IH]; [reflexivity|]. cbn [map map2]. rewrite IH by (intros j Hj; apply Hs; now right). f_equal.
  destruct (Hs i (or_introl eq_refl)) as (L1 & L2). clear - L1 L2. revert m i L1 L2. induction l as [|x l IH]; intros [|y m] i L1 L2; cbn in *; try lia. destruct i; [reflexivity|]. apply IH; lia.
Qed.
(** A row-wise function whose values are combined with the series themselves. *)
Lemma rowfun_with (F : dset -> dset -> res dset) (cond : nat -> nat -> bool) (G : nat -> nat -> mts T -> mts T -> mts T) e : rowfun F ->
  (forall l d x x' y y', shp x = shp x' -> shp y = shp y' -> shp (G l d x y) = shp (G l d x' y')) ->
  rowfun (fun c X => let! Y := F c X in if cond (lenX X) (lenX Y) then Ok (map2 (G (lenX X) (dimX X)) X Y) else Err e).
Proof.
  intros HF HG c X sel Z Sc SX L P E. destruct (F c X) as [Y|e0] eqn:Ey; [|discriminate]. cbn [bind] in E.
  destruct (HF c X sel Y Sc SX L P Ey) as (LY & SY & EY). rewrite EY. cbn [bind].
  destruct (lenX_pick sel X SX P) as (-> & ->). assert (PY : picks (length Y) sel) by now rewrite LY. destruct (lenX_pick sel Y SY PY) as (-> & _).
  destruct (cond (lenX X) (lenX Y)); [|discriminate]. injection E as <-. split; [rewrite map2_len; lia|]. split.
  - intros z z' Hz Hz'. apply In_nth with (d := []) in Hz as (i & Hi & <-). apply In_nth with (d := []) in Hz' as (j & Hj & <-). rewrite map2_len in Hi, Hj.
    rewrite !(map2_nth _ _ _ _ [] [] []) by lia. apply HG; [apply SX|apply SY]; apply nth_In; lia.
  - f_equal. apply map2_pick. intros i Hi. destruct P as (_ & P). specialize (P i Hi). lia.
Qed.
Lemma new_rowfun (F : dset -> dset -> res dset) : rowfun F -> rowfun (fun c X => new_transform (Some (fun _ => F c X)) X).
Proof.
  intros HF.
  pose proof (rowfun_with F (fun lx ly => (lx =? ly) || (ly =? 1)) (fun l _ x y => x ++ map (stretch l) y) ValueError HF) as R.
  assert (Hs : forall (l d : nat) (x x' y y' : mts T), shp x = shp x' -> shp y = shp y' -> shp (x ++ map (stretch l) y) = shp (x' ++ map (stretch l) y')).
  { intros l d x x' y y' E1 E2. rewrite !map_app, E1. f_equal. now apply stretch_shp. }
  specialize (R Hs). intros c X sel Z Sc SX L P E. 
  assert (Q : forall X' c' Y, F c' X' = Ok Y -> length Y = length X' -> new_transform (Some (fun _ => F c' X')) X' =
    (let! Y := F c' X' in if (lenX X' =? lenX Y) || (lenX Y =? 1) then Ok (map2 (fun x y => x ++ map (stretch (lenX X')) y) X' Y) else Err ValueError)).
  { intros X' c' Y EY LY. unfold new_transform. rewrite EY. cbn [bind]. rewrite LY, Nat.eqb_refl. reflexivity. }
  destruct (F c X) as [Y|e] eqn:EY; [|unfold new_transform in E; rewrite ?EY in E; discriminate E].
  destruct (HF c X sel Y Sc SX L P EY) as (LY & _ & EYp).
  rewrite <- EY in E. rewrite (Q X c Y EY LY) in E. destruct (R c X sel Z Sc SX L P E) as (A & B & D). split; [exact A|]. split; [exact B|].
  rewrite (Q _ _ _ EYp) by now rewrite !pick_length. exact D.
Qed.
Lemma dim_rowfun dim (F : dset -> dset -> res dset) : rowfun F ->
  rowfun (fun c X => match mapM (py_index (dimX X)) dim with
                     | Err e => Err e
                     | Ok dims => dim_transform dim (fun _ => F c (map (select_dims dims) X)) X end).
Proof.
  intros HF c X sel Z Sc SX L P E. destruct (lenX_pick sel X SX P) as (El & Ed). rewrite Ed.
  destruct (mapM (py_index (dimX X)) dim) as [dims|e] eqn:Em; [|discriminate].
  set (F' := fun c X => F c (map (select_dims dims) X)).
  assert (HF' : rowfun F').
  { intros c0 X0 sel0 Y0 Sc0 SX0 L0 P0 E0. unfold F' in *. assert (S' : same_shapes (map (select_dims dims) X0)) by (apply map_rowshape; [apply select_shp|exact SX0]).
    destruct (HF c0 _ sel0 Y0 Sc0 S') with (3 := E0) as (A & B & D); [now rewrite map_length|now rewrite map_length|]. rewrite map_length in A. split; [exact A|]. split; [exact B|].
    rewrite <- D. f_equal. symmetry. apply pick_map. apply P0. }
  pose proof (rowfun_with F' Nat.eqb (fun _ _ x y => delete_dims dims x ++ y) ValueError HF') as R.
  assert (Hs : forall (l d : nat) (x x' y y' : mts T), shp x = shp x' -> shp y = shp y' -> shp (delete_dims dims x ++ y) = shp (delete_dims dims x' ++ y')).
  { intros _ _ x x' y y' E1 E2. rewrite !map_app, E2, (delete_shp dims x x' E1). reflexivity. }
  specialize (R Hs).
  assert (Q : forall X' c' Y, dimX X' = dimX X -> F' c' X' = Ok Y -> length Y = length X' -> dim_transform dim (fun _ => F c' (map (select_dims dims) X')) X' =
    (let! Y := F' c' X' in if lenX X' =? lenX Y then Ok (map2 (fun x y => delete_dims dims x ++ y) X' Y) else Err ValueError)).
  { intros X' c' Y D EY LY. unfold dim_transform. rewrite D, Em. cbn [bind]. fold (F' c' X'). rewrite EY. cbn [bind]. unfold same_len. rewrite LY, Nat.eqb_refl. reflexivity. }
  destruct (F' c X) as [Y|e] eqn:EY.
  2: { unfold dim_transform in E. rewrite Em in E. cbn [bind] in E. fold (F' c X) in E. rewrite EY in E. discriminate. }
  destruct (HF' c X sel Y Sc SX L P EY) as (LY & _ & EYp). rewrite (Q X c Y eq_refl EY LY) in E.
  destruct (R c X sel Z Sc SX L P E) as (A & B & D). split; [exact A|]. split; [exact B|]. rewrite (Q _ _ _ Ed EYp) by now rewrite !pick_length. exact D.
Qed.

(** The result does not depend on the cache... *)
Lemma own_cache p ca : own_prep p -> forall X, fst (pr_transform parse powf (pr_set_cache p ca) X) = fst (pr_transform parse powf p X).
Proof.
  destruct p as [f ca'|q d ca'|ca'|q ca']; cbn [pr_set_cache pr_transform pr_cache own_prep]; intros Hp X.
  - assert (Q : forall i i', leaf_transform parse powf i f X = leaf_transform parse powf i' f X) by (intros i i'; destruct f as [| | | | | | | | |? ? ? [k|] ?| | | | | | | |]; try reflexivity; destruct Hp).
    rewrite (Q (match ca with Some i => i | None => X end) (match ca' with Some i => i | None => X end)). now destruct (leaf_transform parse powf _ f X).
  - destruct (mapM _ d); [|reflexivity]. destruct (pr_transform parse powf q _). now destruct (dim_transform _ _ _).
  - reflexivity.
  - destruct (pr_transform parse powf q X). now destruct (new_transform _ _).
Qed.
Lemma own_rowfun p : own_prep p -> rowfun (fun _ X => fst (pr_transform parse powf p X)).
Proof.
  induction p as [f ca|q IH d ca|ca|q IH ca]; cbn [own_prep]; intros Hp.
  - assert (L : rowfun (fun c X => leaf_transform parse powf c f X)) by (apply leaf_rowfun; destruct f; try exact Logic.I; exact Hp).
    eapply rowfun_ext; [|exact L]. intros c X. rewrite <- (own_cache (PLeaf f ca) (Some c) Hp X). cbn [pr_set_cache pr_transform pr_cache]. now destruct (leaf_transform parse powf c f X).
  - eapply rowfun_ext; [|exact (dim_rowfun d _ (IH Hp))]. intros c X. cbn [pr_transform pr_cache]. destruct (mapM _ d) as [dims|e]; [|reflexivity].
    destruct (pr_transform parse powf q (map (select_dims dims) X)) as [r q'] eqn:Eq. cbn [fst]. now destruct (dim_transform d (fun _ => r) X).
  - apply (rowfun_ext (fun _ X => Ok (map (fun x => x ++ x) X))); [reflexivity|]. apply rowfun_map. intros x x' E. now rewrite !map_app, E.
  - eapply rowfun_ext; [|exact (new_rowfun _ (IH Hp))]. intros c X. cbn [pr_transform pr_cache].
    destruct (pr_transform parse powf q X) as [r q'] eqn:Eq. cbn [fst]. now destruct (new_transform (Some (fun _ => r)) X).
Qed.
Lemma row_prep_rowfun p : row_prep p -> rowfun (fun c X => fst (pr_transform parse powf (pr_set_cache p (Some c)) X)).
Proof.
  intros Hp. destruct p as [f ca|q d ca|ca|q ca]; cbn [row_prep] in Hp.
  - assert (R : rowfun (fun c X => leaf_transform parse powf c f X)) by (apply leaf_rowfun; destruct f; try exact Logic.I; exact Hp).
    eapply rowfun_ext; [|exact R].
    intros c X. cbn [pr_set_cache pr_transform pr_cache]. now destruct (leaf_transform parse powf c f X).
  - eapply rowfun_ext; [|exact (own_rowfun (PDim q d ca) Hp)]. intros c X. cbv beta. symmetry. exact (own_cache (PDim q d ca) (Some c) Hp X).
  - eapply rowfun_ext; [|exact (own_rowfun (PNew0 ca) Hp)]. intros c X. reflexivity.
  - eapply rowfun_ext; [|exact (own_rowfun (PNew q ca) Hp)]. intros c X. cbv beta. symmetry. exact (own_cache (PNew q ca) (Some c) Hp X).
Qed.

(** ** Kept by fitting, transforming and copying *)
Variable eps5 : T.
Lemma own_set_cache (p : prep T) ca : own_prep p -> own_prep (pr_set_cache p ca).
Proof. now destruct p. Qed.
Lemma leaf_fit_own r f f' X : leaf_fit eps5 r f X = Ok f' -> own_leaf f -> own_leaf f'.
Proof.
  intros E Hf. destruct f as [| | | | | |? ? ? ? [k|]| | |? ? ? [k|]| | | | | | | |]; cbn in E; try (injection E as <-; exact Logic.I || exact Hf);
    match type of E with (let! _ := ?m in _) = _ => destruct m; [|discriminate] end; injection E as <-; exact Logic.I.
Qed.
Lemma leaf_fit_row r f f' X : leaf_fit eps5 r f X = Ok f' -> (match f with LFUN g => rowfun (fun _ => g) | _ => True end) -> match f' with LFUN g => rowfun (fun _ => g) | _ => True end.
Proof.
  intros E Hf. destruct f as [| | | | | |? ? ? ? [k|]| | |? ? ? [k|]| | | | | | | |]; cbn in E; try (injection E as <-; exact Logic.I || exact Hf);
    match type of E with (let! _ := ?m in _) = _ => destruct m; [|discriminate] end; injection E as <-; exact Logic.I.
Qed.
Lemma own_fit r p : forall X, own_prep p -> own_prep (snd (pr_fit eps5 r p X)).
Proof.
  induction p as [f ca|q IH d ca|ca|q IH ca]; intros X Hp; cbn [own_prep pr_fit pr_cache] in *.
  - destruct (leaf_fit eps5 r f X) as [f'|e] eqn:E; [exact (leaf_fit_own r f f' X E Hp)|exact Hp].
  - destruct (mapM _ d) as [dims|e]; [|exact Hp]. specialize (IH (map (select_dims dims) X) Hp). now destruct (pr_fit eps5 r q _) as [[u|e] q'].
  - exact Logic.I.
  - specialize (IH X Hp). now destruct (pr_fit eps5 r q X) as [[u|e] q'].
Qed.
Lemma own_transform p : forall X, own_prep p -> own_prep (snd (pr_transform parse powf p X)).
Proof.
  induction p as [f ca|q IH d ca|ca|q IH ca]; intros X Hp; cbn [own_prep pr_transform pr_cache] in *.
  - now destruct (leaf_transform parse powf _ f X).
  - destruct (mapM _ d) as [dims|e]; [|exact Hp]. specialize (IH (map (select_dims dims) X) Hp). destruct (pr_transform parse powf q _) as [r q']. now destruct (dim_transform _ _ _).
  - now destruct (new_transform None X).
  - specialize (IH X Hp). destruct (pr_transform parse powf q X) as [r q']. now destruct (new_transform _ _).
Qed.
Lemma own_copy p : own_prep p -> own_prep (pr_copy eps5 p).
Proof. induction p as [f ca|q IH d ca|ca|q IH ca]; cbn; auto. intros Hp. destruct f; try exact Logic.I; exact Hp. Qed.
Lemma row_fit r p X : row_prep p -> row_prep (snd (pr_fit eps5 r p X)).
Proof.
  destruct p as [f ca|q d ca|ca|q ca]; intros Hp; cbn [pr_fit pr_cache].
  - destruct (leaf_fit eps5 r f X) as [f'|e] eqn:E; [|exact Hp]. cbn [snd row_prep] in *. exact (leaf_fit_row r f f' X E Hp).
  - destruct (mapM _ d) as [dims|e]; [|exact Hp]. pose proof (own_fit r q (map (select_dims dims) X) Hp). now destruct (pr_fit eps5 r q _) as [[u|e] q'].
  - exact Logic.I.
  - pose proof (own_fit r q X Hp). now destruct (pr_fit eps5 r q X) as [[u|e] q'].
Qed.
Lemma row_transform p X : row_prep p -> row_prep (snd (pr_transform parse powf p X)).
Proof.
  destruct p as [f ca|q d ca|ca|q ca]; intros Hp; cbn [pr_transform pr_cache].
  - now destruct (leaf_transform parse powf _ f X).
  - destruct (mapM _ d) as [dims|e]; [|exact Hp]. pose proof (own_transform q (map (select_dims dims) X) Hp). destruct (pr_transform parse powf q _) as [r q']. now destruct (dim_transform _ _ _).
  - now destruct (new_transform None X).
  - pose proof (own_transform q X Hp). destruct (pr_transform parse powf q X) as [r q']. now destruct (new_transform _ _).
Qed.
Lemma row_copy p : row_prep p -> row_prep (pr_copy eps5 p).
Proof. destruct p as [f ca|q d ca|ca|q ca]; cbn; auto; [|apply own_copy|apply own_copy]. intros Hp. destruct f; try exact Logic.I; exact Hp. Qed.
End Wrapped.
