(** Evaluation of [transform] for slices and fruits. *)
From Coq Require Import Ascii String List Arith ZArith Bool RelationClasses Lia.
From Verif Require Import Num Arr M_Str M_Words M_Np M_Prep M_Fruit S_Fruit L_Arr L_Fruit L_Fruit6.
Import ListNotations.

Section Eval.
Context {T : Type} `{Num T}.
Variable K : kit T.
Notation heap := (heap K).
Variable W : lawful K.

Lemma last_nil_irrel {A} (l : list A) d d' : l <> [] -> last l d = last l d'.
Proof. induction l as [|x [|y l] IH]; intros E; [contradiction|reflexivity|]. cbn [last] in *. apply IH. discriminate. Qed.
Lemma last_cons' {A} (x : A) l d : last (x :: l) d = last l x.
Proof. destruct l as [|y l]; [reflexivity|]. change (last (x :: y :: l) d) with (last (y :: l) d). apply last_nil_irrel. discriminate. Qed.
Lemma ev_preps_ok c ps X Y evs : ev_preps K c ps X = Ok (Y, evs) <->
  exists Zs, stages K c ps X Zs /\ Y = last Zs X /\ evs = map EPrep Zs.
Proof.
  revert X Y evs. induction ps as [|p ps IH]; intros X Y evs; cbn [ev_preps stages].
  - split.
    + intros E. injection E as <- <-. exists []. auto.
    + intros ([|] & E & -> & ->); [reflexivity|contradiction].
  - split.
    + destruct (fst (p_transform K X (p_attach K c p))) as [Z|e]; [|discriminate]. intros E.
      destruct (ev_preps K c ps Z) as [[A e1]|e] eqn:Ep; [|discriminate]. injection E as <- <-.
      apply IH in Ep as (Zs & E1 & -> & ->). exists (Z :: Zs). split; [auto|]. split; [|reflexivity]. symmetry. apply last_cons'.
    + intros ([|Z Zs] & E & -> & ->); [contradiction|]. destruct E as (-> & E).
      assert (Ep : ev_preps K c ps Z = Ok (last Zs Z, map EPrep Zs)) by (apply IH; eauto).
      rewrite Ep, last_cons'. reflexivity.
Qed.
Lemma ev_itsums_Ok c get i its kA r : ev_itsums K c get i its kA = Ok r -> exists Ys, its = map Ok Ys.
Proof.
  revert i kA r. induction its as [|[Y|e] its IH]; intros i kA r E; cbn in E; [exists []; reflexivity| |discriminate].
  destruct (get i) as [l|]; [|discriminate]. destruct (ev_sieves K c l Y kA) as [[kA' e1]|]; [|discriminate].
  destruct (ev_itsums K c get (S i) its kA') as [[x e2]|] eqn:Ei; [|discriminate].
  destruct (IH _ _ _ Ei) as (Ys & ->). exists (Y :: Ys). reflexivity.
Qed.
Lemma ev_ns_ok is ns : ev_ns K is = Ok ns <-> Forall2 (fun i n => i_n K i = Ok n) is ns.
Proof.
  unfold ev_ns. revert ns. induction is as [|i is IH]; intros ns; cbn [mapM].
  - split; [intros E; injection E as <-; constructor|inversion 1; reflexivity].
  - split.
    + destruct (i_n K i) as [n|e] eqn:Ei; [|discriminate]. cbn. destruct (mapM (i_n K) is) as [l|e]; [|discriminate]. intros E. injection E as <-.
      constructor; [exact Ei|]. now apply IH.
    + inversion 1 as [|? n ? ns' Hn F]; subst. rewrite Hn. cbn. apply IH in F. now rewrite F.
Qed.
Definition good_get (svs : list (sieveT K)) (ext : list (list (sieveT K))) : Prop :=
  forall j l, getter K svs ext j = Ok l -> (forall s, In s l -> sieve_shaped K s) /\ map (s_nf K) l = map (s_nf K) svs.
Lemma stages_rows c ps X Zs : length c = length X -> (forall p, In p ps -> prep_rows K p) -> stages K c ps X Zs -> length (last Zs X) = length X.
Proof.
  revert X Zs. induction ps as [|p ps IH]; intros X [|Z Zs] Lc E St; cbn in St; try contradiction; [reflexivity|].
  destruct St as (E1 & St). pose proof (E p (or_introl eq_refl) c X Z Lc E1) as LZ.
  rewrite last_cons', (IH Z Zs); [exact LZ|congruence|intros; apply E; now right|exact St].
Qed.
Lemma ev_slice_ok c X ps is svs ext A evs : length c = length X -> (forall p, In p ps -> prep_rows K p) -> (forall i, In i is -> iss_exact K i) -> good_get svs ext ->
  ev_slice K c X ps is svs ext = Ok (A, evs) <-> exists Zs ns Ys Rss,
   stages K c ps X Zs /\ Forall2 (fun i n => i_n K i = Ok n) is ns /\
   iterate_iss K (map (i_attach K c) is) (last Zs X) = map Ok Ys /\
   all_outs K c (getter K svs ext) 0 Ys = Ok Rss /\
   A = hfold (repeat [] (length (last Zs X))) (concat Rss) /\
   evs = map EPrep Zs ++ [EPrepEnd (last Zs X)] ++
     itsum_events K (getter K svs ext) 0 (nsieves K svs * fold_right Nat.mul 1 ns) 0 (repeat [] (length (last Zs X))) Ys Rss ++ [ESieveEnd A].
Proof.
  intros Lc Pr Ex G.
  assert (Main : forall Zs ns Ys, stages K c ps X Zs -> Forall2 (fun i n => i_n K i = Ok n) is ns ->
     iterate_iss K (map (i_attach K c) is) (last Zs X) = map Ok Ys ->
     ev_itsums K c (getter K svs ext) 0 (map Ok Ys) (0, repeat (repeat nzero (nsieves K svs * fold_right Nat.mul 1 ns)) (length (last Zs X))) =
     match all_outs K c (getter K svs ext) 0 Ys with
     | Ok Rss => Ok ((length Ys * nsieves K svs, hfold (repeat [] (length (last Zs X))) (concat Rss)),
                     itsum_events K (getter K svs ext) 0 (nsieves K svs * fold_right Nat.mul 1 ns) 0 (repeat [] (length (last Zs X))) Ys Rss)
     | Err e => Err e
     end).
  { intros Zs ns Ys St Fn EY. pose proof (stages_rows c ps X Zs Lc Pr St) as LX. destruct (iterate_iss_spec K W c is ns Fn Ex _ _ (eq_trans LX (eq_sym Lc)) EY) as (LY & FY & _).
    rewrite padded_zero.
    assert (LN : length Ys * nsieves K svs = nsieves K svs * fold_right Nat.mul 1 ns) by (rewrite LY; lia).
    rewrite (ev_itsums_eq K c (getter K svs ext) 0 Ys (length (last Zs X)) 0 _ _ (nsieves K svs)); [|congruence|apply shape_zero|exact FY| |lia].
    2:{ intros j l Hl. destruct (G j l Hl) as (Sh & En). split; [exact Sh|]. unfold nsieves. now rewrite En. }
    destruct (all_outs K c (getter K svs ext) 0 Ys) as [Rss|e] eqn:Ea; [|reflexivity].
    destruct (all_outs_shape K c _ 0 Ys Rss _ (eq_trans Lc (eq_sym LX)) FY Ea (map (s_nf K) svs) G) as (_ & Sh & _).
    do 2 f_equal. cbn [Nat.add]. f_equal. apply (padded_full (length (last Zs X))).
    pose proof (hfold_shape _ _ _ _ _ (shape_zero (length (last Zs X))) Sh) as Sf. rewrite <- LN. clear - Sf. cbn in Sf.
    replace (length Ys * nsieves K svs) with (list_sum (concat (repeat (map (s_nf K) svs) (length Ys)))); [exact Sf|].
    unfold nsieves. clear. induction (length Ys) as [|n IH]; [reflexivity|]. cbn [repeat concat]. rewrite list_sum_app, IH. cbn. lia. }
  unfold ev_slice. split.
  - destruct (ev_preps K c ps X) as [[Y e1]|e] eqn:Ep; [|discriminate]. apply ev_preps_ok in Ep as (Zs & St & -> & ->).
    destruct (ev_ns K is) as [ns|e] eqn:En; [|discriminate]. apply ev_ns_ok in En.
    destruct (ev_itsums K c _ 0 _ _) as [[kA e2]|e] eqn:Ei; [|discriminate]. intros E. injection E as <- <-.
    destruct (ev_itsums_Ok _ _ _ _ _ _ Ei) as (Ys & EY). rewrite EY, (Main Zs ns Ys St En EY) in Ei.
    destruct (all_outs K c _ 0 Ys) as [Rss|e] eqn:Ea; [|discriminate]. injection Ei as <- <-. cbn [snd].
    exists Zs, ns, Ys, Rss. auto 10.
  - intros (Zs & ns & Ys & Rss & St & En & EY & Ea & -> & ->).
    assert (Ep : ev_preps K c ps X = Ok (last Zs X, map EPrep Zs)) by (apply ev_preps_ok; eauto). rewrite Ep.
    pose proof En as En'. apply ev_ns_ok in En'. rewrite En', EY, (Main Zs ns Ys St En EY), Ea. reflexivity.
Qed.
End Eval.
