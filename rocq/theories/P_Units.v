(** C101: units of measurement.  In a fruit all of whose slices begin with
    NRM(scale_dim=False), measuring every dimension of every series in units of
    its own (a positive factor and an offset) makes no difference to anybody, if
    no weighting and no SPE reads the sums of the raw input. *)
From Coq Require Import Ascii String List Arith ZArith Bool Lia Reals Lra.
From Verif Require Import Num Arr M_Str M_Semiring M_Words M_ISS M_Np M_Prep M_Cache M_Sieve M_PrepObj M_Cos M_Fruit M_Seeds S_Fruit L_Prep2 L_Offset L_Offset2 L_Units P_Offset.
Import ListNotations.
Local Open Scope R_scope.

(** [X'] is [X] with another unit and another zero in every dimension of every series. *)
Definition other_units (X X' : dataset R) : Prop :=
  length X' = length X /\
  forall i, (i < length X)%nat -> length (nth i X' []) = length (nth i X []) /\
    forall j, (j < length (nth i X []))%nat -> exists a k, 0 < k /\ nth j (nth i X' []) [] = map (fun v => a + k * v) (nth j (nth i X []) []).
(** SPE with a step ("L1" or "L2") takes its time from the sums of the raw input. *)
Fixpoint own_time (p : prep R) : Prop :=
  match p with
  | PLeaf (LSPE _ _ _ (Some _) _) _ => False
  | PLeaf _ _ | PNew0 _ => True
  | PDim q _ _ | PNew q _ => own_time q
  end.
(** L1 and L2 weightings with on_prepared=False read the sums of the raw input. *)
Definition own_weights (i : issO R) : Prop :=
  match i with
  | IPlain c _ => match io_wt c with Some (WLp _ on_prepared _ _ _, _) => on_prepared = true | _ => True end
  | ICos _ _ _ => True
  end.

Lemma F2_ext {A B} (da : A) (db : B) (P : A -> B -> Prop) l l' : length l' = length l -> (forall i, (i < length l)%nat -> P (nth i l da) (nth i l' db)) -> Forall2 P l l'.
Proof.
  revert l'. induction l as [|x l IH]; intros [|x' l'] L E; cbn in L; try discriminate; constructor.
  - apply (E 0%nat). cbn. lia.
  - apply IH; [lia|]. intros i Hi. apply (E (S i)). cbn. lia.
Qed.
(** Forall2 of a relational composition. *)
Lemma F2_split {A B C} (P : A -> B -> Prop) (Q : B -> C -> Prop) (l : list A) (l' : list C) :
  Forall2 (fun a c => exists b, P a b /\ Q b c) l l' -> exists m, Forall2 P l m /\ Forall2 Q m l'.
Proof. induction 1 as [|a c l l' (b & E1 & E2) _ (m & I1 & I2)]; [exists []; split; constructor|]. exists (b :: m). split; constructor; assumption. Qed.
Lemma units_affine X X' : other_units X X' -> affine X X'.
Proof.
  intros [L E]. unfold affine, unit_data, off. apply F2_split.
  apply (F2_ext [] []); [exact L|]. intros i Hi. destruct (E i Hi) as [Li Ei].
  apply F2_split. apply (F2_ext [] []); [exact Li|]. intros j Hj. destruct (Ei j Hj) as (a & k & Hk & ->).
  exists (map (Rmult k) (nth j (nth i X []) [])). split; [now exists k|]. exists a. now rewrite map_map.
Qed.

Section Lib.
Variable W : oracles R.
Variable parse : pystr -> res R.
Variable powf : R -> R -> R.
Variable qf : R -> list R -> R.
Variable eps5 : R.
Variable order : list R -> list R.
Variable show_prep : prep R -> pystr.
Variable show_cut : cut_arg -> pystr.
Variable show_q : q_arg -> pystr.
Variable show_num : R -> pystr.
Variable show_ppv : ppv_cfg R -> pystr.
Notation lib := (library W parse powf qf eps5 order show_prep show_cut show_q show_num show_ppv).
(** Every slice of fruit [f] begins with NRM(scale_dim=False); the objects that
    exist do not read the sums of the raw input. *)
Definition unit_free (h : heap lib) (f : nat) : Prop :=
  Forall own_time (h_p lib h) /\ Forall own_weights (h_i lib h) /\
  exists x, nth_error (h_fr lib h) f = Some x /\
  forall sl, In sl (f_slices x) -> exists s id r ca, nth_error (h_sl lib h) sl = Some s /\ sl_p s = id :: r /\ nth_error (h_p lib h) id = Some (PLeaf (LNRM false) ca).
Notation RP := (RP prop_sums no_step).
Notation RI := (RI prop_sums not_raw).
Notation first_nrm := (first_seed normalises).
Notation RSo := (fun s s' => RS prop_sums (so order s) (so order s')).

Lemma F2_refl_on {A} (P : A -> Prop) (Q : A -> A -> Prop) l : (forall a, P a -> Q a a) -> Forall P l -> Forall2 Q l l.
Proof. intros E. induction 1; constructor; auto. Qed.
Lemma start_units h f : unit_free h f -> exists SL F, HR lib RP RI RSo first_nrm f SL F h h.
Proof.
  intros (OP & OI & x & Ex & P). exists (f_slices x).
  exists (flat_map (fun sl => match nth_error (h_sl lib h) sl with Some s => match sl_p s with id :: _ => [id] | [] => [] end | None => [] end) (f_slices x)).
  constructor; try reflexivity.
  - eapply F2_refl_on; [|exact OP]. intros p Op. apply RP_refl; [exact prop_refl|].
    induction p as [g ca|p IH d ca|ca|p IH ca]; cbn in *; auto.
  - eapply F2_refl_on; [|exact OI]. intros i Oi. apply RI_refl; [exact prop_refl|]. destruct i as [c ?|? ? ?]; cbn in *; [|exact Logic.I].
    unfold ok_iss. destruct (io_wt c) as [[[]  ?]|]; cbn in *; auto.
  - apply F2_refl. intros s. apply RS_refl. exact prop_refl.
  - split; [|split].
    + intros y Ey. rewrite Ex in Ey. injection Ey as <-. apply incl_refl.
    + intros sl s Hsl Es. destruct (P sl Hsl) as (s' & id & r & ca & Es' & Ep & _). rewrite Es in Es'. injection Es' as <-. exists id, r. split; [exact Ep|].
      apply in_flat_map. exists sl. split; [exact Hsl|]. rewrite Es, Ep. now left.
    + intros id p Hid Ep. apply in_flat_map in Hid as (sl & Hsl & Hid). destruct (P sl Hsl) as (s & id' & r & ca & Es & Esp & Ep'). rewrite Es, Esp in Hid.
      destruct Hid as [<-|[]]. rewrite Ep in Ep'. injection Ep' as ->. exists (LNRM false), ca. split; reflexivity.
Qed.
Lemma MRu_seen {A} f SL F (m m' : M lib A) h : MR lib RP RI RSo first_nrm f SL F eq m m' -> HR lib RP RI RSo first_nrm f SL F h h -> 
  (fst (m h), h_log lib (snd (m h))) = (fst (m' h), h_log lib (snd (m' h))).
Proof.
  intros E H. specialize (E h h H). destruct (m h) as [[a|e] k], (m' h) as [[a'|e'] k']; try contradiction; destruct E as [E1 E2]; cbn [fst snd]; rewrite (hr_log _ _ _ _ _ _ _ _ _ _ E2); congruence.
Qed.
Lemma collect2u {A B} (Q : A -> A -> Prop) f SL F l l' (b : A -> M lib B) : Forall2 Q l l' ->
  (forall x y, Q x y -> MR lib RP RI RSo first_nrm f SL F eq (b x) (b y)) -> MR lib RP RI RSo first_nrm f SL F eq (collect lib l b) (collect lib l' b).
Proof.
  intros F2 E. induction F2 as [|x y l l' Hxy _ IH]; cbn [collect]; [now apply MR_ret|]. eapply MR_bind; [now apply E|]. intros u v <-. eapply MR_bind; [exact IH|]. intros us vs <-. now apply MR_ret.
Qed.
Notation fit_and_transform := (fit_and_transform W parse powf qf eps5 order show_prep show_cut show_q show_num show_ppv).
(** Results, exceptions and what callbacks are given. *)
Notation seen := (seen W parse powf qf eps5 order show_prep show_cut show_q show_num show_ppv).
Theorem C101_units (h : heap lib) (f : nat) (A A' : dataset R) (Bs Bs' : list (dataset R)) cbs :
  unit_free h f -> other_units A A' -> Forall2 other_units Bs Bs' ->
  seen (fit_and_transform f A Bs cbs h) = seen (fit_and_transform f A' Bs' cbs h).
Proof.
  intros O HA HB. destruct (start_units h f O) as (SL & F & H0). apply (MRu_seen f SL F); [|exact H0].
  pose proof (units_sim parse powf eps5 W qf order show_prep show_cut show_q show_num show_ppv) as KS.
  unfold P_Offset.fit_and_transform. eapply MR_bind; [apply (fruit_fit_sim lib _ _ _ _ _ _ KS); now apply units_affine|]. intros _ _ _.
  eapply (collect2u other_units); [exact HB|]. intros X X' HX. apply (fruit_transform_sim lib _ _ _ _ _ _ KS). now apply units_affine.
Qed.
(** A fruit fitted before, however that happened. *)
Theorem C101_transform (h : heap lib) (f : nat) (B B' : dataset R) cbs :
  unit_free h f -> other_units B B' ->
  seen (fruit_transform lib f B cbs None h) = seen (fruit_transform lib f B' cbs None h).
Proof.
  intros O HB. destruct (start_units h f O) as (SL & F & H0). apply (MRu_seen f SL F); [|exact H0].
  apply (fruit_transform_sim lib _ _ _ _ _ _ (units_sim parse powf eps5 W qf order show_prep show_cut show_q show_num show_ppv)). now apply units_affine.
Qed.
End Lib.
Print Assumptions C101_units.
Print Assumptions C101_transform.

(** The hypotheses are met: NRM, the word [1], the last value; features of a
    series in two units. *)
Definition ex_first (p : prepT ex_lib) : heap ex_lib := run ex_lib (heap0 ex_lib 0%nat)
  [ONewPrep ex_lib p; ONewIss ex_lib ex_iss; ONewSieve ex_lib ex_end; ONewFruit ex_lib (str "F"); FAdd ex_lib 0 [ArgP ex_lib 0; ArgI ex_lib 0; ArgS ex_lib 0]].
Definition ex_nrm : prepT ex_lib := PLeaf (LNRM false) None.
Definition ex_U : dataset R := [[[1; 2; 5]]].
Definition ex_U' : dataset R := [[[12; 22; 52]]].
Lemma ex_units : other_units ex_U ex_U'.
Proof.
  split; [reflexivity|]. intros [|i] Hi; [|cbn in Hi; lia]. split; [reflexivity|]. intros [|j] Hj; [|cbn in Hj; lia].
  exists 2, 10. split; [lra|]. cbn. repeat (f_equal; try lra).
Qed.
Lemma leb_yes (x y : R) : x <= y -> Rleb x y = true.
Proof. intros E. unfold Rleb. destruct (Rle_dec x y); [reflexivity|lra]. Qed.
Lemma eqb_no (x y : R) : x <> y -> Reqb' x y = false.
Proof. intros E. assert (D := Reqb_spec' x y). cbn [neqb RNum] in D. destruct D; [contradiction|reflexivity]. Qed.
Lemma ex_nrm_value : @nrm_transform R RNum false ex_U = Ok [[[0; 1/4; 1]]] /\ @nrm_transform R RNum false ex_U' = Ok [[[0; 1/4; 1]]].
Proof.
  split; unfold nrm_transform, ex_U, ex_U', nrm_sample; cbn [mapM vmin vmax fold_left bind combine map fst snd]; unfold nmin, nmax, nrm_row; cbn [nleb neqb nsub ndiv RNum map];
    rewrite ?(leb_yes 1 2), ?(leb_yes 12 22) by lra; rewrite ?(leb_yes 1 5), ?(leb_yes 2 5), ?(leb_yes 12 52), ?(leb_yes 22 52) by lra; rewrite ?(eqb_no 1 5), ?(eqb_no 12 52) by lra;
    do 4 (f_equal; try lra); do 2 (f_equal; try lra).
Qed.
Example C101_nonvacuous :
  unit_free ex_oracles _ _ _ _ _ _ _ _ _ _ (ex_first ex_nrm) 0 /\ other_units ex_U ex_U' /\
  @nrm_transform R RNum false ex_U = Ok [[[0; 1/4; 1]]] /\ @nrm_transform R RNum false ex_U' = Ok [[[0; 1/4; 1]]].
Proof.
  split.
  { split; [repeat constructor|]. split; [repeat constructor|].
    eexists. split; [reflexivity|]. intros sl [<-|[]]. eexists _, _, _, _. split; [reflexivity|]. split; reflexivity. }
  split; [exact ex_units|]. exact ex_nrm_value.
Qed.

(** STD in place of NRM would not do: it adds std_eps to the standard deviation,
    so the array it returns still depends on the unit. *)
Theorem C101_std_refuted : ~ (forall (c : std_cfg (T := R)) st X X', std_separately c = true -> std_eps c <> 0 -> other_units X X' -> std_transform c st X = std_transform c st X').
Proof.
  intros C. specialize (C {| std_separately := true; std_var := true; std_eps := 1 |} None [[[-1; 1]]] [[[-2; 2]]] eq_refl ltac:(cbn; lra)).
  assert (U : other_units [[[-1; 1]]] [[[-2; 2]]]).
  { split; [reflexivity|]. intros [|i] Hi; [|cbn in Hi; lia]. split; [reflexivity|]. intros [|j] Hj; [|cbn in Hj; lia].
    exists 0, 2. split; [lra|]. cbn. repeat (f_equal; try lra). }
  specialize (C U). cbn [std_transform std_separately map] in C.
  assert (E : forall r r' : list R, Ok (A := dataset R) [[r]] = Ok [[r']] -> nth 1 r 0 = nth 1 r' 0) by (intros r r' Q; congruence).
  apply E in C. unfold std_row in C. cbn [std_var std_eps map nth] in C.
  assert (M1 : @vmean R RNum [-1; 1] = 0) by (cbv -[Rplus Rminus Rmult Rdiv Ropp IZR]; lra).
  assert (M2 : @vmean R RNum [-2; 2] = 0) by (cbv -[Rplus Rminus Rmult Rdiv Ropp IZR]; lra).
  assert (S1 : @vstd R RNum [-1; 1] = 1).
  { unfold vstd. rewrite M1. change (@nsqrt R RNum) with sqrt. transitivity (sqrt 1); [f_equal; cbv -[Rplus Rminus Rmult Rdiv Ropp IZR sqrt]; field|exact sqrt_1]. }
  assert (S2 : @vstd R RNum [-2; 2] = 2).
  { unfold vstd. rewrite M2. change (@nsqrt R RNum) with sqrt. transitivity (sqrt (2 * 2)); [f_equal; cbv -[Rplus Rminus Rmult Rdiv Ropp IZR sqrt]; field|apply sqrt_square; lra]. }
  rewrite M1, M2, S1, S2 in C. cbn [nsub ndiv nadd RNum] in C. lra.
Qed.
Print Assumptions C101_std_refuted.
