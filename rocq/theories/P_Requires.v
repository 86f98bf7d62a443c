(** C86: requires_fitting, and what happens without fit; C30 for ISS. *)
From Coq Require Import Ascii String List Arith ZArith Bool Reals Lia.
From Verif Require Import Num Arr M_Str M_Semiring M_Words M_ISS M_Np M_Prep M_Cache M_Sieve M_PrepObj M_Cos M_Seeds M_Requires S_ISS S_Prep
  P_Copy P_Cos.
Import ListNotations.

(** The preparateurs that take something from the data (or from
    numpy.random) in [fit]. *)
Definition learns {T} (f : leaf T) : Prop :=
  match f with
  | LSTD c _ => std_separately c = false
  | LMAV _ _ | LFFN _ _ _ _ | LRIN _ _ _ _ _ _ | LRDW _ _ | LJLD _ _ _ _ | LQTC _ _ _ _ _ | LDIL _ _ | LDOT _ _ _ | LPDD _ _ _ _ _ => True
  | LINC _ | LNRM _ | LLAG | LSPE _ _ _ _ _ | LRPE _ _ | LCTS _ _ | LFUN _ | LWIN _ _ => False
  end.
(** The same for DIM and NEW: what they wrap. *)
Fixpoint prep_learns {T} (p : prep T) : Prop :=
  match p with
  | PLeaf f _ => learns f
  | PDim q _ _ => prep_learns q
  | PNew0 _ => False
  | PNew q _ => prep_learns q
  end.

Section Preparateurs.
Context {T : Type} `{Num T}.
Variable parse : pystr -> res T.
Variable powf : T -> T -> T.
Variable eps0 : T.
Local Notation transform p X := (fst (pr_transform parse powf p X)).
Local Notation fit r p X := (pr_fit eps0 r p X).
Local Notation after p h := (pr_after parse powf eps0 p h).
Local Notation no_raise p h := (pr_no_raise parse powf eps0 p h).

Lemma unfitted_leaf inp f X : leaf_new f -> learns f ->
  leaf_transform parse powf inp f X = Err RuntimeError \/ leaf_transform parse powf inp f X = Err AttributeError.
Proof.
  destruct f; cbn [leaf_new learns leaf_transform]; intros N L; try contradiction; subst; auto.
  unfold std_transform. rewrite L. now left.
Qed.
Lemma unlearned_fit r f X g : ~ learns f -> leaf_fit eps0 r f X = Ok g -> g = f.
Proof.
  destruct f; cbn [learns leaf_fit]; intros L E; try (exfalso; now apply L); try (now injection E).
  unfold std_fit in E. destruct (std_separately c); [now injection E|exfalso; now apply L].
Qed.
Lemma unlearned_pr_fit r p : forall X q, ~ prep_learns p -> fit r p X = (Ok tt, q) -> q = p.
Proof.
  induction p as [f ca|p IH d ca|ca|p IH ca]; intros X q L E; cbn [pr_fit pr_cache prep_learns] in *.
  - destruct (leaf_fit eps0 r f X) as [g|e] eqn:F; [|discriminate]. injection E as <-. now rewrite (unlearned_fit r f X g L F).
  - destruct (mapM (py_index (dimX X)) d) as [dims|e]; [|discriminate].
    destruct (fit r p (map (select_dims dims) X)) as [[[]|e] q'] eqn:F; [|discriminate]. injection E as <-. now rewrite (IH _ _ L F).
  - now injection E.
  - destruct (fit r p X) as [[[]|e] q'] eqn:F; [|discriminate]. injection E as <-. now rewrite (IH _ _ L F).
Qed.
Lemma transform_same p : forall X Y q, pr_transform parse powf p X = (Ok Y, q) -> q = p.
Proof.
  induction p as [f ca|p IH d ca|ca|p IH ca]; intros X Y q E; cbn [pr_transform pr_cache] in E.
  - destruct (leaf_transform parse powf _ f X); [|discriminate]. now injection E.
  - destruct (mapM (py_index (dimX X)) d) as [dims|e] eqn:Ed; [|discriminate].
    destruct (pr_transform parse powf p (map (select_dims dims) X)) as [[z|e] q'] eqn:F.
    + destruct (dim_transform d (fun _ => Ok z) X); [|discriminate]. injection E as _ <-. now rewrite (IH _ _ _ F).
    + unfold dim_transform in E. rewrite Ed in E. discriminate.
  - destruct (new_transform None X); [|discriminate]. now injection E.
  - destruct (pr_transform parse powf p X) as [[z|e] q'] eqn:F.
    + destruct (new_transform (Some (fun _ => Ok z)) X); [|discriminate]. injection E as _ <-. now rewrite (IH _ _ _ F).
    + discriminate.
Qed.
(** C86: a preparateur that learns nothing is the same object after any
    history of calls: it need not be fitted. *)
Theorem C86_nothing_to_learn : forall p h, ~ prep_learns p -> no_raise p h -> after p h = p.
Proof.
  intros p h L. induction h as [|c h IH]; intros NR; [reflexivity|]. cbn [pr_no_raise] in NR. destruct NR as [N1 N2].
  assert (E : snd (pr_call parse powf eps0 p c) = p).
  { destruct c as [r X|X]; cbn [pr_call] in *.
    - destruct (fit r p X) as [[[]|e] q] eqn:F; [|discriminate]. cbn. now apply (unlearned_pr_fit r p X q L).
    - destruct (pr_transform parse powf p X) as [[Y|e] q] eqn:F; [|discriminate]. cbn. now apply (transform_same p X Y q). }
  unfold pr_after in *. cbn [fold_left]. rewrite E in *. now apply IH.
Qed.
(** The others raise on every input until they are fitted. *)
Theorem C86_unfitted_raises : forall p X, pr_new p -> prep_learns p ->
  transform p X = Err RuntimeError \/ transform p X = Err AttributeError \/ transform p X = Err IndexError.
Proof.
  induction p as [f ca|p IH d ca|ca|p IH ca]; intros X N L; cbn [pr_new prep_learns] in *.
  - destruct N as [N ->]. cbn [pr_transform pr_cache]. destruct (unfitted_leaf X f X N L) as [E|E]; rewrite E; auto.
  - destruct N as [N ->]. cbn [pr_transform pr_cache]. destruct (mapM (py_index (dimX X)) d) as [dims|e] eqn:Ed.
    + specialize (IH (map (select_dims dims) X) N L). destruct (pr_transform parse powf p (map (select_dims dims) X)) as [r q].
      cbn [fst] in IH. destruct IH as [-> | [-> | ->]]; unfold dim_transform; rewrite Ed; cbn; auto.
    + right. right. cbn [fst]. f_equal. clear - Ed. revert e Ed. induction d as [|z d IH]; intros e Ed; cbn [mapM] in Ed; [discriminate|].
      unfold py_index in Ed at 1. destruct (z <? 0)%Z; [destruct (0 <=? _)%Z|destruct (z <? _)%Z]; cbn [bind] in Ed; try congruence;
        (destruct (mapM (py_index (dimX X)) d) as [ds|e'] eqn:E'; [discriminate|]; cbn [bind] in Ed; injection Ed as <-; eapply IH; reflexivity).
  - contradiction.
  - destruct N as [N ->]. cbn [pr_transform pr_cache]. specialize (IH X N L). destruct (pr_transform parse powf p X) as [r q].
    cbn [fst] in IH. destruct IH as [-> | [-> | ->]]; cbn; auto.
Qed.
(** One that is not wrapped in DIM says so with a RuntimeError or an AttributeError. *)
Theorem C86_unfitted_leaf_raises : forall f X, leaf_new f -> learns f ->
  transform (PLeaf f None) X = Err RuntimeError \/ transform (PLeaf f None) X = Err AttributeError.
Proof.
  intros f X N L. cbn [pr_transform pr_cache]. destruct (unfitted_leaf X f X N L) as [E|E]; rewrite E; auto.
Qed.
(** C86: requires_fitting is True for everything that learns ... *)
Theorem C86_flag : forall p : prep T, prep_learns p -> pr_requires p = true.
Proof.
  induction p as [f ca|p IH d ca|ca|p IH ca]; cbn [prep_learns pr_requires]; auto; try contradiction.
  destruct f; cbn; tauto.
Qed.
(** ... so where it is False the object can be used at once and any history of
    calls changes nothing. *)
Theorem C86_not_required : forall p h X, pr_requires p = false -> no_raise p h ->
  pr_transform parse powf (after p h) X = pr_transform parse powf p X.
Proof.
  intros p h X R NR. rewrite C86_nothing_to_learn; auto. intros L. apply C86_flag in L. congruence.
Qed.

Definition unfitted_error (e : exn) : Prop := e = RuntimeError \/ e = AttributeError.
Lemma mapM_err {A B} (f : A -> res B) (P : exn -> Prop) l e : (forall x e', In x l -> f x = Err e' -> P e') -> mapM f l = Err e -> P e.
Proof.
  induction l as [|x l IH]; intros G E; cbn [mapM] in E; [discriminate|].
  destruct (f x) as [y|e'] eqn:F; cbn [bind] in E; [|injection E as <-; eapply G; [now left|exact F]].
  destruct (mapM f l) as [ys|e'] eqn:F'; cbn [bind] in E; [discriminate|]. injection E as ->. apply IH; [|reflexivity]. intros; eapply G; [right|]; eassumption.
Qed.
Lemma bcast_err {A B} (l1 : list A) (l2 : list B) e : bcast l1 l2 = Err e -> e = ValueError.
Proof. unfold bcast. destruct (_ =? _)%nat; [discriminate|]. destruct l1 as [|a [|]], l2 as [|b [|]]; congruence. Qed.
(** MAV(w) for a number w <= 0 (documented: -1) cannot be fitted (C40). *)
Fixpoint no_mav (p : prep T) : Prop :=
  match p with PLeaf (LMAV (WInt z) _) _ => (0 < z)%Z | PLeaf _ _ => True | PDim q _ _ => no_mav q | PNew0 _ => True | PNew q _ => no_mav q end.
Lemma fitted_leaf r f X Y inp g e : learns f -> (forall z st, f = LMAV (WInt z) st -> (0 < z)%Z) -> leaf_fit eps0 r f X = Ok g ->
  leaf_transform parse powf inp g Y = Err e -> ~ unfitted_error e.
Proof.
  intros L M F E. assert (D : e = ValueError -> ~ unfitted_error e) by (intros -> [|]; discriminate).
  destruct f; cbn [learns leaf_fit] in *; try contradiction.
  - injection F as <-. cbn [leaf_transform] in E. unfold std_transform, std_fit in E. rewrite L in E. discriminate.
  - injection F as <-. cbn [leaf_transform] in E. unfold mav_transform, mav_fit in E. destruct w as [z|w].
    + specialize (M z st eq_refl). apply Z.ltb_lt in M. rewrite M in E. destruct z as [|z|[z|z|]]; discriminate.
    + discriminate.
  - injection F as <-. cbn [leaf_transform] in E. unfold ffn_transform in E. destruct (forallb _ Y); [discriminate|]. injection E as <-. now apply D.
  - destruct kernel as [k|].
    + injection F as <-. cbn [leaf_transform] in E. unfold rin_transform in E. destruct adaptive; discriminate.
    + destruct (rin_fit _ _ _ _ _) as [st'|]; [|discriminate]. injection F as <-. cbn [leaf_transform] in E. unfold rin_transform in E. destruct adaptive; discriminate.
  - destruct (rdw_fit _ _ _ _) as [w|]; [|discriminate]. injection F as <-. cbn [leaf_transform] in E. apply D.
    revert E. apply (mapM_err _ (fun e => e = ValueError)). intros x e' _ E'. destruct (bcast x w) as [[a b]|e''] eqn:B; [discriminate|]. cbn in E'. injection E' as <-.
    now apply bcast_err in B.
  - destruct (jld_fit _ _ _ _ _ _ _) as [st'|]; [|discriminate]. injection F as <-. discriminate.
  - injection F as <-. discriminate.
  - destruct (dil_fit _ _ _ _ _) as [st'|]; [|discriminate]. injection F as <-. discriminate.
  - injection F as <-. cbn [leaf_transform] in E. unfold dot_transform in E. destruct (dot_fit n first X) as [n' f'].
    apply D. revert E. apply (mapM_err _ (fun e => e = ValueError)). intros x e1 _. apply (mapM_err _ (fun e => e = ValueError)). intros row e2 _ E2. unfold dot_row in E2.
    destruct (stride_idx f' n' (length row)) as [i|e3] eqn:S3; [discriminate|]. cbn in E2. injection E2 as <-.
    unfold stride_idx in S3. destruct (n' =? 0)%Z; [now injection S3|]. repeat (destruct (_ <? _)%Z in S3); discriminate.
  - injection F as <-. discriminate.
Qed.
Lemma py_index_err n l e : mapM (py_index n) l = Err e -> ~ unfitted_error e.
Proof.
  apply (mapM_err _ (fun e => ~ unfitted_error e)). intros z e' _. unfold py_index. destruct (z <? 0)%Z; [destruct (0 <=? _)%Z|destruct (z <? _)%Z]; intros E; try discriminate;
    injection E as <-; intros [|]; discriminate.
Qed.
(** C86: after a successful fit none of them asks for a fit again, on any input. *)
Theorem C86_fit_suffices : forall p r X q Y e, prep_learns p -> no_mav p ->
  fit r p X = (Ok tt, q) -> transform q Y = Err e -> e <> RuntimeError /\ e <> AttributeError.
Proof.
  enough (G : forall p r X q Y e, prep_learns p -> no_mav p -> fit r p X = (Ok tt, q) -> transform q Y = Err e -> ~ unfitted_error e).
  { intros p r X q Y e L M F E. pose proof (G p r X q Y e L M F E) as D. unfold unfitted_error in D. tauto. }
  induction p as [f ca|p IH d ca|ca|p IH ca]; intros r X q Y e L M F E; cbn [pr_fit pr_cache prep_learns no_mav] in *.
  - destruct (leaf_fit eps0 r f X) as [g|e'] eqn:Fg; [|discriminate]. injection F as <-. cbn [pr_transform pr_cache] in E.
    destruct (leaf_transform parse powf _ g Y) as [Z|e'] eqn:Et; [discriminate|]. cbn in E. injection E as <-.
    eapply fitted_leaf; [exact L| |exact Fg|exact Et]. intros z st ->. exact M.
  - destruct (mapM (py_index (dimX X)) d) as [dims|e'] eqn:Ed; [|discriminate].
    destruct (fit r p (map (select_dims dims) X)) as [[[]|e'] q'] eqn:Fq; [|discriminate]. injection F as <-. cbn [pr_transform pr_cache] in E.
    destruct (mapM (py_index (dimX Y)) d) as [dY|e'] eqn:EY; [|cbn in E; injection E as <-; eapply py_index_err; exact EY].
    destruct (pr_transform parse powf q' (map (select_dims dY) Y)) as [res q''] eqn:Et.
    unfold dim_transform in E. rewrite EY in E. cbn [bind] in E. destruct res as [Z|e']; cbn [bind] in E.
    + destruct (same_len Y Z); [discriminate|]. cbn in E. injection E as <-. intros [|]; discriminate.
    + cbn in E. injection E as <-. eapply IH; [exact L|exact M|exact Fq|]. rewrite Et. reflexivity.
  - contradiction.
  - destruct (fit r p X) as [[[]|e'] q'] eqn:Fq; [|discriminate]. injection F as <-. cbn [pr_transform pr_cache] in E.
    destruct (pr_transform parse powf q' Y) as [res q''] eqn:Et. unfold new_transform in E. destruct res as [Z|e']; cbn [bind] in E.
    + destruct (_ && _); [discriminate|]. cbn in E. injection E as <-. intros [|]; discriminate.
    + cbn in E. injection E as <-. eapply IH; [exact L|exact M|exact Fq|]. rewrite Et. reflexivity.
Qed.
End Preparateurs.
Print Assumptions C86_nothing_to_learn.
Print Assumptions C86_unfitted_raises.
Print Assumptions C86_flag.
Print Assumptions C86_not_required.
Print Assumptions C86_fit_suffices.

(** C86 refuted in the other direction: requires_fitting is True for STD()
    (with its defaults), CTS, SPE and RPE, which learn nothing. *)
Theorem C86_required_but_nothing_to_learn_refuted : forall (eps : R) st w ps fr op fn step ml,
  Forall (fun f => pr_requires (PLeaf f None) = true /\ ~ learns f)
    [LSTD {| std_separately := true; std_var := true; std_eps := eps |} st; LCTS w ps; LSPE fr op fn step ml; LRPE fr ml].
Proof. intros. repeat constructor; cbn; auto; congruence. Qed.

(** ** ISS and CosWISS *)
Section Iss.
Context {T : Type} `{Num T}.
Variable W : oracles T.
Variable eps5 : T.
(** What the methods called from outside do to the object: fit, attaching a
    cache (fruit.py 453, 553).  (Requesting batches changes nothing.) *)
Inductive icall := IFit (g : nat) (X : dataset T) | IAttach (c : dataset T).
Definition i_step (i : issO T) (c : icall) : issO T :=
  match c with IFit g X => snd (fst (iss_fit W g X i)) | IAttach c => iss_set_cache (Some c) i end.
Definition i_after (i : issO T) (h : list icall) : issO T := fold_left i_step h i.
(** A newly constructed object. *)
Definition i_new (i : issO T) : Prop :=
  match i with IPlain _ ca => ca = None | ICos _ st ca => st = cos_fresh /\ ca = None end.
Definition i_wordless (i : issO T) : Prop := match i with IPlain c _ => io_words c = [] | ICos c _ _ => cw_words c = [] end.

(** C86: an ISS that does not require fitting gives the same batches after
    being fitted any number of times. *)
Theorem C86_iss_not_required : forall i fits X, iss_requires i = false ->
  iss_batches eps5 (i_after i (map (fun gX => IFit (fst gX) (snd gX)) fits)) X = iss_batches eps5 i X.
Proof.
  intros i fits X R. unfold i_after. induction fits as [|[g Y] fits IH] using rev_ind; [reflexivity|].
  rewrite map_app, fold_left_app. cbn [map fold_left fst snd]. set (j := fold_left _ _ _) in *.
  assert (RJ : iss_requires j = false).
  { clear IH. subst j. clear g Y. revert i R. induction fits as [|[g Y] fits IH]; intros i R; [exact R|]. cbn [map fold_left]. apply IH.
    destruct i as [c ca|c st ca]; [reflexivity|]. cbn [i_step fst snd]. unfold iss_fit. destruct (cos_fit c (o_net W g) (o_idx W g) Y st) as [[[]|e] st']; exact R. }
  rewrite <- IH. clear IH. destruct j as [c ca|c st ca]; [reflexivity|]. cbn [i_step]. unfold iss_fit.
  cbn [iss_requires] in RJ. unfold cos_requires in RJ. unfold cos_fit.
  destruct (cw_ffn c); [discriminate|]. destruct (cw_drop c); [discriminate|]. reflexivity.
Qed.
(** One that does raises before the first batch until it is fitted. *)
Theorem C86_iss_required : forall i X, i_new i -> ~ i_wordless i -> iss_requires i = true ->
  iss_batches eps5 i X = [Err AttributeError].
Proof.
  intros [c ca|c st ca] X N WL R; [discriminate|]. destruct N as [-> ->]. cbn [iss_batches].
  apply C24_batches_need_fit; [exact WL|exact R].
Qed.
(** And a fit is enough: no AttributeError in any batch after a successful fit. *)
Theorem C86_iss_fit_suffices : forall i g Y X j g', iss_fit W g Y i = (Ok tt, j, g') ->
  match i with ICos _ _ _ => True | IPlain _ _ => False end ->
  Forall (fun b => exists rows, b = Ok rows) (iss_batches eps5 j X).
Proof.
  intros [c ca|c st ca] g Y X j g' E K; [contradiction|]. unfold iss_fit in E.
  destruct (cos_fit c (o_net W g) (o_idx W g) Y st) as [[[]|e] st'] eqn:F; [|discriminate]. injection E as <- <-.
  cbn [iss_batches]. unfold cos_batches.
  assert (G : forall w word, exists rows, cos_word c st' X w word = Ok rows).
  { intros w word. unfold cos_word. unfold cos_fit in F.
    destruct (cw_ffn c) as [k|].
    - assert (EF : exists net, cs_ffn st' = Some net).
      { destruct (cw_drop c) as [rate|]; [|injection F as <-; eexists; reflexivity].
        destruct (cw_words c), (cw_freqs c); try (injection F as <-; eexists; reflexivity).
        destruct (_ <? _)%nat; [discriminate|]. injection F as <-; eexists; reflexivity. }
      destruct EF as [net ->]. eexists; reflexivity.
    - destruct (cw_drop c) as [rate|]; [|eexists; reflexivity].
      assert (EF : exists idx, cs_drop st' = Some idx).
      { destruct (cw_words c), (cw_freqs c); try (injection F as <-; eexists; reflexivity).
        destruct (_ <? _)%nat; [discriminate|]. injection F as <-; eexists; reflexivity. }
      destruct EF as [idx ->]. eexists; reflexivity. }
  enough (Q : forall l n acc, Forall (fun b => exists rows, b = Ok rows) (cos_gen c st' X 1 n l acc)) by apply Q.
  induction l as [|word ws IH]; intros n acc; cbn [cos_gen].
  - destruct acc; [constructor|]. constructor; [eexists; reflexivity|constructor].
  - destruct (G n word) as [rows ->]. destruct (Nat.eqb _ _); [constructor; [eexists; reflexivity|]|]; apply IH.
Qed.
(** C30: a copy made after any history is the object as it was constructed. *)
Theorem C30_iss : forall i h, i_new i -> iss_copy (i_after i h) = i.
Proof.
  intros i h N.
  assert (S1 : forall c i, iss_copy (i_step i c) = iss_copy i).
  { intros [g X|c] [c1 ca|c1 st ca]; cbn [i_step]; try reflexivity. unfold iss_fit.
    destruct (cos_fit c1 (o_net W g) (o_idx W g) X st) as [[[]|e] st']; reflexivity. }
  transitivity (iss_copy i).
  - unfold i_after. revert i N. induction h as [|c h IH] using rev_ind; intros i N; [reflexivity|]. rewrite fold_left_app. cbn [fold_left].
    rewrite S1. now apply IH.
  - destruct i as [c ca|c st ca]; cbn in *; [now subst|]. destruct N as [-> ->]. reflexivity.
Qed.
End Iss.
Print Assumptions C86_iss_not_required.
Print Assumptions C86_iss_required.
Print Assumptions C86_iss_fit_suffices.
Print Assumptions C30_iss.

(** Non-vacuity. *)
Example C86_example_prep : forall ca : std_cfg (T := R), std_separately ca = false ->
  let p := PDim (PNew (PLeaf (LSTD ca None) None) None) [0%Z] None in
  pr_new p /\ prep_learns p /\ no_mav p /\ forall eps0 r X, exists q, pr_fit eps0 r p ([[X]]) = (Ok tt, q).
Proof. intros ca E. cbn. repeat split; auto. intros. eexists; reflexivity. Qed.
Example C86_example_cos : forall w f, let c := {| cw_words := [w]; cw_freqs := [f]; cw_exp := 2; cw_total := false; cw_ffn := Some 3%nat; cw_drop := None |} in
  i_new (T := R) (ICos c cos_fresh None) /\ ~ i_wordless (ICos c cos_fresh None) /\ iss_requires (ICos c cos_fresh None) = true /\
  forall W g Y, exists j g', iss_fit W g Y (ICos c cos_fresh None) = (Ok tt, j, g').
Proof. intros. cbn. repeat split; auto; [discriminate|]. intros. eexists; eexists; reflexivity. Qed.
