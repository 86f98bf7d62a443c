(** Lemmas for C100: the seeds of the library and offsets. *)
From Coq Require Import Ascii String List Arith ZArith Bool Lia Reals Lra.
From Verif Require Import Num Arr L_Arr M_Str M_Semiring M_Words M_ISS P_Attach M_Np M_Prep M_Cache M_Sieve M_PrepObj M_Cos M_Fruit M_Seeds L_Seeds L_Seeds3 L_Prep2 L_Scale L_Offset.
Import ListNotations.
Local Open Scope R_scope.

(** Every dimension of every series with its own constant added. *)
Definition off_row (r r' : list R) : Prop := exists a, r' = map (Rplus a) r.
Definition off (X X' : dataset R) : Prop := Forall2 (Forall2 off_row) X X'.
Definition same_sums (c c' : dataset R) : Prop := L1_sum c = L1_sum c' /\ L2_sum c = L2_sum c'.

Lemma off_slice a u v x : py_slice u v (map (Rplus a) x) = map (Rplus a) (py_slice u v x).
Proof. unfold py_slice. rewrite map_length. now rewrite skipn_map, firstn_map. Qed.
Lemma off_sub a x y : map2 (@nsub R RNum) (map (Rplus a) x) (map (Rplus a) y) = map2 nsub x y.
Proof. revert y. induction x as [|u x IH]; intros [|v y]; try reflexivity. cbn [map map2]. rewrite IH. f_equal. cbn. ring. Qed.
Lemma off_inc1 k r r' : off_row r r' -> increments1 k r' = increments1 k r.
Proof. intros [a ->]. unfold increments1. rewrite !off_slice, !map_length, off_sub. reflexivity. Qed.
Lemma off_len r r' : off_row r r' -> length r' = length r.
Proof. intros [a ->]. apply map_length. Qed.
Lemma off_first x x' : Forall2 off_row x x' -> inc_first x' = inc_first x.
Proof.
  intros F. unfold inc_first. assert (E : off_row (nth 0 x []) (nth 0 x' [])) by (destruct F; [exists 0; reflexivity|assumption]). now rewrite (off_inc1 _ _ _ E).
Qed.
Lemma off_sums X X' : off X X' -> same_sums X X'.
Proof. intros F. unfold same_sums, L1_sum, L2_sum. induction F as [|x x' X X' Hx _ [IH1 IH2]]; cbn [map]; [auto|]. rewrite (off_first _ _ Hx). split; congruence. Qed.
Lemma off_mapM {B} (f : list R -> res B) x x' : (forall r r', off_row r r' -> f r' = f r) -> Forall2 off_row x x' -> mapM f x' = mapM f x.
Proof. intros E. induction 1 as [|r r' x x' Hr _ IH]; cbn [mapM]; [reflexivity|]. now rewrite (E _ _ Hr), IH. Qed.
Lemma off_increments k X X' : off X X' -> increments k X' = increments k X.
Proof.
  unfold increments. induction 1 as [|x x' X X' Hx _ IH]; cbn [mapM]; [reflexivity|]. rewrite (off_mapM (increments1 k) _ _ (fun r r' => off_inc1 k r r') Hx). now rewrite IH.
Qed.
Lemma off_lenX X X' : off X X' -> lenX X' = lenX X.
Proof. intros F. destruct F as [|x x' X X' Hx _]; [reflexivity|]. cbn. destruct Hx as [|r r' x x' Hr _]; [reflexivity|]. cbn. now apply off_len. Qed.
Lemma inc_step_zp c k (X out : dataset R) : inc_zp c = true -> inc_step c k X out = increments k out.
Proof. intros Z. unfold inc_step. rewrite Z. destruct (increments k out); reflexivity. Qed.
Lemma off_INC c X X' : inc_zp c = true -> (1 <= inc_depth c)%nat -> off X X' -> inc_transform c X' = inc_transform c X.
Proof.
  intros Z D F. unfold inc_transform. rewrite (off_lenX _ _ F). generalize (match inc_shift c with ShInt z => z | ShFun f => f (lenX X) end). intros k.
  destruct (inc_depth c) as [|m]; [lia|]. cbn [inc_loop]. rewrite !inc_step_zp, (off_increments _ _ _ F) by exact Z.
  destruct (increments k X) as [o|e]; cbn [bind]; [|reflexivity].
  clear D. revert o. induction m as [|m IH]; intros o; cbn [inc_loop]; [reflexivity|]. rewrite !inc_step_zp by exact Z. destruct (increments k o); cbn [bind]; [apply IH|reflexivity].
Qed.
Lemma off_vsum a x : @vsum R RNum (map (Rplus a) x) = INR (length x) * a + vsum x.
Proof.
  assert (E : forall y u v, fold_left Rplus (map (Rplus a) y) (u + v) = fold_left Rplus y v + (u + INR (length y) * a)).
  { intros y. induction y as [|b y IH]; intros u v; [cbn; ring|]. change (length (b :: y)) with (S (length y)). rewrite S_INR. cbn [map fold_left].
    replace (u + v + (a + b)) with ((u + a) + (v + b)) by ring. rewrite IH. ring. }
  unfold vsum. cbn [nadd nzero RNum]. replace 0 with (0 + 0) at 1 by ring. rewrite E. ring.
Qed.
Lemma off_mean a x : x <> [] -> @vmean R RNum (map (Rplus a) x) = a + vmean x.
Proof.
  intros Hx. unfold vmean. rewrite off_vsum, map_length. cbn [ndiv nofnat RNum]. assert (INR (length x) <> 0) by (apply not_0_INR; destruct x; cbn; congruence).
  change (@nofnat R RNum (length x)) with (IZR (Z.of_nat (length x))). rewrite <- INR_IZR_INZ. field. assumption.
Qed.
Lemma off_std_row (c : std_cfg (T := R)) r r' : off_row r r' -> std_row c r' = std_row c r.
Proof.
  intros [a ->]. destruct r as [|u r]; [reflexivity|]. set (x := u :: r). assert (Hx : x <> []) by discriminate. clearbody x. clear u r.
  unfold std_row. assert (V : @vstd R RNum (map (Rplus a) x) = vstd x).
  { unfold vstd. rewrite (off_mean a x Hx), map_map. do 2 f_equal. apply map_ext. intros v. cbn [nmul nsub RNum]. ring. }
  rewrite V, (off_mean a x Hx), map_map. apply map_ext. intros v. cbn [nsub RNum]. f_equal. ring.
Qed.
Lemma off_min a x y : @nmin R RNum (a + x) (a + y) = a + nmin x y.
Proof. unfold nmin. destruct (Rleb_spec x y), (Rleb_spec (a + x) (a + y)); try lra. Qed.
Lemma off_max a x y : @nmax R RNum (a + x) (a + y) = a + nmax x y.
Proof. unfold nmax. destruct (Rleb_spec x y), (Rleb_spec (a + x) (a + y)); try lra. Qed.
Lemma off_vmin a x : @vmin R RNum (map (Rplus a) x) = rmap (Rplus a) (vmin x).
Proof. destruct x as [|u x]; cbn; [reflexivity|]. f_equal. revert u. induction x as [|b x IH]; intros u; cbn; [reflexivity|]. now rewrite off_min, IH. Qed.
Lemma off_vmax a x : @vmax R RNum (map (Rplus a) x) = rmap (Rplus a) (vmax x).
Proof. destruct x as [|u x]; cbn; [reflexivity|]. f_equal. revert u. induction x as [|b x IH]; intros u; cbn; [reflexivity|]. now rewrite off_max, IH. Qed.
Lemma off_nrm_row a mn mx x : @nrm_row R RNum (a + mn) (a + mx) (map (Rplus a) x) = nrm_row mn mx x.
Proof.
  unfold nrm_row. assert (E : @neqb R RNum (a + mn) (a + mx) = neqb mn mx) by (destruct (Reqb_spec' mn mx), (Reqb_spec' (a + mn) (a + mx)); try reflexivity; lra).
  rewrite E, map_length, map_map. destruct (neqb mn mx); [reflexivity|]. apply map_ext. intros v. cbn [nsub ndiv RNum]. f_equal; ring.
Qed.
Lemma off_nrm x x' : Forall2 off_row x x' -> @nrm_sample R RNum false x' = nrm_sample false x.
Proof.
  intros F. unfold nrm_sample. cbv iota.
  assert (G : match mapM vmin x, mapM vmin x', mapM vmax x, mapM vmax x' with
     | Ok a, Ok a', Ok b, Ok b' =>
        map (fun p => @nrm_row R RNum (fst (fst p)) (snd (fst p)) (snd p)) (combine (combine a' b') x') = map (fun p => nrm_row (fst (fst p)) (snd (fst p)) (snd p)) (combine (combine a b) x)
     | Err e, Err e', Err _, Err _ => e = e'
     | _, _, _, _ => False end).
  { induction F as [|r r' x x' [a ->] _ IH]; cbn [mapM]; [reflexivity|]. rewrite off_vmin, off_vmax. destruct r as [|u r]; [cbn; reflexivity|].
    cbn [vmin vmax rmap bind]. set (mn := fold_left nmin r u). set (mx := fold_left nmax r u). set (r0 := u :: r).
    destruct (mapM vmin x), (mapM vmin x'), (mapM vmax x), (mapM vmax x'); cbn [bind] in *; try contradiction; auto.
    cbn [combine map fst snd]. now rewrite off_nrm_row, IH. }
  destruct (mapM vmin x), (mapM vmin x'), (mapM vmax x), (mapM vmax x'); cbn [bind] in *; try contradiction; congruence.
Qed.

(** First preparateurs that do not see offsets: increments with zero padding,
    standardisation and normalisation of every dimension on its own. *)
Definition blind (f : leaf R) : Prop :=
  match f with
  | LINC c => inc_zp c = true /\ (1 <= inc_depth c)%nat
  | LSTD c _ => std_separately c = true
  | LNRM scale_dim => scale_dim = false
  | _ => False
  end.

Section Lib.
Variable W : oracles R.
Variable parse : pystr -> res R.
Variable powf : R -> R -> R.
Variable qf : R -> list R -> R.
Variable eps5 : R.
Variable order : list R -> list R.
Variable show_prep : prep R -> pystr.
Variable show_cut : cut_arg -> pystr.
Variable show_q : q_arg -> pystr.
Variable show_num : R -> pystr.
Variable show_ppv : ppv_cfg R -> pystr.
Notation lib := (library W parse powf qf eps5 order show_prep show_cut show_q show_num show_ppv).

(** The simulation is stated for any relation [CR] of caches, [XR] of inputs and
    any class [first] of preparateurs that map related inputs to equal arrays. *)
Variable CR : dataset R -> dataset R -> Prop.
Variable XR : dataset R -> dataset R -> Prop.
Variable first : leaf R -> Prop.
Variable okL : leaf R -> Prop.
Variable okW : @wkind R -> Prop.
Variable CR_refl : forall c, CR c c.
Variable CR_cache : forall c c' key, CR c c' -> cache_fresh parse c COQUANTILE key = cache_fresh parse c' COQUANTILE key.
Variable CR_leaf : forall c c' f X, okL f -> CR c c' -> leaf_transform parse powf c f X = leaf_transform parse powf c' f X.
Variable okL_fit : forall r f X f', okL f -> leaf_fit eps5 r f X = Ok f' -> okL f'.
Variable CR_wt : forall c c' k X, okW k -> CR c c' -> wt_lookup eps5 c k X = wt_lookup eps5 c' k X.
Variable XR_CR : forall X X', XR X X' -> CR X X'.
Variable XR_length : forall X X', XR X X' -> length X = length X'.
Variable XR_sub : forall X X' (l : list nat), XR X X' -> XR (map (fun i => nth i X []) l) (map (fun i => nth i X' []) l).
Variable first_transform : forall inp inp' f X X', first f -> XR X X' -> leaf_transform parse powf inp' f X' = leaf_transform parse powf inp f X.
Variable first_fit : forall r f X, first f -> leaf_fit eps5 r f X = Ok f.
(** Objects that differ in their caches only. *)
Definition Ro (a b : option (dataset R)) : Prop := match a, b with None, None => True | Some c, Some c' => CR c c' | _, _ => False end.
Definition dflt (a : option (dataset R)) (X : dataset R) : dataset R := match a with Some c => c | None => X end.
Lemma Ro_refl a : Ro a a. Proof. destruct a; cbn; [apply CR_refl|exact Logic.I]. Qed.
Lemma Ro_dflt a b X X' : Ro a b -> CR X X' -> CR (dflt a X) (dflt b X').
Proof. destruct a, b; cbn; tauto. Qed.
Inductive RP : prep R -> prep R -> Prop :=
| RP_leaf f a b : okL f -> Ro a b -> RP (PLeaf f a) (PLeaf f b)
| RP_dim p q d a b : RP p q -> Ro a b -> RP (PDim p d a) (PDim q d b)
| RP_new0 a b : Ro a b -> RP (PNew0 a) (PNew0 b)
| RP_new p q a b : RP p q -> Ro a b -> RP (PNew p a) (PNew q b).
Definition ok_iss (c : @iss_obj R) : Prop := match io_wt c with Some (k, _) => okW k | None => True end.
Definition ok_issO (i : issO R) : Prop := match i with IPlain c _ => ok_iss c | ICos _ _ _ => True end.
Inductive RI : issO R -> issO R -> Prop :=
| RI_plain c a b : ok_iss c -> Ro a b -> RI (IPlain c a) (IPlain c b)
| RI_cos c st a b : Ro a b -> RI (ICos c st a) (ICos c st b).
Inductive RS : sieve R -> sieve R -> Prop :=
| RS_seg c st a b : Ro a b -> RS (SSeg c st a) (SSeg c st b)
| RS_ppv c st a b : Ro a b -> RS (SPpv c st a) (SPpv c st b)
| RS_inc i j d k a b : RS i j -> Ro a b -> RS (SInc i d k a) (SInc j d k b)
| RS_int i j a b : RS i j -> Ro a b -> RS (SInt i a) (SInt j b).
Fixpoint ok_prep (p : prep R) : Prop := match p with PLeaf f _ => okL f | PDim p _ _ => ok_prep p | PNew0 _ => True | PNew p _ => ok_prep p end.
Lemma RP_refl p : ok_prep p -> RP p p. Proof. induction p; intros E; constructor; auto using Ro_refl. Qed.
Lemma RI_refl p : ok_issO p -> RI p p. Proof. destruct p; constructor; auto using Ro_refl. Qed.
Lemma RS_refl p : RS p p. Proof. induction p; constructor; auto using Ro_refl. Qed.
Lemma RP_fit r p q : RP p q -> forall X, run2 RP (pr_fit eps5 r p X) (pr_fit eps5 r q X).
Proof.
  unfold run2. induction 1 as [f a b Hok E|p q d a b Hpq IH E|a b E|p q a b Hpq IH E]; intros X; cbn [pr_fit pr_cache]; fold (dflt a X); fold (dflt b X); pose proof (Ro_dflt a b X X E (CR_refl X)) as D.
  - destruct (leaf_fit eps5 r f X) as [f'|e] eqn:Ef; split; try reflexivity; constructor; auto. now apply (okL_fit r f X).
  - destruct (mapM (py_index (dimX X)) d) as [ds|e]; [|split; [reflexivity|]; constructor; auto].
    specialize (IH (map (select_dims ds) X)). destruct (pr_fit eps5 r p _) as [x p1], (pr_fit eps5 r q _) as [x' q1]. destruct IH as [E1 E2]. cbn [fst snd] in *. subst x'.
      destruct x; cbn [fst snd]; split; try reflexivity; now constructor.
  - split; [reflexivity|now constructor].
  - specialize (IH X). destruct (pr_fit eps5 r p _) as [x p1], (pr_fit eps5 r q _) as [x' q1]. destruct IH as [E1 E2]. cbn [fst snd] in *. subst x'.
    destruct x; cbn [fst snd]; split; try reflexivity; now constructor.
Qed.
Lemma RP_transform p q : RP p q -> forall X, run2 RP (pr_transform parse powf p X) (pr_transform parse powf q X).
Proof.
  unfold run2. induction 1 as [f a b Hok E|p q d a b Hpq IH E|a b E|p q a b Hpq IH E]; intros X; cbn [pr_transform pr_cache]; fold (dflt a X); fold (dflt b X); pose proof (Ro_dflt a b X X E (CR_refl X)) as D.
  - rewrite (CR_leaf _ _ f X Hok D). destruct (leaf_transform parse powf (dflt b X) f X); split; try reflexivity; now constructor.
  - destruct (mapM (py_index (dimX X)) d) as [ds|e]; [|split; [reflexivity|]; constructor; auto].
    specialize (IH (map (select_dims ds) X)). destruct (pr_transform parse powf p _) as [x p1], (pr_transform parse powf q _) as [x' q1]. destruct IH as [E1 E2]. cbn [fst snd] in *. subst x'.
    destruct (dim_transform d (fun _ => x) X); cbn [fst snd]; split; try reflexivity; now constructor.
  - destruct (new_transform None X); split; try reflexivity; now constructor.
  - specialize (IH X). destruct (pr_transform parse powf p _) as [x p1], (pr_transform parse powf q _) as [x' q1]. destruct IH as [E1 E2]. cbn [fst snd] in *. subst x'.
    destruct (new_transform (Some (fun _ => x)) X); cbn [fst snd]; split; try reflexivity; now constructor.
Qed.
Lemma RP_attach c c' p q : CR c c' -> RP p q -> RP (pr_set_cache p (Some c)) (pr_set_cache q (Some c')).
Proof. intros E F. destruct F; constructor; auto. Qed.

Lemma RI_batches i j X : RI i j -> iss_batches eps5 i X = iss_batches eps5 j X.
Proof.
  intros E. destruct E as [c a b Hok E|c st a b E]; [|reflexivity]. cbn [iss_batches]. fold (dflt a X). fold (dflt b X). pose proof (Ro_dflt a b X X E (CR_refl X)) as D.
  destruct c as [ws mode sr wt]. cbn [io_words]. destruct ws as [|w ws]; [reflexivity|]. destruct wt as [[k total]|].
  - apply plain_gen_same. now apply CR_wt.
  - generalize (w :: ws) at 2 4 as us. intros us. generalize 0%nat as m.
    induction us as [|u us IH]; intros m; [reflexivity|]. cbn [plain_gen io_wt io_sr io_cfg is_wt option_map]. rewrite IH. reflexivity.
Qed.
Lemma RI_fit g X i j : RI i j -> fit3 lib RI (iss_fit W g X i) (iss_fit W g X j).
Proof.
  intros E. unfold fit3. destruct E as [c a b Hok E|c st a b E]; cbn [iss_fit]; fold (dflt a X); fold (dflt b X); pose proof (Ro_dflt a b X X E (CR_refl X)) as D.
  - cbn [fst snd]. split; [reflexivity|]. split; [now constructor|reflexivity].
  - destruct (cos_fit c (o_net W g) (o_idx W g) X st) as [[u|e] st']; cbn [fst snd]; (split; [reflexivity|]; split; [now constructor|reflexivity]).
Qed.
Lemma mapM_get (g g' : pystr -> res (cval R)) norm n l cut : (forall k, g k = g' k) -> cuts_of g norm n l cut = cuts_of g' norm n l cut.
Proof. intros E. unfold cuts_of. f_equal. apply mapM_ext. intros [z|r]; cbn; [reflexivity|]. now rewrite E. Qed.
Lemma seg_same c g g' st X : (forall k, g k = g' k) -> seg_transform c g st X = seg_transform c g' st X.
Proof. intros E. unfold seg_transform. now rewrite (mapM_get g g' _ _ _ _ E). Qed.
Lemma RS_transform s s' : RS s s' -> forall X, run2 RS (sv_transform parse s X) (sv_transform parse s' X).
Proof.
  unfold run2. induction 1 as [c st a b E|c st a b E|i j d k a b Hij IH E|i j a b Hij IH E]; intros X; cbn [sv_transform sv_cache];
    fold (dflt a (map (fun x => [x]) X)); fold (dflt b (map (fun x => [x]) X)); pose proof (Ro_dflt a b _ _ E (CR_refl (map (fun x => [x]) X))) as D.
  - rewrite (seg_same c (get_on parse (dflt a (map (fun x => [x]) X))) (get_on parse (dflt b (map (fun x => [x]) X))) st X) by (intros; now apply CR_cache).
    destruct (seg_transform c _ st X) as [[r|e] st']; split; try reflexivity; now constructor.
  - destruct (ppv_transform c st X); split; try reflexivity; now constructor.
  - destruct (wrap_inc d k X X) as [Y|e]; [|split; [reflexivity|now constructor]]. specialize (IH Y).
    destruct (sv_transform parse i Y) as [x i'], (sv_transform parse j Y) as [x' j']. destruct IH as [E1 E2]. cbn [fst snd] in *. subst x'. destruct x; split; try reflexivity; now constructor.
  - specialize (IH (map cumsum X)).
    destruct (sv_transform parse i _) as [x i'], (sv_transform parse j _) as [x' j']. destruct IH as [E1 E2]. cbn [fst snd] in *. subst x'. destruct x; split; try reflexivity; now constructor.
Qed.
Lemma RS_fit sel s s' : RS s s' -> forall X, run2 RS (sv_fit qf sel s X) (sv_fit qf sel s' X).
Proof.
  unfold run2. induction 1 as [c st a b E|c st a b E|i j d k a b Hij IH E|i j a b Hij IH E]; intros X; cbn [sv_fit sv_cache];
    fold (dflt a (map (fun x => [x]) X)); fold (dflt b (map (fun x => [x]) X)); pose proof (Ro_dflt a b _ _ E (CR_refl (map (fun x => [x]) X))) as D.
  - split; [reflexivity|now constructor].
  - destruct (ppv_fit qf c sel X) as [[u|e] q]; split; try reflexivity; now constructor.
  - destruct (wrap_inc d k X X) as [Y|e]; [|split; [reflexivity|now constructor]]. specialize (IH Y).
    destruct (sv_fit qf sel i Y) as [x i'], (sv_fit qf sel j Y) as [x' j']. destruct IH as [E1 E2]. cbn [fst snd] in *. subst x'. destruct x; split; try reflexivity; now constructor.
  - specialize (IH (map cumsum X)).
    destruct (sv_fit qf sel i _) as [x i'], (sv_fit qf sel j _) as [x' j']. destruct IH as [E1 E2]. cbn [fst snd] in *. subst x'. destruct x; split; try reflexivity; now constructor.
Qed.
Lemma RS_copy s s' : RS s s' -> sv_copy order s = sv_copy order s'.
Proof. induction 1 as [c st a b E|c st a b E|i j d k a b Hij IH E|i j a b Hij IH E]; cbn [sv_copy]; now rewrite ?IH. Qed.
Lemma RS_attach c c' p q : CR c c' -> RS p q -> RS (sv_set_cache p (Some c)) (sv_set_cache q (Some c')).
Proof. intros E F. destruct F; constructor; auto. Qed.
Lemma RS_requires s s' : RS s s' -> sv_requires s = sv_requires s'.
Proof. induction 1; cbn; auto. Qed.
Lemma RS_nf s s' : RS s s' -> sv_nfeatures s = sv_nfeatures s'.
Proof. induction 1; cbn; auto. Qed.

Definition first_seed (p : prep R) : Prop := exists f ca, p = PLeaf f ca /\ first f.
Lemma library_sim : kit_sim lib RP RI (fun s s' => RS (so order s) (so order s')) CR XR first_seed.
Proof.
  constructor; cbn [library p_attach i_attach s_attach p_fit i_fit s_fit p_transform s_transform i_requires s_requires i_batches i_n s_nf s_copy prepT issT sieveT rng].
  - intros. now apply RP_attach.
  - intros c c' p p' E F. destruct F; now constructor.
  - intros c c' p p' E F. unfold sieve_attach, so. cbn [proj1_sig]. now apply RS_attach.
  - intros g X p p' F. destruct (RP_fit (o_rand W g) p p' F X) as [E1 E2]. split; [exact E1|]. split; [exact E2|reflexivity].
  - intros. now apply RI_fit.
  - intros g X p p' F. unfold sieve_fit. destruct (RS_fit (r_idx (o_rand W g)) _ _ F X) as [E1 E2]. split; [exact E1|]. split; [exact E2|reflexivity].
  - intros X p p' F. now apply RP_transform.
  - intros X p p' F. unfold sieve_transform. destruct (RS_transform _ _ F X) as [E1 E2]. split; [exact E1|exact E2].
  - intros p p' F. destruct F; reflexivity.
  - intros p p' F. now apply RS_requires.
  - intros p p' X F. now apply RI_batches.
  - intros p p' F. destruct F; reflexivity.
  - intros p p' F. now apply RS_nf.
  - intros p p' F. unfold same. pose proof (RS_copy _ _ F) as E.
    destruct (sieve_copy order p) as [s|e] eqn:E1, (sieve_copy order p') as [s'|e'] eqn:E2.
    + apply sieve_copy_inv in E1, E2. assert (so order s = so order s') by congruence. rewrite <- H. apply RS_refl.
    + apply sieve_copy_inv in E1. apply sieve_copy_err in E2. congruence.
    + apply sieve_copy_inv in E2. apply sieve_copy_err in E1. congruence.
    + apply sieve_copy_err in E1, E2. congruence.
  - intros c p (f & ca & -> & B). now exists f, (Some c).
  - intros g X p (f & ca & -> & B). cbn [pr_fit fst snd]. rewrite (first_fit _ f X B). now exists f, ca.
  - intros X p (f & ca & -> & B). cbn [pr_transform fst snd]. destruct (leaf_transform parse powf _ f X); cbn [snd]; eexists _, _; (split; [reflexivity|exact B]).
  - intros g X X' p p' (f & ca & -> & B) F HX. inversion F; subst. unfold fit3. cbn [pr_fit]. rewrite !(first_fit _ f _ B). cbn [fst snd]. split; [reflexivity|]. split; [now constructor|reflexivity].
  - intros X X' p p' (f & ca & -> & B) F HX. inversion F as [? ? cb Hok E| | |]; subst. unfold run2. cbn [pr_transform pr_cache]. fold (dflt ca X). fold (dflt cb X').
    rewrite (first_transform (dflt ca X) (dflt cb X') f X X' B HX). pose proof (Ro_dflt _ _ _ _ E (XR_CR _ _ HX)) as D. destruct (leaf_transform parse powf (dflt ca X) f X); (split; [reflexivity|]); now constructor.
  - exact XR_length.
  - intros X X' l HX. now apply XR_sub.
  - exact XR_CR.
Qed.
End Lib.

(** Offsets. *)
Lemma off_length X X' : off X X' -> length X = length X'.
Proof. apply F2_length. Qed.
Lemma off_nth X X' i : off X X' -> Forall2 off_row (nth i X []) (nth i X' []).
Proof. intros F. revert i. induction F as [|x x' X X' Hx _ IH]; intros [|i]; cbn [nth]; auto. Qed.
Section Offsets.
Variable parse : pystr -> res R.
Variable powf : R -> R -> R.
Variable eps5 : R.
Lemma blind_transform inp inp' f X X' : blind f -> off X X' -> leaf_transform parse powf inp' f X' = leaf_transform parse powf inp f X.
Proof.
  intros B F. destruct f; cbn [blind] in B; try contradiction; cbn [leaf_transform].
  - now apply off_INC.
  - unfold std_transform. rewrite B. f_equal. clear - F. induction F as [|x x' X X' Hx _ IH]; cbn [map]; [reflexivity|]. f_equal; [|exact IH].
    induction Hx as [|r r' x x' Hr _ IHx]; cbn [map]; [reflexivity|]. f_equal; [now apply off_std_row|exact IHx].
  - subst. unfold nrm_transform. induction F as [|x x' X X' Hx _ IH]; cbn [mapM]; [reflexivity|]. now rewrite (off_nrm _ _ Hx), IH.
Qed.
Lemma blind_fit r f X : blind f -> leaf_fit eps5 r f X = Ok f.
Proof. destruct f; cbn [blind]; try contradiction; intros B; cbn [leaf_fit]; try reflexivity. unfold std_fit. now rewrite B. Qed.

Lemma same_refl c : same_sums c c. Proof. split; reflexivity. Qed.
Lemma cache_same c c' t key : same_sums c c' -> cache_fresh parse c t key = cache_fresh parse c' t key.
Proof. intros [E1 E2]. unfold cache_fresh, compute. now rewrite E1, E2. Qed.
Lemma leaf_same c c' f X : True -> same_sums c c' -> leaf_transform parse powf c f X = leaf_transform parse powf c' f X.
Proof.
  intros _ E. destruct f; cbn [leaf_transform]; try reflexivity.
  - unfold spe_run. destruct step; [|reflexivity]. now rewrite (cache_same c c' _ _ E).
  - unfold win_run. now rewrite !(cache_same c c' _ _ E).
Qed.
Lemma okT_fit (r : rand R) (f : leaf R) X f' : True -> leaf_fit eps5 r f X = Ok f' -> True.
Proof. auto. Qed.
Lemma wt_same c c' k X : True -> same_sums c c' -> wt_lookup eps5 c k X = wt_lookup eps5 c' k X.
Proof. intros _ [E1 E2]. destruct k; cbn [wt_lookup]; try reflexivity. destruct on_prepared; [reflexivity|]. destruct two; now rewrite ?E1, ?E2. Qed.
Lemma off_sub_list X X' (l : list nat) : off X X' -> off (map (fun i => nth i X []) l) (map (fun i => nth i X' []) l).
Proof. intros HX. unfold off. induction l; cbn [map]; constructor; [now apply off_nth|assumption]. Qed.
Definition offsets_sim W qf order show_prep show_cut show_q show_num show_ppv :=
  library_sim W parse powf qf eps5 order show_prep show_cut show_q show_num show_ppv same_sums off blind (fun _ => True) (fun _ => True)
    same_refl (fun c c' => cache_same c c' COQUANTILE) leaf_same okT_fit wt_same off_sums off_length off_sub_list blind_transform blind_fit.
End Offsets.
