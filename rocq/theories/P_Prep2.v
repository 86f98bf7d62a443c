(** Properties C67-C69: FFN, RDW and SPE.  An unfitted or fitted preparateur
    object is [PLeaf f cache]; [fst (pr_transform .. p X)] is what
    [p.transform(X)] returns (or raises). *)
From Coq Require Import Ascii String List Arith ZArith Lia Bool Reals Lra.
From Verif Require Import Num Arr M_Str M_Np M_Prep M_Cache M_PrepObj S_ISS S_Prep L_Arr L_Np L_Tuples L_Prep L_Prep2 L_Prep3 L_Cos L_Prep4 L_WordObj.
Import ListNotations.
Open Scope R_scope.

(** * C67: FFN *)
(** Weights of a network with [d] inputs, [hid] hidden and [out] output units. *)
Definition network (d hid out : nat) (W1 : list (list R)) (b : list R) (W2 : list (list R)) : Prop :=
  length W1 = hid /\ Forall (fun r => length r = d) W1 /\ length b = hid /\
  length W2 = out /\ Forall (fun r => length r = hid) W2.
Definition ffn_obj (d_out : nat) (d_hidden : option nat) (center relu_out : bool) W1 b W2 (ca : option (dataset R)) : prep R :=
  PLeaf (LFFN d_out d_hidden {| ffn_center := center; ffn_relu_out := relu_out |}
           (Some {| ffn_w1 := W1; ffn_b := b; ffn_w2 := W2 |})) ca.
Lemma network_shaped d hid out W1 b W2 : network d hid out W1 b W2 -> net_shaped d {| ffn_w1 := W1; ffn_b := b; ffn_w2 := W2 |}.
Proof. intros (H1 & H2 & H3 & H4 & H5). unfold net_shaped. cbn. rewrite H1. auto. Qed.
Lemma ffn_runs parse powf d_out d_hidden center relu_out W1 b W2 ca X n d l hid :
  has_shape X n d l -> (1 <= d)%nat -> network d hid d_out W1 b W2 ->
  fst (pr_transform parse powf (ffn_obj d_out d_hidden center relu_out W1 b W2 ca) X) =
  Ok (built n d_out l (fun i o t => two_layer relu_out W1 b W2 d hid
     (fun j => entry X i j t - (if center then mean_of (entry X i j) l else 0)) o)).
Proof.
  intros HX Hd HN. unfold ffn_obj. cbn [pr_transform pr_cache leaf_transform].
  rewrite (ffn_spec _ _ X n d l HX Hd (network_shaped _ _ _ _ _ _ HN)). cbn [fst ffn_w1 ffn_b ffn_w2 ffn_center ffn_relu_out].
  destruct HN as (H1 & _ & _ & H4 & _). now rewrite H1, H4.
Qed.
Theorem C67_ffn : forall parse powf d_out d_hidden center relu_out W1 b W2 ca X n d l hid,
  has_shape X n d l -> (1 <= d)%nat -> network d hid d_out W1 b W2 ->
  exists Y, fst (pr_transform parse powf (ffn_obj d_out d_hidden center relu_out W1 b W2 ca) X) = Ok Y /\
  has_shape Y n d_out l /\
  forall i o t, (i < n)%nat -> (o < d_out)%nat -> (t < l)%nat ->
    entry Y i o t = two_layer relu_out W1 b W2 d hid
      (fun j => entry X i j t - (if center then mean_of (entry X i j) l else 0)) o.
Proof.
  intros. eexists. split; [eapply ffn_runs; eauto|]. split; [apply built_shape|]. intros. now apply built_entry.
Qed.
Print Assumptions C67_ffn.
(** What a network computes does not depend on the level of a centred series. *)
Theorem C67_centred_translation_invariant : forall parse powf d_out d_hidden relu_out W1 b W2 ca X X' n d l hid (k : nat -> nat -> R),
  has_shape X n d l -> has_shape X' n d l -> (1 <= d)%nat -> network d hid d_out W1 b W2 ->
  (forall i j t, (i < n)%nat -> (j < d)%nat -> (t < l)%nat -> entry X' i j t = entry X i j t + k i j) ->
  fst (pr_transform parse powf (ffn_obj d_out d_hidden true relu_out W1 b W2 ca) X') =
  fst (pr_transform parse powf (ffn_obj d_out d_hidden true relu_out W1 b W2 ca) X).
Proof.
  intros parse powf d_out d_hidden relu_out W1 b W2 ca X X' n d l hid k HX HX' Hd HN E.
  rewrite (ffn_runs _ _ _ _ _ _ _ _ _ _ X n d l hid HX Hd HN), (ffn_runs _ _ _ _ _ _ _ _ _ _ X' n d l hid HX' Hd HN).
  f_equal. apply map_ext_in. intros i Hi. apply in_seq in Hi. apply map_ext. intros o. apply map_ext_in. intros t Ht. apply in_seq in Ht.
  apply two_layer_ext. intros j Hj. rewrite E by lia.
  rewrite (mean_ext (entry X' i j) (fun t => entry X i j t + k i j)) by (intros u Hu; apply E; lia).
  rewrite mean_shift by lia. ring.
Qed.
Print Assumptions C67_centred_translation_invariant.
(** "Transforms time steps individually": without centring, equal time steps
    give equal outputs, whatever happens at other times and in other series. *)
Theorem C67_time_steps_individually : forall parse powf d_out d_hidden relu_out W1 b W2 ca ca' X X' n n' d l l' hid Y Y' i i' t t',
  has_shape X n d l -> has_shape X' n' d l' -> (1 <= d)%nat -> network d hid d_out W1 b W2 ->
  fst (pr_transform parse powf (ffn_obj d_out d_hidden false relu_out W1 b W2 ca) X) = Ok Y ->
  fst (pr_transform parse powf (ffn_obj d_out d_hidden false relu_out W1 b W2 ca') X') = Ok Y' ->
  (i < n)%nat -> (i' < n')%nat -> (t < l)%nat -> (t' < l')%nat ->
  (forall j, (j < d)%nat -> entry X i j t = entry X' i' j t') ->
  forall o, (o < d_out)%nat -> entry Y i o t = entry Y' i' o t'.
Proof.
  intros parse powf d_out d_hidden relu_out W1 b W2 ca ca' X X' n n' d l l' hid Y Y' i i' t t' HX HX' Hd HN E E' Hi Hi' Ht Ht' K o Ho.
  rewrite (ffn_runs _ _ _ _ _ _ _ _ _ _ X n d l hid HX Hd HN) in E. rewrite (ffn_runs _ _ _ _ _ _ _ _ _ _ X' n' d l' hid HX' Hd HN) in E'.
  injection E as <-. injection E' as <-. rewrite !built_entry by assumption. apply two_layer_ext. intros j Hj. now rewrite K.
Qed.
Print Assumptions C67_time_steps_individually.
(** Networks with
    [relu_out] have non-negative output. *)
Theorem C67_relu_out_nonneg : forall parse powf d_out d_hidden center W1 b W2 ca X n d l hid Y i o t,
  has_shape X n d l -> (1 <= d)%nat -> network d hid d_out W1 b W2 ->
  fst (pr_transform parse powf (ffn_obj d_out d_hidden center true W1 b W2 ca) X) = Ok Y ->
  (i < n)%nat -> (o < d_out)%nat -> (t < l)%nat -> 0 <= entry Y i o t.
Proof.
  intros parse powf d_out d_hidden center W1 b W2 ca X n d l hid Y i o t HX Hd HN E Hi Ho Ht.
  rewrite (ffn_runs _ _ _ _ _ _ _ _ _ _ X n d l hid HX Hd HN) in E. injection E as <-. rewrite built_entry by assumption.
  unfold two_layer. apply Rmax_l.
Qed.
Print Assumptions C67_relu_out_nonneg.
(** Fitting draws a network of the announced size for the dimensions of the
    training set ([d_hidden] defaults to twice their number); before the first
    fit, and on series of another dimension, [transform] raises. *)
Definition sized (r : rand R) : Prop := forall k a b, length (r_mat r k a b) = a /\ Forall (fun row => length row = b) (r_mat r k a b).
Theorem C67_fit : forall eps r d_out d_hidden c st X n d l, sized r -> has_shape X n d l -> (1 <= n)%nat ->
  exists W1 b W2, network d (match d_hidden with None => 2 * d | Some h => h end) d_out W1 b W2 /\
  pr_fit eps r (PLeaf (LFFN d_out d_hidden c st) None) X =
    (Ok tt, ffn_obj d_out d_hidden (ffn_center c) (ffn_relu_out c) W1 b W2 None).
Proof.
  intros eps r d_out d_hidden c st X n d l Hr HX Hn. cbn [pr_fit pr_cache leaf_fit]. rewrite (dimX_shape X n d l HX Hn).
  set (hid := match d_hidden with None => (2 * d)%nat | Some k => k end).
  eexists _, _, _. split; [|unfold ffn_obj; destruct c; reflexivity].
  destruct (Hr 0%nat hid d) as [A1 A2]. destruct (Hr 1%nat 1%nat hid) as [B1 B2]. destruct (Hr 2%nat d_out hid) as [C1 C2].
  repeat split; auto. destruct (r_mat r 1 1 hid) as [|row rest]; [discriminate|]. cbn [hd]. now inversion B2.
Qed.
Print Assumptions C67_fit.
Theorem C67_errors : forall parse powf d_out d_hidden c ca X,
  fst (pr_transform (T := R) parse powf (PLeaf (LFFN d_out d_hidden c None) ca) X) = Err RuntimeError /\
  (forall center relu_out W1 b W2 hid d n d' l, network d hid d_out W1 b W2 -> (1 <= hid)%nat -> (1 <= n)%nat -> has_shape X n d' l -> d' <> d ->
   fst (pr_transform parse powf (ffn_obj d_out d_hidden center relu_out W1 b W2 ca) X) = Err ValueError).
Proof.
  intros parse powf d_out d_hidden c ca X. split; [reflexivity|].
  intros center relu_out W1 b W2 hid d n d' l (H1 & H2 & _) Hh Hn HX Hne. unfold ffn_obj. cbn [pr_transform pr_cache leaf_transform ffn_transform ffn_w1].
  destruct X as [|x X]; [destruct HX; cbn in *; lia|]. destruct HX as [_ HF]. inversion HF as [|? ? [Hx _] ?]; subst.
  destruct W1 as [|w W1]; [cbn in Hh; lia|]. inversion H2; subst. cbn [forallb]. replace (length w =? length x)%nat with false; [reflexivity|].
  symmetry. now apply Nat.eqb_neq, Nat.neq_sym.
Qed.
Print Assumptions C67_errors.
Example C67_ex : network 2 2 1 [[1; 0]; [0; -1]] [0; 1] [[1; 2]] /\
  two_layer false [[1; 0]; [0; -1]] [0; 1] [[1; 2]] 2 2 (fun j => if (j =? 0)%nat then 3 else -4) 0 = 13 /\
  two_layer false [[1; 0]; [0; -1]] [0; 1] [[1; 2]] 2 2 (fun j => if (j =? 0)%nat then -3 else 4) 0 = 0.
Proof.
  split; [repeat constructor|]. unfold two_layer. cbn [Rsum_upto nth Nat.eqb]. split.
  - rewrite !Rmax_right by lra. lra.
  - rewrite !Rmax_left by lra. lra.
Qed.

(** * C68: RDW *)
Theorem C68_rdw : forall parse powf dist w ca X n d l, has_shape X n d l -> length w = d ->
  exists Y, fst (pr_transform parse powf (PLeaf (LRDW dist (Some w)) ca) X) = Ok Y /\ has_shape Y n d l /\
  forall i j t, (i < n)%nat -> (j < d)%nat -> (t < l)%nat -> entry Y i j t = powf (entry X i j t) (nth j w 0).
Proof.
  intros parse powf dist w ca X n d l HX Hw. exists (built n d l (fun i j t => powf (entry X i j t) (nth j w 0))).
  split; [|split; [apply built_shape|intros; now apply built_entry]].
  cbn [pr_transform pr_cache leaf_transform]. rewrite (rdw_apply powf w X n d l HX Hw). reflexivity.
Qed.
Print Assumptions C68_rdw.
(** The exponents drawn with dist='uniform' sum to one. *)
Theorem C68_uniform_exponents_sum_one : forall eps r st X w,
  pr_fit eps r (PLeaf (LRDW false st) None) X = (Ok tt, PLeaf (LRDW false (Some w)) None) ->
  Rsum (hd [] (r_mat r 0 1 (dimX X))) <> 0 -> Rsum w = 1.
Proof.
  intros eps r st X w E Hs. cbn [pr_fit pr_cache leaf_fit rdw_fit bind] in E. injection E as <-.
  set (v := hd [] (r_mat r 0 1 (dimX X))) in *. rewrite vsum_Rsum.
  assert (G : forall c l, Rsum (map (fun x => ndiv x c) l) = Rsum l / c).
  { intros c l. induction l as [|x l IH]; cbn [map]; [cbn; unfold Rdiv; ring|].
    change (Rsum (ndiv x c :: map (fun x => ndiv x c) l)) with (x / c + Rsum (map (fun x => ndiv x c) l)).
    rewrite IH. change (Rsum (x :: l)) with (x + Rsum l). unfold Rdiv. ring. }
  rewrite G. field. exact Hs.
Qed.
Print Assumptions C68_uniform_exponents_sum_one.
(** The parameters of the Dirichlet distribution. *)
Theorem C68_dirichlet_parameters : forall eps X n d l, 0 < eps -> has_shape X n d l -> (1 <= n)%nat -> (1 <= d)%nat -> (1 <= l)%nat ->
  (exists i j t, (i < n)%nat /\ (j < d)%nat /\ (t < l)%nat /\ entry X i j t <> 0) ->
  exists al a M, rdw_alphas eps X = Ok al /\ length al = d /\
    (forall j, (j < d)%nat -> size_is (fun i t => entry X i j t) n l (a j)) /\ max_on a d M /\ 0 < M /\
    ((forall j, (j < d)%nat -> a j <> 0) -> forall j, (j < d)%nat -> nth j al 0 = a j / M) /\
    ((exists j, (j < d)%nat /\ a j = 0) -> forall j, (j < d)%nat -> nth j al 0 = a j / M + eps) /\
    (forall j, (j < d)%nat -> 0 < nth j al 0).
Proof.
  intros eps X n d l He HX Hn Hd Hl Hne. destruct (rdw_some eps X n d l HX Hn Hd Hl Hne) as (M & HM & HMp & E).
  assert (B : existsb (fun a => neqb a nzero) (tab d (size_at X n l)) = true <-> exists j, (j < d)%nat /\ size_at X n l j = 0).
  { rewrite existsb_exists. setoid_rewrite In_tab. split.
    - intros (x & (j & Hj & Ex) & Hx). apply neqb_zero in Hx. exists j. split; congruence.
    - intros (j & Hj & Ex). exists (size_at X n l j). split; [now exists j|]. now apply neqb_zero. }
  eexists _, (size_at X n l), M. split; [exact E|]. split; [apply tab_length|]. split; [intros; now apply size_at_is|]. split; [exact HM|]. split; [exact HMp|].
  assert (P : forall j, 0 <= size_at X n l j / M).
  { intros j. apply Rmult_le_pos; [now apply size_nonneg|]. apply Rlt_le. now apply Rinv_0_lt_compat. }
  repeat split.
  - intros Hz j Hj. rewrite tab_nth by exact Hj. destruct (existsb _ _); [|ring]. destruct (proj1 B eq_refl) as (j' & Hj' & Q). now apply Hz in Q.
  - intros Hz j Hj. rewrite tab_nth by exact Hj. apply B in Hz. now rewrite Hz.
  - intros j Hj. rewrite tab_nth by exact Hj. specialize (P j). destruct (existsb _ _); [lra|].
    assert (size_at X n l j <> 0). { intros Z. discriminate (proj2 B (ex_intro _ j (conj Hj Z))). }
    assert (0 < size_at X n l j) by (pose proof (size_nonneg X n l j Hn Hl); lra).
    assert (0 < size_at X n l j / M) by (apply Rdiv_lt_0_compat; lra). lra.
Qed.
Print Assumptions C68_dirichlet_parameters.
(** dist='dirichlet' cannot be fitted on a training set of zeros; on every other
    one the exponents are what the generator returns. *)
Theorem C68_dirichlet_fit : forall eps r st X n d l, has_shape X n d l -> (1 <= n)%nat -> (1 <= d)%nat -> (1 <= l)%nat ->
  ((forall i j t, (i < n)%nat -> (j < d)%nat -> (t < l)%nat -> entry X i j t = 0) ->
     fst (pr_fit eps r (PLeaf (LRDW true st) None) X) = Err ValueError) /\
  ((exists i j t, (i < n)%nat /\ (j < d)%nat /\ (t < l)%nat /\ entry X i j t <> 0) ->
     pr_fit eps r (PLeaf (LRDW true st) None) X = (Ok tt, PLeaf (LRDW true (Some (hd [] (r_mat r 0 1 d)))) None)).
Proof.
  intros eps r st X n d l HX Hn Hd Hl. split; intros H0; cbn [pr_fit pr_cache leaf_fit rdw_fit].
  - now rewrite (rdw_all_zero eps X n d l HX Hn Hd Hl H0).
  - destruct (rdw_some eps X n d l HX Hn Hd Hl H0) as (M & _ & _ & ->). cbn [bind]. now rewrite (dimX_shape X n d l HX Hn).
Qed.
Print Assumptions C68_dirichlet_fit.
(** Documented: the parameters are "proportional to the maximal absolute value
    of each dimension in the training set".  They are not: here both dimensions
    have the same maximal absolute value. *)
Theorem C68_documented_parameters_refuted : exists X al eps, has_shape X 2 2 1 /\ rdw_alphas eps X = Ok al /\
  max_on (fun i => Rabs (entry X i 0 0)) 2 1 /\ max_on (fun i => Rabs (entry X i 1 0)) 2 1 /\ nth 0 al 0 <> nth 1 al 0.
Proof.
  set (X := [[[1]; [1]]; [[1]; [0]]] : list (list (list R))).
  assert (HX : has_shape X 2 2 1) by (repeat constructor).
  destruct (C68_dirichlet_parameters 1 X 2 2 1) as (al & a & M & E & _ & Ha & [_ _] & HM & H1 & _); auto; try lra.
  { exists 0%nat, 0%nat, 0%nat. repeat split; auto. cbn. lra. }
  exists X, al, 1. split; [exact HX|]. split; [exact E|].
  assert (A0 : a 0%nat = 1).
  { destruct (Ha 0%nat ltac:(lia)) as [(t & Ht & <-) _]. destruct t; [|lia]. unfold mean_of. cbn. rewrite Rabs_R1. lra. }
  assert (A1 : a 1%nat = 1 / 2).
  { destruct (Ha 1%nat ltac:(lia)) as [(t & Ht & <-) _]. destruct t; [|lia]. unfold mean_of. cbn. rewrite Rabs_R1, Rabs_R0. lra. }
  repeat split.
  - exists 0%nat. split; [lia|]. cbn. apply Rabs_R1.
  - intros [|[|t]] Ht; cbn; [rewrite Rabs_R1; lra|rewrite Rabs_R1; lra|lia].
  - exists 0%nat. split; [lia|]. cbn. apply Rabs_R1.
  - intros [|[|t]] Ht; cbn; [rewrite Rabs_R1; lra|rewrite Rabs_R0; lra|lia].
  - assert (Hz : forall j, (j < 2)%nat -> a j <> 0) by (intros [|[|j]] Hj; [lra|lra|lia]).
    rewrite (H1 Hz 0%nat), (H1 Hz 1%nat) by lia. rewrite A0, A1. intros Q.
    assert (1 = 1 / 2). { apply (Rmult_eq_reg_r (/ M)); [exact Q|]. apply Rinv_neq_0_compat. lra. } lra.
Qed.
Print Assumptions C68_documented_parameters_refuted.
Theorem C68_unfitted : forall parse powf dist ca X,
  fst (pr_transform (T := R) parse powf (PLeaf (LRDW dist None) ca) X) = Err AttributeError.
Proof. reflexivity. Qed.
Print Assumptions C68_unfitted.

(** * C69: SPE *)
(** Without [step_transform]: the embedding of step t is f(t / T^freq), counted
    from t = 0. *)
Theorem C69_spe : forall parse powf freq (mult : bool) fn ml ca X n d l,
  has_shape X n d l -> (1 <= n)%nat -> (1 <= d)%nat ->
  let p := PLeaf (LSPE freq (str (if mult then "multiplicative" else "additive")%string) fn None ml) ca in
  let f := match fn with None => sin | Some g => g end in
  let T := match ml with None => l | Some m => m end in
  exists Y, fst (pr_transform parse powf p X) = Ok Y /\ has_shape Y n d l /\
  forall i j t, (i < n)%nat -> (j < d)%nat -> (t < l)%nat ->
    entry Y i j t = if mult then entry X i j t * f (INR t / powf (INR T) freq)
                    else entry X i j t + f (INR t / powf (INR T) freq).
Proof.
  intros parse powf freq mult fn ml ca X n d l HX Hn Hd p f T. unfold p. cbn [pr_transform pr_cache leaf_transform].
  rewrite (spe_plain parse powf _ freq mult fn ml X n d l HX Hn Hd). eexists. split; [reflexivity|]. split; [apply built_shape|].
  intros i j t Hi Hj Ht. rewrite built_entry by assumption. unfold spe_wave, f, T. destruct mult; reflexivity.
Qed.
Print Assumptions C69_spe.
(** With [step_transform] 'L1' or 'L2', [t] is the variation of the first
    dimension of the series in the cache up to t (its value at the end is T);
    without a cache these are the transformed series themselves. *)
Theorem C69_spe_step_transform : forall parse powf freq (mult two : bool) fn ml ca X n d l dC,
  let C := match ca with Some C => C | None => X end in
  has_shape X n d l -> has_shape C n dC l -> (1 <= dC)%nat -> (1 <= l)%nat ->
  let p := PLeaf (LSPE freq (str (if mult then "multiplicative" else "additive")%string) fn
                       (Some (str (if two then "L2" else "L1")%string)) ml) ca in
  let f := match fn with None => sin | Some g => g end in
  let v i := variation (if two then Rsqr else Rabs) (entry C i 0) in
  let T i := match ml with None => v i (l - 1)%nat | Some m => INR m end in
  exists Y, fst (pr_transform parse powf p X) = Ok Y /\ has_shape Y n d l /\
  forall i j t, (i < n)%nat -> (j < d)%nat -> (t < l)%nat ->
    entry Y i j t = if mult then entry X i j t * f (v i t / powf (T i) freq)
                    else entry X i j t + f (v i t / powf (T i) freq).
Proof.
  intros parse powf freq mult two fn ml ca X n d l dC C HX HC HdC Hl p f v T. unfold p. cbn [pr_transform pr_cache leaf_transform].
  assert (E : (match ca with Some i => i | None => X end) = C) by reflexivity. rewrite E.
  rewrite (spe_steps parse powf C freq mult two fn ml X n d dC l HX HC HdC Hl). eexists. split; [reflexivity|]. split; [apply built_shape|].
  intros i j t Hi Hj Ht. rewrite built_entry by assumption. unfold spe_wave, f, T, v, norm_of. destruct mult, two; reflexivity.
Qed.
Print Assumptions C69_spe_step_transform.
(** Documented: y_t = x_t * sin(t / T^f) for t = 1, ..., T.  The code counts from
    zero: the default embedding erases the first value of every series. *)
Theorem C69_first_value_erased : forall parse powf freq ml ca X n d l Y i j,
  has_shape X n d l -> (1 <= n)%nat -> (1 <= d)%nat -> (1 <= l)%nat -> (i < n)%nat -> (j < d)%nat ->
  fst (pr_transform parse powf (PLeaf (LSPE freq (str "multiplicative"%string) None None ml) ca) X) = Ok Y -> entry Y i j 0 = 0.
Proof.
  intros parse powf freq ml ca X n d l Y i j HX Hn Hd Hl Hi Hj E.
  destruct (C69_spe parse powf freq true None ml ca X n d l HX Hn Hd) as (Y' & E' & _ & K). cbv zeta in E', K. cbn beta iota in E'.
  rewrite E in E'. injection E' as <-. rewrite K by (auto; lia). cbn [INR]. unfold Rdiv. rewrite Rmult_0_l, sin_0. ring.
Qed.
Print Assumptions C69_first_value_erased.
Theorem C69_documented_start_refuted : exists freq X Y, has_shape X 1 1 1 /\
  fst (pr_transform (T := R) (fun _ => Err ValueError) (fun _ _ => 1) (PLeaf (LSPE freq (str "multiplicative"%string) None None None) None) X) = Ok Y /\
  entry Y 0 0 0 <> entry X 0 0 0 * sin (1 / 1).
Proof.
  exists 1, [[[1]]]. destruct (C69_spe (fun _ => Err ValueError) (fun _ _ => 1) 1 true None None None [[[1]]] 1 1 1) as (Y & E & _ & K); [repeat constructor|lia|lia|].
  exists Y. split; [repeat constructor|]. split; [exact E|]. rewrite K by lia. cbn.
  replace (0 / 1) with 0 by lra. rewrite sin_0, Rmult_0_r, Rmult_1_l.
  assert (0 < sin (1 / 1)); [|lra]. apply sin_gt_0; [lra|]. pose proof PI_RGT_0. pose proof PI2_3_2. unfold PI2 in *. lra.
Qed.
Print Assumptions C69_documented_start_refuted.
Theorem C69_errors : forall parse powf freq op fn step ml ca (X : dataset R) n d l,
  has_shape X n d l -> (1 <= n)%nat -> (1 <= d)%nat ->
  (op <> str "multiplicative"%string -> op <> str "additive"%string -> step = None ->
     fst (pr_transform parse powf (PLeaf (LSPE freq op fn step ml) ca) X) = Err ValueError) /\
  (forall key, step = Some key -> key <> str "L1"%string -> key <> str "L2"%string ->
     fst (pr_transform parse powf (PLeaf (LSPE freq op fn step ml) ca) X) = Err KeyError).
Proof.
  intros parse powf freq op fn step ml ca X n d l HX Hn Hd.
  assert (N : forall a b : pystr, a <> b -> eqs a b = false) by (intros a b Hab; destruct (eqs a b) eqn:Q; [apply eqs_true in Q; contradiction|reflexivity]).
  split.
  - intros H1 H2 ->. cbn [pr_transform pr_cache leaf_transform]. unfold spe_run. cbn [bind]. now rewrite (N op _ H1), (N op _ H2).
  - intros key -> H1 H2. cbn [pr_transform pr_cache leaf_transform]. unfold spe_run, cache_fresh, compute. now rewrite (N key _ H1), (N key _ H2).
Qed.
Print Assumptions C69_errors.
