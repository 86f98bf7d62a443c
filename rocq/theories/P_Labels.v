(** C85: what the labels of sieve features say. *)
From Coq Require Import Ascii String List Arith ZArith Bool Reals Permutation Sorting Lia Lra.
From Verif Require Import Num Arr M_Str M_Np M_Prep M_Cache M_Sieve M_PrepObj M_Cos M_Semiring M_Words M_ISS M_Seeds S_ISS S_Prep S_Sieve L_Sieve P_Sieve P_Sieve2 P_Sieve3.
Import ListNotations.

Section Labels.
Variable show_cut : cut_arg -> pystr.
Variable show_q : q_arg -> pystr.
Variable show_ppv : ppv_cfg R -> pystr.
Local Notation label s k := (sv_label show_cut show_q show_ppv s k).

(** The text of a label: class, inc if it has one, cut and bin. *)
Definition label_text (k : seg_kind) (cut : cut_arg) (a b : q_arg) : pystr :=
  seg_name k ++ (match is_inc_kind k with Some i => str "[inc=" ++ str_Z i ++ str "]" | None => [] end)
  ++ str "!" ++ show_cut cut ++ str "![" ++ show_q a ++ str ", " ++ show_q b ++ str "]".

(** C85: the features are numbered cut by cut, within a cut bin by bin, and the
    label of a feature consists of the cut and the two entries of q as given. *)
Theorem C85_label : forall (c : seg_cfg) st ca j b dc dq,
  (j < length (sg_cut c))%nat -> (S b < length (sg_q c))%nat ->
  label (SSeg c st ca) (j * (length (sg_q c) - 1) + b)
  = Ok (label_text (sg_kind c) (nth j (sg_cut c) dc) (nth b (sg_q c) dq) (nth (S b) (sg_q c) dq)).
Proof.
  intros c st ca j b dc dq Hj Hb. cbn [sv_label]. unfold seg_label.
  destruct (sg_q c) as [|q0 [|q1 qs]] eqn:EQ; [cbn in Hb; lia|cbn in Hb; lia|].
  set (q := q0 :: q1 :: qs) in *. set (nb := (length q - 1)%nat).
  assert (Hnb : (b < nb)%nat) by (unfold nb; lia).
  replace ((j * nb + b) / nb)%nat with j by (rewrite Nat.div_add_l by lia; rewrite Nat.div_small by exact Hnb; lia).
  replace ((j * nb + b) mod nb)%nat with b by (rewrite Nat.add_comm, Nat.mod_add by lia; now rewrite Nat.mod_small).
  rewrite (nth_error_nth' (sg_cut c) dc Hj), (nth_error_nth' q dq) by lia. rewrite (nth_error_nth' q dq) by lia.
  unfold label_text. rewrite Nat.add_1_r. reflexivity.
Qed.
(** INC and INT say so in front. *)
Theorem C85_wrapped : forall s d k ca i l, label s i = Ok l ->
  label (SInc s d k ca) i = Ok (str "INC of " ++ l) /\ label (SInt s ca) i = Ok (str "INT of " ++ l).
Proof. intros s d k ca i l E. cbn [sv_label]. rewrite E. split; reflexivity. Qed.
(** Past the last feature there is no label. *)
Theorem C85_out_of_range : forall (c : seg_cfg) st ca i, (2 <= length (sg_q c))%nat ->
  (i >= sv_nfeatures (SSeg c st ca))%nat -> label (SSeg c st ca) i = Err IndexError.
Proof.
  intros c st ca i HQ Hi. cbn [sv_label sv_nfeatures] in *. unfold seg_nfeatures in Hi. unfold seg_label.
  destruct (sg_q c) as [|q0 [|q1 qs]] eqn:EQ; [cbn in HQ; lia|cbn in HQ; lia|].
  set (nb := (length (q0 :: q1 :: qs) - 1)%nat) in *.
  assert (E : nth_error (sg_cut c) (i / nb) = None).
  { apply nth_error_None. apply Nat.div_le_lower_bound; [unfold nb; cbn; lia|]. lia. }
  now rewrite E.
Qed.
End Labels.
Print Assumptions C85_label.
Print Assumptions C85_out_of_range.

Local Open Scope R_scope.
(** C85: the labels are right if the cuts are given in increasing order:
    feature number j (nb - 1) + b is then the one of the segment that ends at
    cut number j and of the bin between the edges number b and b + 1. *)
Theorem C85_increasing_cuts : forall parse c st ca e X n l (ps : nat -> list nat),
  has_shape2 X n l -> (1 <= n)%nat -> (1 <= l)%nat -> cache_fits ca n l ->
  good_norm (sg_norm c) -> Forall (good_cut parse l) (sg_cut c) ->
  sg_kind c <> KMAX -> sg_kind c <> KMIN -> sg_kind c <> KEND ->
  edges_of (sg_q c) st e -> e <> [] ->
  (forall i, (i < n)%nat -> StronglySorted le (ps i) /\ (forall p, In p (ps i) -> (p <= l)%nat) /\
     Forall2 (cut_stands_for parse (sg_norm c) (cut_series ca X i) l) (sg_cut c) (ps i)) ->
  exists Y, fst (sv_transform parse (SSeg c st ca) X) = Ok Y /\
  forall i j b, (i < n)%nat -> (j < length (sg_cut c))%nat -> (b < length e - 1)%nat ->
    feature (sg_kind c) (entry2 X i) (nth j (0 :: ps i)%nat 0%nat) (nth j (ps i) 0%nat) (nth b e NInf) (nth (S b) e NInf)
      (entry2 Y i (j * (length e - 1) + b)).
Proof.
  intros parse c st ca e X n l ps HX Hn Hl HC HN Hcut N1 N2 N3 HE Hne HP.
  destruct (C49_segment_features parse c st ca e X n l HX Hn Hl HC HN Hcut N1 N2 N3 HE Hne) as (Y & E & _ & HF).
  exists Y. split; [now rewrite E|]. intros i j b Hi Hj Hb. destruct (HF i Hi) as (cs & HB & Lc & F).
  destruct (HP i Hi) as (S1 & B1 & F1).
  assert (EC : cs = (0 :: ps i)%nat).
  { apply (borders_unique parse (sg_norm c) (cut_series ca X i) l (sg_cut c)); [exact HB|].
    split; [constructor; [exact S1|apply Forall_forall; intros; lia]|]. split; [intros p [<-|Hp]; [lia|now apply B1]|].
    exists (ps i). split; [apply Permutation_refl|exact F1]. }
  specialize (F j b Hj Hb). rewrite EC in F. exact F.
Qed.
Print Assumptions C85_increasing_cuts.

Lemma ss_perm_unique {A} (le' : A -> A -> Prop) : (forall a b, le' a b -> le' b a -> a = b) ->
  forall l m, StronglySorted le' l -> StronglySorted le' m -> Permutation l m -> l = m.
Proof.
  intros AS. induction l as [|x l IH]; intros m Hl Hm P.
  - now apply Permutation_nil in P.
  - destruct m as [|y m]; [symmetry in P; now apply Permutation_nil in P|].
    inversion Hl as [|x' l' Sl Fl]; subst. inversion Hm as [|y' m' Sm Fm]; subst.
    assert (E : x = y).
    { assert (I1 : In x (y :: m)) by (apply (Permutation_in _ P); now left).
      assert (I2 : In y (x :: l)) by (apply (Permutation_in _ (Permutation_sym P)); now left).
      destruct I1 as [->|I1]; [reflexivity|]. destruct I2 as [->|I2]; [reflexivity|].
      rewrite Forall_forall in Fl, Fm. apply AS; [now apply Fl|now apply Fm]. }
    subst y. f_equal. apply IH; [assumption|assumption|]. now apply Permutation_cons_inv in P.
Qed.
Lemma xle_anti (a b : xnum R) : xle a b -> xle b a -> a = b.
Proof. destruct a, b; cbn; intros; try tauto; try (f_equal; lra). Qed.
Lemma quantile_unique a b data v v' : is_quantile a b data v -> is_quantile a b data v' -> v = v'.
Proof.
  intros (s & k & r & P & Ss & E & Hr & ->) (s' & k' & r' & P' & Ss' & E' & Hr' & ->).
  assert (s = s').
  { apply (ss_perm_unique Rle); [intros; lra|assumption|assumption|]. now rewrite P, P'. }
  subst s'. assert (K : k = k' /\ r = r').
  { apply (Nat.div_mod_unique b k k' r r' Hr Hr'). lia. }
  destruct K as [-> ->]. reflexivity.
Qed.
Lemma edge_unique data q e e' : is_edge data q e -> is_edge data q e' -> e = e'.
Proof.
  destruct q; cbn [is_edge]; [congruence|congruence|congruence|].
  all: intros (v & -> & Q) (v' & -> & Q'); f_equal; eapply quantile_unique; eassumption.
Qed.
(** The edges in the bins are the ones named, too, if their values increase in
    the order of q. *)
Theorem C85_edges : forall qf sel c st ca X V n l es,
  has_shape2 X n l -> has_shape2 V n l ->
  (forall i t, (i < n)%nat -> (t < l)%nat -> entry2 V i t = fit_view (sg_kind c) (entry2 X i) t) ->
  (forall a b, In (QProb a b) (sg_q c) -> (0 < b)%nat) ->
  Forall2 (is_edge (all_values V)) (sg_q c) es -> edges_sorted es ->
  sv_fit qf sel (SSeg c st ca) X = (Ok tt, SSeg c (Some es) ca).
Proof.
  intros qf sel c st ca X V n l es HX HV E Hb F Ss.
  destruct (C57_fitted_edges qf sel c st ca X V n l HX HV E Hb) as (e & EF & Se & es' & P & F').
  assert (es' = es).
  { clear - F F'. revert es' F'. induction F as [|q x qs xs Hx F IH]; intros es' F'; inversion F' as [|q' x' qs' xs' Hx' F'' ]; subst; [reflexivity|].
    f_equal; [eapply edge_unique; eassumption|now apply IH]. }
  subst es'. rewrite EF. do 3 f_equal. apply (ss_perm_unique xle xle_anti); assumption.
Qed.
Print Assumptions C85_edges.

(** C85 refuted for cuts out of order: two sieves that differ in the order of
    cut only give the same features on every input, but the labels of the
    features are swapped. *)
Theorem C85_decreasing_cuts_refuted : forall show_cut show_q show_ppv k q norm st ca parse,
  (2 <= length q)%nat -> (forall z, show_cut (CutI z) = str_Z z) ->
  let A := SSeg {| sg_kind := k; sg_cut := [CutI 1; CutI 3]; sg_q := q; sg_norm := norm |} st ca in
  let B := SSeg {| sg_kind := k; sg_cut := [CutI 3; CutI 1]; sg_q := q; sg_norm := norm |} st ca in
  (forall X Y, fst (sv_transform parse A X) = Ok Y <-> fst (sv_transform parse B X) = Ok Y) /\
  sv_label show_cut show_q show_ppv A 0 = sv_label show_cut show_q show_ppv B (length q - 1) /\
  sv_label show_cut show_q show_ppv A 0 <> sv_label show_cut show_q show_ppv B 0.
Proof.
  intros show_cut show_q show_ppv k q norm st ca parse HQ SC A B. split; [|split].
  - intros X Y. apply C48_cut_order. apply perm_swap.
  - pose proof (C85_label show_cut show_q show_ppv {| sg_kind := k; sg_cut := [CutI 1; CutI 3]; sg_q := q; sg_norm := norm |} st ca 0 0 (CutI 0) QNeg) as L1.
    pose proof (C85_label show_cut show_q show_ppv {| sg_kind := k; sg_cut := [CutI 3; CutI 1]; sg_q := q; sg_norm := norm |} st ca 1 0 (CutI 0) QNeg) as L2.
    cbn [sg_cut sg_q sg_kind length nth Nat.mul Nat.add] in L1, L2. rewrite Nat.add_0_r in L2. rewrite Nat.add_0_r in L2. unfold A, B.
    rewrite L1 by lia. rewrite L2 by lia. reflexivity.
  - pose proof (C85_label show_cut show_q show_ppv {| sg_kind := k; sg_cut := [CutI 1; CutI 3]; sg_q := q; sg_norm := norm |} st ca 0 0 (CutI 0) QNeg) as L1.
    pose proof (C85_label show_cut show_q show_ppv {| sg_kind := k; sg_cut := [CutI 3; CutI 1]; sg_q := q; sg_norm := norm |} st ca 0 0 (CutI 0) QNeg) as L2.
    cbn [sg_cut sg_q sg_kind length nth Nat.mul Nat.add] in L1, L2. unfold A, B.
    rewrite L1 by lia. rewrite L2 by lia. intros E. injection E as E. unfold label_text in E.
    rewrite !SC in E. do 3 apply app_inv_head in E. discriminate.
Qed.
Print Assumptions C85_decreasing_cuts_refuted.

(** Non-vacuity: NPI with cuts 2, 4 and quantile edges on one series of four
    values; and a label in full. *)
Example C85_example_label : sv_label (fun c => match c with CutI z => str_Z z | CutF s => s end)
    (fun q => match q with QNeg => str "-1" | QZero => str "0" | QOne => str "1" | QProb a b => str "0.5" end) (fun _ : ppv_cfg R => [])
    (SSeg {| sg_kind := KNPI 1; sg_cut := [CutI 2; CutI 4]; sg_q := [QNeg; QProb 1 2; QOne]; sg_norm := str "L2" |} None None) 3
  = Ok (str "NPI[inc=1]!4![0.5, 1]").
Proof. reflexivity. Qed.
Example C85_example_edges : exists es, Forall2 (is_edge [1; 2; 3]) [QNeg; QProb 1 2; QOne] es /\ edges_sorted es.
Proof.
  exists [NInf; Fin 2; PInf]. split.
  - repeat constructor. exists 2. split; [reflexivity|]. exists [1;2;3], 1%nat, 0%nat. split; [reflexivity|]. split.
    { repeat constructor; lra. } cbn. repeat split; [lia|]. lra.
  - repeat constructor.
Qed.
Example C85_example_cuts : forall parse n (s : nat -> R), Forall2 (cut_stands_for parse n s 4) [CutI 2; CutI 4] [2; 4]%nat /\ StronglySorted le [2; 4]%nat.
Proof. intros. split; [repeat constructor; cbn; lia|repeat constructor]. Qed.
