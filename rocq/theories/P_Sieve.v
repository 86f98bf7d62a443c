(** * C48 - C53, C55, C57: the sieves *)
From Coq Require Import Ascii String List Arith ZArith Bool Reals Permutation Sorting Lia Lra.
From Verif Require Import Num Arr M_Str M_Np M_Prep M_Cache M_Sieve S_ISS S_Prep S_Sieve
  L_Arr L_Tuples L_Str L_Np L_Prep L_Prep2 L_Sieve L_Sieve2 L_RComp.
Import ListNotations.
Open Scope R_scope.

Lemma requires_asks c : seg_requires c = true <-> asks_quantile (sg_q c).
Proof.
  unfold seg_requires, asks_quantile. rewrite existsb_exists. split.
  - intros [q [Hq E]]. destruct q; try discriminate. eauto.
  - intros [a [b Hq]]. eauto.
Qed.
Lemma edges_of_used c st e : edges_of (sg_q c) st e -> edges_used c st e.
Proof.
  intros [H1 H2]. unfold edges_used. destruct (seg_requires c) eqn:E.
  - apply H1, requires_asks, E.
  - apply H2. intros A. apply requires_asks in A. congruence.
Qed.
Lemma own_shape X n l : has_shape2 X n l -> has_shape (map (fun x => [x]) X) n 1 l.
Proof.
  intros [L F]. split; [now rewrite map_length|]. apply Forall_forall. intros x Hx. apply in_map_iff in Hx as [r [<- Hr]].
  split; [reflexivity|]. constructor; [|constructor]. rewrite Forall_forall in F. auto.
Qed.
Lemma own_entry X i : entry (map (fun x => [x]) X) i 0 = entry2 X i.
Proof.
  unfold entry, row, entry2. assert (E : nth 0 (nth i (map (fun x : list R => [x]) X) []) [] = nth i X []); [|now rewrite E].
  destruct (Nat.ltb_spec i (length X)).
  - rewrite (nth_indep _ [] ((fun x : list R => [x]) [])) by (now rewrite map_length).
    pose proof (map_nth (fun x : list R => [x]) X [] i) as M. cbv beta in M. rewrite M. reflexivity.
  - assert (A1 : nth i X [] = []) by now apply nth_overflow. rewrite A1.
    rewrite (nth_overflow (map _ _)) by (now rewrite map_length). reflexivity.
Qed.

(** The input that determines the cuts. *)
Definition input_of (ca : option (list (list (list R)))) (X : list (list R)) : list (list (list R)) :=
  match ca with Some inp => inp | None => map (fun x => [x]) X end.
Lemma input_fits ca X n l : has_shape2 X n l -> cache_fits ca n l -> exists d, has_shape (input_of ca X) n d l /\ (1 <= d)%nat.
Proof.
  intros HX HC. destruct ca as [inp|]; [exact HC|]. exists 1%nat. split; [now apply own_shape|lia].
Qed.
Lemma input_entry ca X i : entry (input_of ca X) i 0 = cut_series ca X i.
Proof. destruct ca as [inp|]; [reflexivity|apply own_entry]. Qed.
Lemma sv_seg parse c st ca X :
  sv_transform parse (SSeg c st ca) X
  = match seg_transform c (get_on parse (input_of ca X)) st X with
    | (Ok r, st') => (Ok r, SSeg c st' ca)
    | (Err e, st') => (Err e, SSeg c st' (Some (input_of ca X)))
    end.
Proof. destruct ca; reflexivity. Qed.

(** ** C49 *)
Theorem C49_segment_features parse c st ca e X n l :
  has_shape2 X n l -> (1 <= n)%nat -> (1 <= l)%nat -> cache_fits ca n l ->
  good_norm (sg_norm c) -> Forall (good_cut parse l) (sg_cut c) ->
  sg_kind c <> KMAX -> sg_kind c <> KMIN -> sg_kind c <> KEND ->
  edges_of (sg_q c) st e -> e <> [] ->
  exists Y, sv_transform parse (SSeg c st ca) X = (Ok Y, SSeg c (Some e) ca) /\
    has_shape2 Y n (length (sg_cut c) * (length e - 1)) /\
    forall i, (i < n)%nat -> exists cs,
      borders parse (sg_norm c) (cut_series ca X i) l (sg_cut c) cs /\ length cs = S (length (sg_cut c)) /\
      forall j q, (j < length (sg_cut c))%nat -> (q < length e - 1)%nat ->
        feature (sg_kind c) (entry2 X i) (nth j cs 0%nat) (nth (S j) cs 0%nat) (nth q e NInf) (nth (S q) e NInf)
          (nth (j * (length e - 1) + q) (nth i Y []) 0).
Proof.
  intros HX Hn Hl HC HN Hcut N1 N2 N3 HE Hne.
  destruct (input_fits ca X n l HX HC) as [d [HI Hd]].
  destruct (seg_transform_spec parse c st e X n l (input_of ca X) d (fun _ _ _ _ _ => True)) as [Y [EY [SY VY]]]; auto.
  - now apply edges_of_used.
  - intros i Hi a b lo hi Hab Hb _. now apply cell_spec.
  - exists Y. rewrite sv_seg, EY. split; [reflexivity|]. split; [exact SY|]. intros i Hi.
    rewrite <- input_entry. apply VY, Hi.
Qed.
Print Assumptions C49_segment_features.

(** The features of MPI, XPI and CUR are what their names say also at the
    extremes: CUR is non-negative. *)
Theorem C49_cur_nonneg f a b lo hi v : feature KCUR f a b lo hi v -> 0 <= v.
Proof.
  unfold feature. intros ->. induction (times_in _ _ _ _) as [|t T IH]; [cbn; lra|]. cbn [map].
  rewrite Rsum_cons. pose proof (Rle_0_sqr (second_diff f t)) as Q. unfold Rsqr in Q. lra.
Qed.

(** A non-trivial instance: x = (1, 3, 2, 5), cuts 2 and -1, edges 0 and inf,
    inc = 1. *)
Example C49_instance parse : exists Y,
  sv_transform parse (SSeg (seg_new (KNPI 1) [CutI 2; CutI (-1)] None (str "L2")) None None) [[1; 3; 2; 5]]
  = (Ok Y, SSeg (seg_new (KNPI 1) [CutI 2; CutI (-1)] None (str "L2")) (Some [Fin 0; PInf]) None).
Proof.
  destruct (C49_segment_features parse (seg_new (KNPI 1) [CutI 2; CutI (-1)] None (str "L2")) None None [Fin 0; PInf]
              [[1; 3; 2; 5]] 1 4) as [Y [E _]]; try discriminate; try lia.
  - split; [reflexivity|repeat constructor].
  - exact I.
  - now right.
  - repeat constructor; cbn; lia.
  - split; [|reflexivity]. intros [a [b H]]. cbn in H. intuition discriminate.
  - eauto.
Qed.

(** ** C48 *)
Theorem C48_cut_order {T} `{Num T} parse k cut cut' q norm st ca (X Y : list (list T)) : Permutation cut cut' ->
  (fst (sv_transform parse (SSeg {| sg_kind := k; sg_cut := cut; sg_q := q; sg_norm := norm |} st ca) X) = Ok Y <->
   fst (sv_transform parse (SSeg {| sg_kind := k; sg_cut := cut'; sg_q := q; sg_norm := norm |} st ca) X) = Ok Y).
Proof.
  assert (G : forall cut cut', Permutation cut cut' ->
   fst (sv_transform parse (SSeg {| sg_kind := k; sg_cut := cut; sg_q := q; sg_norm := norm |} st ca) X) = Ok Y ->
   fst (sv_transform parse (SSeg {| sg_kind := k; sg_cut := cut'; sg_q := q; sg_norm := norm |} st ca) X) = Ok Y).
  { clear. intros cut cut' P. cbn [sv_transform sv_cache]. set (inp := match ca with Some i => i | None => _ end).
    destruct (seg_transform _ (get_on parse inp) st X) as [[r|e] st'] eqn:E; cbn [fst]; [|discriminate]. intros Er. injection Er as ->.
    apply (seg_transform_perm {| sg_kind := k; sg_cut := cut; sg_q := q; sg_norm := norm |} cut' _ st X Y st' P) in E.
    cbn [sg_kind sg_cut sg_q sg_norm] in E. rewrite E. reflexivity. }
  intros P. split; apply G; [exact P|now symmetry].
Qed.
Print Assumptions C48_cut_order.

Lemma last_nth_S {A} (l : list A) d m : length l = S m -> last l d = nth m l d.
Proof.
  revert m. induction l as [|x [|y l] IH]; intros m E; cbn [length] in E; [discriminate| |].
  - replace m with 0%nat by lia. reflexivity.
  - destruct m as [|m]; [lia|]. change (last (x :: y :: l) d) with (last (y :: l) d). cbn [nth]. apply IH. cbn [length]. lia.
Qed.
Lemma Rsum_upto_ext' f g m : (forall i, (i < m)%nat -> f i = g i) -> Rsum_upto f m = Rsum_upto g m.
Proof. induction m as [|m IH]; intros E; [reflexivity|]. cbn. rewrite IH by (intros; apply E; lia). now rewrite E by lia. Qed.

(** NPI: adjacent bins add up, adjacent segments add up, and the whole row adds
    up to the count of all increments before the last border whose value lies
    between the outermost edges. *)
Theorem C48_npi_additive parse inc cut q norm st ca e X n l :
  has_shape2 X n l -> (1 <= n)%nat -> (1 <= l)%nat -> cache_fits ca n l ->
  good_norm norm -> Forall (good_cut parse l) cut ->
  edges_of q st e -> edges_sorted e -> e <> [] ->
  let c := {| sg_kind := KNPI inc; sg_cut := cut; sg_q := q; sg_norm := norm |} in
  let m := (length e - 1)%nat in
  exists Y, sv_transform parse (SSeg c st ca) X = (Ok Y, SSeg c (Some e) ca) /\
    forall i, (i < n)%nat -> exists cs,
      borders parse norm (cut_series ca X i) l cut cs /\
      let f := inc_view inc (entry2 X i) in
      let y := nth i Y [] in
      (forall j, (j < length cut)%nat ->
         Rsum_upto (fun k => nth (j * m + k) y 0) m
         = INR (length (times_in (bin (nth 0 e NInf) (last e NInf)) f (nth j cs 0%nat) (nth (S j) cs 0%nat)))) /\
      (forall k, (k < m)%nat ->
         Rsum_upto (fun j => nth (j * m + k) y 0) (length cut)
         = INR (length (times_in (bin (nth k e NInf) (nth (S k) e NInf)) f 0 (last cs 0%nat)))) /\
      Rsum y = INR (length (times_in (bin (nth 0 e NInf) (last e NInf)) f 0 (last cs 0%nat))).
Proof.
  intros HX Hn Hl HC HN Hcut HE Hs Hne c m.
  destruct (C49_segment_features parse c st ca e X n l HX Hn Hl HC HN Hcut) as [Y [EY [SY VY]]]; try discriminate; auto.
  exists Y. split; [exact EY|]. intros i Hi. destruct (VY i Hi) as [cs [B [Lc V]]]. exists cs. split; [exact B|].
  intros f y. unfold c in *. cbn [sg_kind sg_cut sg_norm feature] in V, Lc, B, SY. fold m in V.
  assert (Le : length e = S m) by (unfold m; destruct e; [contradiction|cbn; lia]).
  assert (Hy : length y = (length cut * m)%nat).
  { destruct SY as [L F]. rewrite Forall_forall in F. apply F, nth_In. lia. }
  destruct B as [Sc [Bc [ps [Pc Fc]]]].
  assert (C0 : nth 0 cs 0%nat = 0%nat).
  { assert (K : In 0%nat cs) by (eapply Permutation_in; [symmetry; exact Pc|now left]).
    clear - Sc K. destruct Sc as [|x cs Sc Fx]; [reflexivity|]. cbn. destruct K as [->|K]; [reflexivity|].
    rewrite Forall_forall in Fx. specialize (Fx 0%nat K). lia. }
  assert (A1 : forall j, (j < length cut)%nat ->
         Rsum_upto (fun k => nth (j * m + k) y 0) m
         = INR (length (times_in (bin (nth 0 e NInf) (last e NInf)) f (nth j cs 0%nat) (nth (S j) cs 0%nat)))).
  { intros j Hj. rewrite (last_nth_S e NInf m Le). rewrite <- (bins_sum f _ _ e Hs m ltac:(lia)).
    apply Rsum_upto_ext'. intros k Hk. unfold y. rewrite (V j k Hj Hk). reflexivity. }
  split; [exact A1|]. split.
  - intros k Hk. rewrite (last_nth_S cs 0%nat (length cut) Lc). rewrite <- C0 at 1.
    rewrite <- (segments_sum _ f cs Sc (length cut) ltac:(lia)).
    apply Rsum_upto_ext'. intros j Hj. unfold y. now rewrite (V j k Hj Hk).
  - rewrite Rsum_nth, Hy, Rsum_upto_mul. rewrite (Rsum_upto_ext' _ _ _ A1).
    rewrite (last_nth_S cs 0%nat (length cut) Lc).
    rewrite (segments_sum _ f cs Sc (length cut) ltac:(lia)), C0. reflexivity.
Qed.
Print Assumptions C48_npi_additive.
