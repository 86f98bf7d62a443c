(** Lemmas about M_Mem2: slices and fruits in memory. *)
From Coq Require Import Ascii String List Arith ZArith Bool Lia.
From Verif Require Import Num Arr M_Str M_Np M_Prep M_Fruit M_Mem M_Mem2 S_Fruit S_Mem S_Mem2 L_Arr L_Np L_Fruit L_Fruit8 L_Mem L_Mem4 L_Mem5.
Import ListNotations.

Section L.
Context {T : Type} `{N : Num T}.
Notation memory := (memory (T := T)).
Notation mem := (mem (T := T)).
Variable K : kit T.
Variable pmem : source (T := T) -> prepT K -> arr -> mem arr.
Hypothesis Hp : pure_preparateurs K pmem.
Hypothesis Hnf : forall c s, s_nf K (s_attach K c s) = s_nf K s.
Variable hk : hooks T.
Variable gs : list (mts T -> mts T).
Variable gs2 : list (dataset T -> dataset T).
Hypothesis Hnext : Forall (fun cb => forall m : memory, fst (cb m) = Ok tt /\ untouched m (snd (cb m))) (on_next_slice hk).
Hypothesis Hprep : Forall observes (on_preparateur hk).
Hypothesis Hend : Forall observes (on_preparation_end hk).
Hypothesis Hits : Forall2 (fun cb g => overwrites cb (map g)) (on_iterated_sum hk) gs.
Hypothesis Hsv : Forall observes (on_sieve hk).
Hypothesis Hse : Forall2 overwrites (on_sieving_end hk) gs2.
Notation slice := (parts (prepT K) (issT K) (sieveT K)).

Definition vfst {A B} (r : res (A * B)) : res A := match r with Ok p => Ok (fst p) | Err e => Err e end.
Lemma preps_computes x m0 : valid m0 x -> forall ps y m, untouched m0 m -> valid m y -> all_boxes K (load m0 x) ps (load m y) ->
  computes (preps_mem K pmem hk (CRef x) ps y) m (vfst (ev_preps K (load m0 x) ps (load m y))).
Proof.
  intros V0. induction ps as [|p ps IH]; intros y m U V B.
  - cbn. unfold computes, ret. split; [apply untouched_refl|]. auto.
  - cbn [preps_mem ev_preps all_boxes] in *. destruct B as ((n & d & l & B) & Rect).
    pose proof (Hp x p y m n d l (untouched_valid _ _ _ U V0) V B) as C. rewrite (untouched_load _ _ _ U V0) in C.
    unfold computes in *. unfold seqm at 1. destruct (pmem (CRef x) p y m) as [[z|e] m2].
    + destruct C as [U1 C]. destruct (fst (p_transform K (load m y) (p_attach K (load m0 x) p))) as [Y|e]; [|contradiction]. destruct C as [Vz Lz].
      unfold seqm. destruct (call_observes (on_preparateur hk) z Hprep m2) as (m3 & E3 & U3). rewrite E3.
      assert (U03 : untouched m m3) by exact (untouched_trans _ _ _ U1 U3).
      pose proof (IH z m3 (untouched_trans _ _ _ U U03) (untouched_valid _ _ _ U3 Vz)) as IH'. rewrite (untouched_load _ _ _ U3 Vz), Lz in IH'.
      specialize (IH' (Rect Y eq_refl)).
      destruct (preps_mem K pmem hk (CRef x) ps z m3) as [r m4]. destruct IH' as [U4 IH']. split; [exact (untouched_trans _ _ _ U03 U4)|].
      destruct (ev_preps K (load m0 x) ps Y) as [[Z evs]|e]; exact IH'.
    + destruct C as [U1 C]. destruct (fst (p_transform K (load m y) (p_attach K (load m0 x) p))) as [Y|e']; [contradiction|]. auto.
Qed.
(** An array of its own stays one when a callback overwrites it. *)
Lemma call_owned m0 a : forall cbs gs, Forall2 overwrites cbs gs -> forall (m : memory) Z, owns m0 m a Z ->
  exists m', call cbs a m = (Ok tt, m') /\ owns m0 m' a (applied gs Z).
Proof.
  intros cbs g2 F. induction F as [|cb g cbs g2 Hcb F IH]; intros m Z O; [exists m; split; [reflexivity|exact O]|].
  destruct (Hcb a m (owns_valid _ _ _ _ O)) as [Ln (new & E)]. rewrite (owns_load _ _ _ _ O) in *.
  destruct (assign_ok m0 m a Z (fun Z => Ok (g Z)) (g Z) O eq_refl Ln) as (m2 & E2 & O2).
  unfold assign in E2. rewrite (owns_load _ _ _ _ O) in E2. injection E2 as <-.
  destruct (IH (put a (g Z) m ++ new) (g Z)) as (m3 & E3 & O3); [apply (owns_later _ _ _ _ _ O2); exists new; reflexivity|].
  exists m3. split; [|exact O3]. unfold call in *. cbn [for_each]. unfold seqm. rewrite E. exact E3.
Qed.
(** What a slice computes, without memory. *)
Definition slice_val (c X : dataset T) (p : slice) : res (dataset T) :=
  if negb (t_fit p) then Err RuntimeError else
  let! Y := vfst (ev_preps K c (t_p p) X) in
  let! nf := parts_nfeatures K p in
  let! A := mapr snd (value (ev_itsums K c (getter K (t_s p) (t_e p)) 0 (map (mapr (applied gs)) (iterate_iss K (map (i_attach K c) (t_i p)) Y))
                        (0, repeat (repeat nzero nf) (length Y)))) in
  Ok (applied gs2 (block2 A)).
Lemma slice_makes m0 x p m : valid m0 x -> untouched m0 m -> (t_fit p = true -> t_i p <> []) -> all_boxes K (load m0 x) (t_p p) (load m0 x) ->
  makes m m (slice_mem K pmem hk (CRef x) p x) (slice_val (load m0 x) (load m0 x) p).
Proof.
  intros V0 U Hi B. unfold slice_mem, slice_val. destruct (t_fit p); cbn [negb]; [|apply makes_fail, untouched_refl].
  specialize (Hi eq_refl). pose proof (untouched_valid _ _ _ U V0) as Vx. pose proof (untouched_load _ _ _ U V0) as Lx.
  rewrite <- Lx in B at 2. pose proof (preps_computes x m0 V0 (t_p p) x m U Vx B) as C. rewrite Lx in C.
  unfold makes. unfold computes in C. unfold seqm at 1. destruct (preps_mem K pmem hk (CRef x) (t_p p) x m) as [[y|e] m2].
  2:{ destruct C as [U2 C]. destruct (vfst (ev_preps K (load m0 x) (t_p p) (load m0 x))) as [Y|e']; [contradiction|]. subst e'. auto. }
  destruct C as [U2 C]. destruct (vfst (ev_preps K (load m0 x) (t_p p) (load m0 x))) as [Y|e']; [|contradiction]. destruct C as [Vy Ly]. cbn [bind].
  unfold seqm at 1. destruct (call_observes (on_preparation_end hk) y Hend m2) as (m3 & E3 & U3). rewrite E3.
  pose proof (untouched_trans _ _ _ U2 U3) as U23.
  assert (Ly3 : load m3 y = Y) by (rewrite <- Ly; now apply untouched_load). assert (Vy3 : valid m3 y) by exact (untouched_valid _ _ _ U3 Vy).
  unfold seqm at 1, contents. rewrite Ly3. unfold seqm at 1, eval. destruct (parts_nfeatures K p) as [nf|e]; cbn [bind]; [|auto].
  destruct (owns_new m3 m3 (block2 (repeat (repeat nzero nf) (length Y))) (untouched_refl m3)) as (f & m4 & E4 & O4 & U4).
  unfold seqm at 1. rewrite E4.
  assert (Hf : base y <> base f) by (destruct O4 as (_ & Bf & _); destruct Vy3 as (Bv & _); lia).
  assert (Hsrc : L_Mem4.sees m3 (CRef x) (load m0 x)) by (split; [exact (untouched_valid _ _ _ U23 Vx)|now rewrite (untouched_load _ _ _ U23 Vx)]).
  pose proof (iterate_does K (CRef x) m3 (load m0 x) f Hsrc (itsum_mem K hk (CRef x) (t_s p) (t_e p) f) (bodyv K (load m0 x) (t_s p) (t_e p) gs)
    (itsum_does K (CRef x) m3 (load m0 x) f Hsrc Hnf hk (t_s p) (t_e p) gs Hits Hsv)
    (t_i p) true y (0, 0) (repeat (repeat nzero nf) (length Y)) m4 Y O4 (untouched_valid _ _ _ U4 Vy3) Hf) as D.
  assert (D' := D ltac:(now rewrite (untouched_load _ _ _ U4 Vy3), Ly3) ltac:(auto) ltac:(discriminate)). clear D.
  unfold does in D'. unfold seqm at 1. rewrite <- go_itsums.
  destruct (iterate_mem K (CRef x) (itsum_mem K hk (CRef x) (t_s p) (t_e p) f) (t_i p) true y (0, 0) m4) as [[s|e] m5].
  2:{ destruct D' as [E5 U5]. rewrite E5. cbn. split; [reflexivity|]. exact (untouched_trans _ _ _ U23 U5). }
  destruct D' as (A & E5 & O5 & _). rewrite E5. cbn [mapr bind snd].
  destruct (call_owned m3 f _ _ Hse m5 (block2 A) O5) as (m6 & E6 & O6). unfold seqm. rewrite E6. unfold ret.
  eexists. split; [reflexivity|]. exact (owns_mono _ _ _ _ _ U23 O6).
Qed.
(** What a fruit computes, without memory. *)
Fixpoint slices_val (c X : dataset T) (ps : list slice) (index : nat) (A : mts T) : res (mts T) :=
  match ps with
  | [] => Ok A
  | p :: r => let! k := parts_nfeatures K p in let! F := slice_val c X p in let! A' := set_cols index k (unblock2 F) A in
              slices_val c X r (index + k) A'
  end.
Definition fruit_val (X : dataset T) (ps : list slice) : res (dataset T) :=
  let! ns := mapM (parts_nfeatures K) ps in
  let! A := slices_val X X ps 0 (repeat (repeat nzero (list_sum ns)) (length X)) in
  Ok (block2 (nan_to_num A)).
Lemma slices_run m x res : valid m x -> forall ps index A m',
  Forall (fun p => (t_fit p = true -> t_i p <> []) /\ all_boxes K (load m x) (t_p p) (load m x)) ps -> owns m m' res (block2 A) ->
  match slices_mem K pmem hk (CRef x) ps x res index m' with
  | (Ok _, m'') => exists A', slices_val (load m x) (load m x) ps index A = Ok A' /\ owns m m'' res (block2 A')
  | (Err e, m'') => slices_val (load m x) (load m x) ps index A = Err e /\ untouched m m''
  end.
Proof.
  intros V. induction ps as [|p ps IH]; intros index A m' F O; [cbn; eauto|]. cbn [slices_mem slices_val]. unfold seqm at 1.
  assert (En : exists m2, for_each (on_next_slice hk) (fun cb => cb) m' = (Ok tt, m2) /\ untouched m' m2).
  { clear - Hnext. revert m'. induction (on_next_slice hk) as [|cb cbs IHc]; intros m'; [exists m'; split; [reflexivity|apply untouched_refl]|].
    cbn [for_each]. unfold seqm. destruct (Forall_inv Hnext m') as [E U]. destruct (cb m') as [r m2]. cbn [fst snd] in *. subst r.
    destruct (IHc (Forall_inv_tail Hnext) m2) as (m3 & E3 & U3). exists m3. split; [exact E3|exact (untouched_trans _ _ _ U U3)]. }
  destruct En as (m2 & En & U2). rewrite En. unfold seqm at 1, eval. destruct (parts_nfeatures K p) as [k|e]; cbn [bind].
  2:{ split; [reflexivity|]. exact (untouched_trans _ _ _ (proj1 O) U2). }
  pose proof (owns_later _ _ _ _ _ O U2) as O2. pose proof (Forall_inv F) as [Hi B].
  pose proof (slice_makes m x p m2 V (proj1 O2) Hi B) as M. unfold makes in M. unfold seqm at 1.
  destruct (slice_mem K pmem hk (CRef x) p x m2) as [[f|e] m3].
  2:{ destruct M as [-> U3]. split; [reflexivity|]. exact (untouched_trans _ _ _ (proj1 O2) U3). }
  destruct M as (Fv & -> & Of). cbn [bind]. unfold seqm at 1, contents. rewrite (owns_load _ _ _ _ Of).
  pose proof (owns_later _ _ _ _ _ O2 (proj1 Of)) as O3.
  destruct (set_cols index k (unblock2 Fv) A) as [A'|e] eqn:Es; cbn [bind].
  - assert (Ec : set_columns index k (unblock2 Fv) (block2 A) = Ok (block2 A')) by (rewrite set_columns_block, Es; reflexivity).
    destruct (assign_ok m m3 res (block2 A) _ (block2 A') O3 Ec) as (m4 & E4 & O4); [rewrite !block_len; now apply (set_cols_len index k (unblock2 Fv))|].
    unfold seqm. rewrite E4. apply IH; [exact (Forall_inv_tail F)|exact O4].
  - assert (Ec : set_columns index k (unblock2 Fv) (block2 A) = Err e) by (rewrite set_columns_block, Es; reflexivity).
    unfold seqm. rewrite (assign_err m m3 res (block2 A) _ e O3 Ec). split; [reflexivity|]. apply O3.
Qed.
Lemma fruit_makes x ps m : valid m x ->
  Forall (fun p => (t_fit p = true -> t_i p <> []) /\ all_boxes K (load m x) (t_p p) (load m x)) ps ->
  makes m m (fruit_mem K pmem hk ps x) (fruit_val (load m x) ps).
Proof.
  intros V F. unfold fruit_mem, fruit_val. apply (makes_contents _ _ _ _ _ _ eq_refl). apply makes_eval; [apply untouched_refl|]. intros ns _.
  apply makes_seq_new; [apply untouched_refl|]. intros res m2 O2 _. unfold makes. unfold seqm at 1.
  pose proof (slices_run m x res V ps 0 _ m2 F O2) as R. destruct (slices_mem K pmem hk (CRef x) ps x res 0 m2) as [[u|e] m3].
  - destruct R as (A & E & O). rewrite E. cbn [bind].
    destruct (assign_ok m m3 res (block2 A) (fun A => Ok (block2 (nan_to_num (unblock2 A)))) (block2 (nan_to_num A)) O) as (m4 & E4 & O4).
    + now rewrite unblock_block.
    + rewrite !block_len. unfold nan_to_num. now rewrite map_length.
    + unfold seqm. rewrite E4. unfold ret. eexists. split; [reflexivity|exact O4].
  - destruct R as [E U]. rewrite E. cbn. auto.
Qed.
End L.
