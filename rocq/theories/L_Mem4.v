(** The preparateurs on a heap of arrays: [transform] of any of them (C89). *)
From Coq Require Import Ascii String List Arith ZArith Bool Lia.
From Verif Require Import Num Arr M_Str M_Np M_Prep M_Cache M_PrepObj M_Mem S_Mem L_Arr L_Np L_Mem L_Mem2 L_Mem3.
Import ListNotations.

Section L.
Context {T : Type} `{N : Num T}.
Notation memory := (memory (T := T)).
Variable parse : pystr -> res T.
Variable powf : T -> T -> T.
Variable ufun : (dataset T -> res (dataset T)) -> arr -> mem (T := T) arr.

Definition sees (m : memory) (s : source) (I : dataset T) : Prop :=
  match s with CRef a => valid m a /\ load m a = I | CVal X => X = I end.
Lemma makes_look m m' s I k r : untouched m m' -> sees m s I -> makes m m' (k I) r -> makes m m' (seqm (look s) k) r.
Proof.
  intros U Hs Hk. destruct s as [a|X]; cbn in *.
  - destruct Hs as [V E]. apply (makes_contents _ _ _ I); [|exact Hk]. now rewrite (untouched_load m m' a U V).
  - subst X. exact Hk.
Qed.
Definition own_leaf (f : leaf T) : bool := match f with LINC c => 1 <=? inc_depth c | LFUN _ => false | _ => true end.
Lemma leaf_makes s I f x X m n d l : valid m x -> load m x = X -> box X n d l -> sees m s I -> own_leaf f = true ->
  makes m m (leaf_mem parse powf ufun s f x) (leaf_transform parse powf I f X).
Proof.
  intros Vx Lx B Hs Ho. pose proof (untouched_refl m) as U.
  assert (Ex : forall g, makes m m (seqm (look s) (fun I => seqm (contents x) (fun X => seqm (eval (leaf_transform parse powf I g X)) (fun Y => new_array Y))))
                 (leaf_transform parse powf I g X)).
  { intros g. apply (makes_look m m s I); auto. apply (makes_contents _ _ _ _ _ _ Lx). set (r := leaf_transform parse powf I g X). clearbody r.
    replace r with (let! Y := r in Ok Y) at 2 by now destruct r. apply makes_eval; [exact U|]. intros Y _. now apply makes_new. }
  destruct f; try exact (Ex _); cbn [leaf_mem leaf_transform].
  - apply (makes_contents _ _ _ _ _ _ Lx). unfold own_leaf in Ho. apply Nat.leb_le in Ho. now apply inc_leaf.
  - now apply nrm_makes.
  - exact (lag_makes x X m n d l Vx Lx B).
  - now apply cts_makes.
  - discriminate.
  - match goal with |- makes _ _ (match ?o with _ => _ end) _ => destruct o as [st|] end; [|now apply makes_fail].
    unfold dil_transform. exact (strips_makes _ x X m Vx Lx).
  - apply (makes_look m m s I); auto. unfold win_run.
    apply makes_eval; [exact U|]. intros a _. apply makes_eval; [exact U|]. intros b _.
    destruct a; try now apply makes_fail. destruct b; try now apply makes_fail.
    apply (makes_contents _ _ _ _ _ _ Lx).
    match goal with |- makes _ _ (if ?c then _ else _) _ => destruct c eqn:Ec end; [|now apply makes_fail].
    apply Nat.leb_le in Ec. destruct B as [Bn B]. apply (win_makes _ _ x X m n d l Vx Lx (conj Bn B)). lia.
  - match goal with |- makes _ _ (match ?o with _ => _ end) _ => destruct o as [[? ?]|] end; [|now apply makes_fail].
    now apply dot_makes.
  - match goal with |- makes _ _ (match ?o with _ => _ end) _ => destruct o as [st|] end; [|now apply makes_fail].
    unfold pdd_transform. pose proof (strips_makes (map (fun i => (i, pdd_width st)) (pdd_indices st)) x X m Vx Lx) as M.
    replace (map (map (pdd_row st)) X) with
      (map (map (fun r => fold_left (fun v p => py_fill_slice (Some (Z.of_nat (fst p))) (Some (Z.of_nat (fst p + snd p))) nzero v) (map (fun i => (i, pdd_width st)) (pdd_indices st)) r)) X);
      [exact M|].
    apply map_ext. intros y. apply map_ext. intros r. unfold pdd_row. clear. generalize (pdd_indices st). intros is. revert r.
    induction is as [|i is IH]; intros r; [reflexivity|]. cbn [map fold_left fst snd]. now rewrite IH.
Qed.

Lemma leaf_computes s I f x X m n d l : reads_only ufun -> valid m x -> load m x = X -> box X n d l -> sees m s I ->
  computes (leaf_mem parse powf ufun s f x) m (leaf_transform parse powf I f X).
Proof.
  intros R Vx Lx B Hs. destruct (own_leaf f) eqn:Eo.
  - exact (proj1 (makes_computes _ _ _ (leaf_makes s I f x X m n d l Vx Lx B Hs Eo))).
  - destruct f; try discriminate; cbn [leaf_mem leaf_transform].
    + unfold computes, seqm, contents. change ((1 <=? inc_depth c) = false) in Eo. destruct (inc_depth c) eqn:Ed; [|discriminate]. cbn [inc_mem]. unfold ret, inc_transform.
      rewrite Ed. cbn [inc_loop]. split; [apply untouched_refl|]. auto.
    + rewrite <- Lx. now apply R.
Qed.

Lemma makes_seq_computes (m m' : memory) (c : mem (T := T) arr) r k f : untouched m m' -> computes c m' r ->
  (forall Y t m'', r = Ok Y -> untouched m' m'' -> valid m'' t -> load m'' t = Y -> makes m m'' (k t) (f Y)) ->
  makes m m' (seqm c k) (let! Y := r in f Y).
Proof.
  intros U C Hk. unfold computes in C. unfold makes, seqm. destruct (c m') as [[t|e] m''].
  - destruct C as [U2 C]. destruct r as [Y|]; [|contradiction]. destruct C as [V L]. cbn [bind].
    pose proof (Hk Y t m'' eq_refl U2 V L) as M. unfold makes in M. exact M.
  - destruct C as [U2 C]. destruct r as [Y|e']; [contradiction|]. subst e'. cbn. split; [reflexivity|]. exact (untouched_trans _ _ _ U U2).
Qed.
Lemma makes_mono (m0 m m' : memory) (c : mem (T := T) arr) r : untouched m0 m -> makes m m' c r -> makes m0 m' c r.
Proof.
  intros U. unfold makes. destruct (c m') as [[a|e] m''].
  - intros (Y & E & O). exists Y. split; [exact E|]. exact (owns_mono _ _ _ _ _ U O).
  - intros [E U2]. split; [exact E|]. exact (untouched_trans _ _ _ U U2).
Qed.
Lemma fst_leaf_t f ca X : fst (pr_transform parse powf (PLeaf f ca) X) = leaf_transform parse powf (match ca with Some i => i | None => X end) f X.
Proof. cbn. destruct (leaf_transform _ _ _ _ _); reflexivity. Qed.
Lemma fst_dim_t q d ca X : fst (pr_transform parse powf (PDim q d ca) X) =
  let! dims := mapM (py_index (dimX X)) d in
  let! Y := fst (pr_transform parse powf q (map (select_dims dims) X)) in
  if same_len X Y then Ok (map2 (fun x y => delete_dims dims x ++ y) X Y) else Err ValueError.
Proof.
  cbn [pr_transform]. destruct (mapM (py_index (dimX X)) d) as [dims|e] eqn:E; [|reflexivity]. cbn [bind].
  destruct (pr_transform parse powf q (map (select_dims dims) X)) as [r q']. unfold dim_transform. rewrite E. cbn [bind fst].
  destruct r as [Y|e]; [|reflexivity]. cbn [bind]. destruct (same_len X Y); reflexivity.
Qed.
Lemma fst_new_t q ca X : fst (pr_transform parse powf (PNew q ca) X) =
  let! Y := fst (pr_transform parse powf q X) in
  if ((length X =? length Y) || (length Y =? 1)) && ((lenX X =? lenX Y) || (lenX Y =? 1))
  then Ok (map2 (fun x y => x ++ map (stretch (lenX X)) y) X (if length X =? length Y then Y else repeat (hd [] Y) (length X)))
  else Err ValueError.
Proof.
  cbn [pr_transform]. destruct (pr_transform parse powf q X) as [r q']. unfold new_transform. cbn [bind fst].
  destruct r as [Y|e]; [|reflexivity]. cbn [bind]. destruct (_ && _); reflexivity.
Qed.
Lemma box_select (X : dataset T) n d l dims : box X n d l -> Forall (fun j => j < d) dims -> box (map (select_dims dims) X) n (length dims) l.
Proof.
  intros [B1 B2] Hd. split; [now rewrite map_length|]. rewrite Forall_forall in B2 |- *. intros y Hy. apply in_map_iff in Hy. destruct Hy as (x & <- & Hx).
  destruct (B2 x Hx) as [L1 L2]. unfold select_dims. split; [now rewrite map_length|]. rewrite Forall_forall in L2, Hd |- *.
  intros r Hr. apply in_map_iff in Hr. destruct Hr as (j & <- & Hj). apply L2, nth_In. rewrite L1. now apply Hd.
Qed.
Lemma py_index_lt n ds dims : mapM (py_index n) ds = Ok dims -> Forall (fun j => j < n) dims.
Proof.
  revert dims. induction ds as [|z ds IH]; intros dims E; cbn in E; [injection E as <-; constructor|].
  destruct (py_index n z) as [j|] eqn:Ej; [|discriminate]. cbn in E. destruct (mapM (py_index n) ds) as [js|]; [|discriminate]. injection E as <-.
  constructor; [|now apply IH]. unfold py_index in Ej.
  repeat match type of Ej with context [if ?c then _ else _] => destruct c eqn:? end; try discriminate; injection Ej as <-; lia.
Qed.
Definition src_ok (m : memory) (inp : option source) (p : prep T) (X : dataset T) : Prop :=
  match inp with None => True | Some s => sees m s (match pr_cache p with Some i => i | None => X end) end.
Lemma prep_computes p : forall inp x X m n d l, reads_only ufun -> valid m x -> load m x = X -> box X n d l -> src_ok m inp p X ->
  computes (prep_mem parse powf ufun inp p x) m (fst (pr_transform parse powf p X)) /\
  (allocates p = true -> returns_new_array (prep_mem parse powf ufun inp p x) m).
Proof.
  induction p as [f ca|q IH ds ca|ca|q IH ca]; intros inp x X m n d l R Vx Lx B Hs; pose proof (untouched_refl m) as U.
  - rewrite fst_leaf_t. cbn [prep_mem pr_cache].
    set (src := match inp with Some s => s | None => match ca with Some i => CVal i | None => CRef x end end).
    assert (Hs' : sees m src (match ca with Some i => i | None => X end)).
    { unfold src. destruct inp as [s|]; [exact Hs|]. destruct ca as [i|]; cbn; auto. }
    split; [now apply (leaf_computes src _ f x X m n d l)|]. intros Ho.
    assert (Ho' : own_leaf f = true) by (destruct f; exact Ho || reflexivity).
    exact (proj2 (makes_computes _ _ _ (leaf_makes src _ f x X m n d l Vx Lx B Hs' Ho'))).
  - rewrite fst_dim_t. match goal with |- ?A /\ (_ -> ?C) => enough (A /\ C) by tauto end. apply makes_computes. cbn [prep_mem].
    apply (makes_contents _ _ _ _ _ _ Lx). apply makes_eval; [exact U|]. intros dims Ed.
    apply makes_seq_new; [exact U|]. intros z m1 Oz U1.
    assert (Bz : box (map (select_dims dims) X) n (length dims) l).
    { destruct X as [|x0 X']; [destruct B as [B _]; split; [exact B|constructor]|].
      apply (box_select _ n d l); [exact B|]. apply py_index_lt in Ed.
      assert (D0 : dimX (x0 :: X') = d) by (destruct B as [_ B]; apply Forall_inv in B; exact (proj1 B)). now rewrite D0 in Ed. }
    destruct (IH None z (map (select_dims dims) X) m1 n (length dims) l R (owns_valid _ _ _ _ Oz) (owns_load _ _ _ _ Oz) Bz Logic.I) as [C _].
    apply (makes_seq_computes m m1 _ _ _ (fun Y => if same_len X Y then Ok (map2 (fun x y => delete_dims dims x ++ y) X Y) else Err ValueError)); [exact U1|exact C|].
    intros Y t m2 _ U2 Vt Lt. pose proof (untouched_trans _ _ _ U1 U2) as U02.
    apply (makes_contents _ _ _ X); [now rewrite (untouched_load m m2 x U02 Vx)|].
    apply makes_seq_new; [exact U02|]. intros r m3 Or U3.
    apply (makes_contents _ _ _ (map (delete_dims dims) X)); [exact (owns_load _ _ _ _ Or)|].
    apply (makes_contents _ _ _ Y); [rewrite <- Lt; now apply untouched_load|].
    destruct (same_len X Y); [|apply makes_fail; exact (proj1 Or)].
    replace (map2 (fun x y => delete_dims dims x ++ y) X Y) with (map2 (fun x y => x ++ y) (map (delete_dims dims) X) Y).
    + apply makes_new. exact (proj1 Or).
    + clear. revert Y. induction X as [|x X IH]; intros [|y Y]; cbn; try reflexivity. now rewrite IH.
  - match goal with |- ?A /\ (_ -> ?C) => enough (A /\ C) by tauto end. apply makes_computes. cbn [prep_mem pr_transform new_transform fst].
    apply (makes_contents _ _ _ _ _ _ Lx). apply makes_seq_new; [exact U|]. intros r m1 Or U1.
    set (Z0 := map (fun s => map (fun row => zeros (length row)) s ++ map (fun row : list T => zeros (length row)) s) X) in *.
    assert (E : Ok (map (fun x => x ++ x) X) = let! A := set_dims_upto X Z0 in let! A' := set_dims_from (dimX X) X A in Ok A').
    { unfold set_dims_upto, set_dims_from, Z0. cbn [bind]. f_equal.
      assert (HD : Forall (fun x => length x = dimX X) X).
      { destruct X as [|x0 X']; [constructor|]. destruct B as [_ B]. pose proof (proj1 (Forall_inv B)) as D0. cbn [dimX].
        rewrite Forall_forall in B |- *. intros y Hy. rewrite (proj1 (B y Hy)). now symmetry. }
      generalize (dimX X), HD. clear. intros k HD. induction X as [|x X IH]; [reflexivity|]. cbn [map map2]. rewrite <- IH by exact (Forall_inv_tail HD).
      pose proof (Forall_inv HD) as Lk. cbn beta in Lk. f_equal. rewrite firstn_app, <- Lk, firstn_all, Nat.sub_diag. cbn [firstn]. now rewrite app_nil_r. }
    rewrite E. apply (makes_assign m m1 r Z0 (set_dims_upto X) _ (fun A => let! A' := set_dims_from (dimX X) X A in Ok A')); [exact Or| |].
    + intros Y' E'. injection E' as <-. rewrite map2_length. unfold Z0. rewrite map_length. lia.
    + intros A m2 EA OA. assert (LA : length A = length X). { injection EA as <-. rewrite map2_length. unfold Z0. rewrite map_length. lia. }
      apply (makes_assign m m2 r A (set_dims_from (dimX X) X) _ (fun A' => Ok A')); [exact OA| |].
      * intros Y' E'. injection E' as <-. rewrite map2_length. lia.
      * intros A' m3 _ O3. now apply makes_ret.
  - rewrite fst_new_t. match goal with |- ?A /\ (_ -> ?C) => enough (A /\ C) by tauto end. apply makes_computes. cbn [prep_mem].
    destruct (IH None x X m n d l R Vx Lx B Logic.I) as [C _].
    apply (makes_seq_computes m m _ _ _ (fun Y => if ((length X =? length Y) || (length Y =? 1)) && ((lenX X =? lenX Y) || (lenX Y =? 1))
      then Ok (map2 (fun x y => x ++ map (stretch (lenX X)) y) X (if length X =? length Y then Y else repeat (hd [] Y) (length X))) else Err ValueError)); [exact U|exact C|].
    intros Y t m1 _ U1 Vt Lt. 
    apply (makes_contents _ _ _ X); [now rewrite (untouched_load m m1 x U1 Vx)|].
    apply (makes_contents _ _ _ Y); [exact Lt|].
    apply makes_seq_new; [exact U1|]. intros r m2 Or U2.
    set (Z0 := map (fun s => map (fun row => zeros (length row)) s ++ repeat (zeros (lenX X) : list T) (dimX Y)) X) in *.
    set (cond := ((length X =? length Y) || (length Y =? 1)) && ((lenX X =? lenX Y) || (lenX Y =? 1))).
    set (Y' := if length X =? length Y then Y else repeat (hd [] Y) (length X)).
    set (V := map (map (stretch (lenX X))) Y').
    assert (E : (if cond then Ok (map2 (fun x y => x ++ map (stretch (lenX X)) y) X Y') else Err ValueError) =
       let! A := set_dims_upto X Z0 in if cond then let! A' := set_dims_from (dimX X) V A in Ok A' else Err ValueError).
    { unfold set_dims_upto, set_dims_from, Z0. cbn [bind]. destruct cond; [|reflexivity]. f_equal.
      assert (HD : Forall (fun x => length x = dimX X) X).
      { destruct X as [|x0 X']; [constructor|]. destruct B as [_ B]. pose proof (proj1 (Forall_inv B)) as D0. cbn [dimX].
        rewrite Forall_forall in B |- *. intros y Hy. rewrite (proj1 (B y Hy)). now symmetry. }
      unfold V. generalize (dimX X), HD, Y'. generalize (lenX X) as L. generalize (dimX Y) as DY. clear. intros DY L k HD.
      induction X as [|x X IH]; intros [|y Y]; try reflexivity. cbn [map map2]. rewrite <- IH by exact (Forall_inv_tail HD).
      pose proof (Forall_inv HD) as Lk. cbn beta in Lk. f_equal. rewrite firstn_app, <- Lk, firstn_all, Nat.sub_diag. cbn [firstn]. now rewrite app_nil_r. }
    rewrite E. clear E.
    apply (makes_assign m m2 r Z0 (set_dims_upto X) _ (fun A => if cond then let! A' := set_dims_from (dimX X) V A in Ok A' else Err ValueError)); [exact Or| |].
    + intros A E'. injection E' as <-. rewrite map2_length. unfold Z0. rewrite map_length. lia.
    + intros A m3 EA OA. assert (LA : length A = length X). { injection EA as <-. rewrite map2_length. unfold Z0. rewrite map_length. lia. }
      fold cond. destruct cond eqn:Ec.
      2: { unfold makes, seqm, fail. split; [reflexivity|exact (proj1 OA)]. }
      apply (makes_assign m m3 r A (set_dims_from (dimX X) V) _ (fun A' => Ok A')); [exact OA| |].
      * intros A' E'. injection E' as <-. rewrite map2_length. unfold V. rewrite map_length. unfold Y'.
        destruct (Nat.eqb_spec (length X) (length Y)); [lia|]. rewrite repeat_length. lia.
      * intros A' m4 _ O4. now apply makes_ret.
Qed.
End L.
