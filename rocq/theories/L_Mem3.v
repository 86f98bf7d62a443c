(** The preparateurs on a heap of arrays: LAG, NRM and the wrappers (C89). *)
From Coq Require Import Ascii String List Arith ZArith Bool Lia.
From Verif Require Import Num Arr M_Str M_Np M_Prep M_Cache M_PrepObj M_Mem S_Mem L_Arr L_Np L_Mem L_Mem2.
Import ListNotations.

Section L.
Context {T : Type} `{N : Num T}.
Notation memory := (memory (T := T)).

(** ** LAG *)
Lemma fold_map2 {A B} (step : nat -> B -> A -> A) (X : list B) js : forall Y : list A, length Y = length X ->
  fold_left (fun Y i => map2 (fun y s => step i s y) Y X) js Y = map2 (fun y s => fold_left (fun y i => step i s y) js y) Y X.
Proof.
  induction js as [|i js IH]; intros Y L; cbn [fold_left].
  - revert X L. induction Y as [|y Y IHY]; intros [|s X] L; try discriminate; [reflexivity|]. cbn. f_equal. apply IHY. cbn in L. lia.
  - rewrite IH by (rewrite map2_length; lia). clear IH. revert X L.
    induction Y as [|y Y IHY]; intros [|s X] L; try discriminate; [reflexivity|]. cbn. f_equal. apply IHY. cbn in L. lia.
Qed.
Definition lag_row (which : nat) (i : nat) (s y : mts T) : mts T :=
  let r := nth i s [] in
  let j := 2 * i + which in
  let y1 := upd j (set_strided 0 2 r (nth j y [])) y in
  upd j (set_strided 1 2 (if which =? 0 then skipn 1 r else removelast r) (nth j y1 [])) y1.
Definition lag_step (i : nat) (s y : mts T) : mts T := lag_row 1 i s (lag_row 0 i s y).
Lemma lag_row_at w i s (pre : mts T) z post : length pre = 2 * i + w ->
  lag_row w i s (pre ++ z :: post) =
  pre ++ set_strided 1 2 (if w =? 0 then skipn 1 (nth i s []) else removelast (nth i s [])) (set_strided 0 2 (nth i s []) z) :: post.
Proof.
  intros L. unfold lag_row. rewrite <- L. rewrite app_nth2, Nat.sub_diag by lia. cbn [nth].
  rewrite upd_app_r by lia. rewrite Nat.sub_diag. cbn [upd]. rewrite app_nth2, Nat.sub_diag by lia. cbn [nth].
  rewrite upd_app_r by lia. rewrite Nat.sub_diag. reflexivity.
Qed.
Lemma lag_sample l (s : mts T) : Forall (fun r => length r = l) s ->
  fold_left (fun y i => lag_step i s y) (seq 0 (length s)) (repeat (zeros (2 * l - 1)) (2 * length s)) = flat_map lag_pair s.
Proof.
  intros Hl.
  enough (Q : forall post pre, s = pre ++ post ->
     fold_left (fun y i => lag_step i s y) (seq (length pre) (length post)) (flat_map lag_pair pre ++ repeat (zeros (2 * l - 1)) (2 * length post)) = flat_map lag_pair s)
    by exact (Q s [] eq_refl).
  assert (Lf : forall pre : mts T, length (flat_map lag_pair pre) = 2 * length pre).
  { clear. intros pre. induction pre as [|r pre IH]; [reflexivity|]. cbn [flat_map]. rewrite app_length, IH. cbn [lag_pair length]. lia. }
  induction post as [|r post IH]; intros pre Es.
  - cbn [length seq fold_left]. cbn. rewrite !app_nil_r in *. now rewrite Es.
  - cbn [length seq fold_left]. replace (2 * S (length post)) with (S (S (2 * length post))) by lia. cbn [repeat].
    assert (Er : nth (length pre) s [] = r) by (rewrite Es, app_nth2, Nat.sub_diag by lia; reflexivity).
    assert (El : length r = l). { rewrite Forall_forall in Hl. apply Hl. rewrite Es. apply in_or_app. right. now left. }
    unfold lag_step at 2. rewrite lag_row_at by (rewrite Lf; lia). cbn [Nat.eqb]. rewrite Er.
    assert (Ea : forall (a b : series T) rest, flat_map lag_pair pre ++ a :: b :: rest = (flat_map lag_pair pre ++ [a]) ++ b :: rest)
      by (intros; now rewrite <- app_assoc).
    rewrite Ea, lag_row_at by (rewrite app_length, Lf; cbn; lia). cbn [Nat.eqb]. rewrite Er, <- Ea.
    pose proof (IH (pre ++ [r])) as IH'. rewrite <- app_assoc in IH'. specialize (IH' Es).
    assert (E1 : length (pre ++ [r]) = S (length pre)) by (rewrite app_length; cbn; lia). rewrite E1 in IH'.
    assert (E2 : forall rest, flat_map lag_pair (pre ++ [r]) ++ rest = flat_map lag_pair pre ++
       set_strided 1 2 (skipn 1 r) (set_strided 0 2 r (zeros (2 * l - 1))) :: set_strided 1 2 (removelast r) (set_strided 0 2 r (zeros (2 * l - 1))) :: rest).
    { intros rest. rewrite flat_map_app, <- app_assoc. f_equal. rewrite <- El. reflexivity. }
    rewrite E2 in IH'. exact IH'.
Qed.
Lemma lag_makes x X m n d l : valid m x -> load m x = X -> box X n d l -> makes m m (lag_mem x) (lag_transform X).
Proof.
  intros Vx Lx [LX BX]. unfold lag_mem, lag_transform. apply (makes_contents _ _ _ _ _ _ Lx).
  destruct (lenX X =? 0) eqn:E0; [apply makes_fail, untouched_refl|].
  apply makes_seq_new; [apply untouched_refl|]. intros a m' O _.
  set (Z0 := map (fun s : mts T => repeat (zeros (2 * lenX X - 1)) (2 * length s)) X) in *.
  set (g := fun (Y : dataset T) i => map2 (fun y s => lag_step i s y) Y X).
  destruct (for_each_ok (fun Y => length Y = length X) g m a (seq 0 (dimX X))
    (fun i => seqm (assign a (set_dim_strided (2 * i) 0 (map (fun s => nth i s []) X))) (fun _ =>
              seqm (assign a (set_dim_strided (2 * i) 1 (map (skipn 1) (map (fun s => nth i s []) X)))) (fun _ =>
              seqm (assign a (set_dim_strided (2 * i + 1) 0 (map (fun s => nth i s []) X))) (fun _ =>
              assign a (set_dim_strided (2 * i + 1) 1 (map (@removelast T) (map (fun s => nth i s []) X))))))) m' Z0 O) as (_ & m'' & E & O').
  { unfold Z0. apply map_length. }
  { intros i m1 Y _ HY O1. split; [unfold g; rewrite map2_length; lia|].
    assert (Ls : forall j f V (Y : dataset T), length V = length Y -> exists Y', set_dim_strided j f V Y = Ok Y' /\ length Y' = length Y).
    { intros j f V Y0 HL. unfold set_dim_strided. eexists. split; [reflexivity|]. rewrite map2_length. lia. }
    unfold seqm.
    destruct (Ls (2 * i) 0 (map (fun s : mts T => nth i s []) X) Y) as (Y1 & E1 & L1); [rewrite map_length; lia|].
    destruct (assign_ok m m1 a Y _ Y1 O1 E1 L1) as (m2 & A1 & O2). rewrite A1.
    destruct (Ls (2 * i) 1 (map (skipn 1) (map (fun s : mts T => nth i s []) X)) Y1) as (Y2 & E2 & L2); [rewrite !map_length; lia|].
    destruct (assign_ok m m2 a Y1 _ Y2 O2 E2 L2) as (m3 & A2 & O3). rewrite A2.
    destruct (Ls (2 * i + 1) 0 (map (fun s : mts T => nth i s []) X) Y2) as (Y3 & E3 & L3); [rewrite !map_length; lia|].
    destruct (assign_ok m m3 a Y2 _ Y3 O3 E3 L3) as (m4 & A3 & O4). rewrite A3.
    destruct (Ls (2 * i + 1) 1 (map (@removelast T) (map (fun s : mts T => nth i s []) X)) Y3) as (Y4 & E4 & L4); [rewrite !map_length; lia|].
    destruct (assign_ok m m4 a Y3 _ Y4 O4 E4 L4) as (m5 & A4 & O5). rewrite A4.
    exists m5. split; [reflexivity|]. replace (g Y i) with Y4; [exact O5|].
    unfold set_dim_strided in E1, E2, E3, E4. injection E1 as <-. injection E2 as <-. injection E3 as <-. injection E4 as <-.
    unfold g, lag_step, lag_row. cbn [Nat.eqb]. replace (2 * i + 0) with (2 * i) by lia.
    clear. revert X. induction Y as [|y Y IH]; intros [|s X]; cbn [map map2]; try reflexivity.
    apply (f_equal2 cons); [reflexivity|apply IH]. }
  cbv zeta. unfold makes, seqm at 1.
  match goal with |- context [for_each ?l ?b m'] => change (for_each l b m') with (for_each (seq 0 (dimX X))
    (fun i => seqm (assign a (set_dim_strided (2 * i) 0 (map (fun s => nth i s []) X))) (fun _ =>
              seqm (assign a (set_dim_strided (2 * i) 1 (map (skipn 1) (map (fun s => nth i s []) X)))) (fun _ =>
              seqm (assign a (set_dim_strided (2 * i + 1) 0 (map (fun s => nth i s []) X))) (fun _ =>
              assign a (set_dim_strided (2 * i + 1) 1 (map (@removelast T) (map (fun s => nth i s []) X))))))) m') end.
  rewrite E. unfold ret. eexists. split; [|exact O'].
  f_equal. unfold g. rewrite fold_map2 by (unfold Z0; apply map_length).
  assert (Hd : X <> [] -> dimX X = d /\ lenX X = l).
  { intros Hne. destruct X as [|x0 X']; [congruence|]. apply Forall_inv in BX. destruct BX as [B1 B2]. cbn [dimX]. split; [exact B1|].
    cbn [lenX] in *. destruct x0 as [|r x0]; [cbn in *; discriminate|]. now apply Forall_inv in B2. }
  destruct (list_eq_dec Nat.eq_dec (map (fun _ => 0) X) []) as [En|Hne].
  { destruct X; [reflexivity|discriminate]. }
  assert (HX : X <> []) by (intros ->; now apply Hne). destruct (Hd HX) as [D1 D2]. unfold Z0. rewrite D1, D2. clear - BX.
  induction X as [|s X IH]; [reflexivity|]. cbn [map map2]. pose proof (Forall_inv BX) as [B1 B2].
  rewrite <- IH by exact (Forall_inv_tail BX). f_equal. symmetry. rewrite <- B1. now apply lag_sample.
Qed.

(** ** NRM *)
Lemma vmin_only : only_value_errors (@vmin T N).
Proof. intros [|v r] e E; cbn in E; [now injection E as <-|discriminate]. Qed.
Lemma vmax_only : only_value_errors (@vmax T N).
Proof. intros [|v r] e E; cbn in E; [now injection E as <-|discriminate]. Qed.
Definition widen (s : bool) (f : list T -> res T) (r : list T) : res (list T) :=
  if s then let! v := f r in Ok (repeat v (length r)) else Ok r.
Lemma widen_only s f : only_value_errors f -> only_value_errors (widen s f).
Proof.
  intros Hf r e. unfold widen. destruct s; [|discriminate]. destruct (f r) eqn:E; [discriminate|]. cbn. intros E'. injection E' as <-. exact (Hf _ _ E).
Qed.
Lemma bind_only {A B C} (f : A -> res B) (g : B -> res C) : only_value_errors f -> only_value_errors g -> only_value_errors (fun x => let! y := f x in g y).
Proof. intros Hf Hg x e. destruct (f x) as [y|e'] eqn:E; cbn; [apply Hg|]. intros E'. injection E' as <-. exact (Hf _ _ E). Qed.
Definition bounds (s : bool) (f : list T -> res T) (x : mts T) : res (list T) := let! a := mapM f x in widen s f a.
Lemma bounds_only s f : only_value_errors f -> only_value_errors (bounds s f).
Proof. intros Hf. apply (bind_only (mapM f) (widen s f)); [now apply mapM_only|now apply widen_only]. Qed.
Lemma bounds_length s f x a : bounds s f x = Ok a -> length a = length x.
Proof.
  unfold bounds, widen. destruct (mapM f x) as [b|] eqn:E; [|discriminate]. cbn [bind]. apply mapM_length in E. destruct s.
  - destruct (f b) as [v|]; [|discriminate]. cbn. intros E'. injection E' as <-. now rewrite repeat_length.
  - intros E'. now injection E' as <-.
Qed.
Definition nrm_with (a b : list T) (x : mts T) : mts T := map (fun p => nrm_row (fst (fst p)) (snd (fst p)) (snd p)) (combine (combine a b) x).
Lemma nrm_sample_bounds s x : nrm_sample s x = let! a := bounds s vmin x in let! b := bounds s vmax x in Ok (nrm_with a b x).
Proof.
  unfold nrm_sample, bounds, widen. destruct (mapM vmin x) as [mns|e] eqn:E1; cbn [bind]; [|reflexivity].
  destruct (mapM vmax x) as [mxs|e] eqn:E2; cbn [bind].
  - apply mapM_length in E1. apply mapM_length in E2. destruct s.
    + destruct (vmin mns) as [mn|e]; cbn [bind]; [|reflexivity]. destruct (vmax mxs) as [mx|e]; cbn [bind]; [|reflexivity]. f_equal.
      unfold nrm_with. rewrite E1, E2. clear. induction x as [|r x IH]; [reflexivity|]. cbn. now rewrite IH.
    + cbn [bind]. reflexivity.
  - pose proof (mapM_only _ vmax_only _ _ E2) as ->. destruct s; [|reflexivity].
    destruct (vmin mns) as [mn|e] eqn:E3; cbn [bind]; [reflexivity|]. now rewrite (vmin_only _ _ E3).
Qed.
Lemma mapM_two {A B C D} (f : A -> res B) (g : A -> res C) (h : B -> C -> A -> D) l : only_value_errors f -> only_value_errors g ->
  mapM (fun x => let! a := f x in let! b := g x in Ok (h a b x)) l =
  let! As := mapM f l in let! Bs := mapM g l in Ok (map2 (fun p x => h (fst p) (snd p) x) (combine As Bs) l).
Proof.
  intros Hf Hg. induction l as [|x l IH]; [reflexivity|]. cbn [mapM]. rewrite IH. clear IH.
  destruct (f x) as [a|e] eqn:Ef; cbn [bind]; [|reflexivity].
  destruct (g x) as [b|e] eqn:Eg; cbn [bind].
  - destruct (mapM f l) as [As|e] eqn:EA; cbn [bind]; [|reflexivity]. destruct (mapM g l) as [Bs|e] eqn:EB; cbn [bind]; reflexivity.
  - rewrite (Hg _ _ Eg). destruct (mapM f l) as [As|e'] eqn:EA; cbn [bind]; [reflexivity|]. now rewrite (mapM_only _ Hf _ _ EA).
Qed.
Lemma nrm_write (A B : list (list T)) : forall X : dataset T, length A = length X -> length B = length X ->
  Forall2 (fun a x => length a = length x) A X -> Forall2 (fun b x => length b = length x) B X ->
  let mask := map2 (map2 (fun a b => negb (neqb a b))) A B in
  let V := map2 (fun ab r => map2 (fun p v => map (fun u => ndiv (nsub u (fst p)) (nsub (snd p) (fst p))) v) ab r) (map2 (fun a b => combine a b) A B) X in
  (let! Y := set_masked mask V (zeros_like X) in set_masked (map (map negb) mask) (zeros_like Y) Y) =
  Ok (map2 (fun p x => nrm_with (fst p) (snd p) x) (combine A B) X).
Proof.
  cbv zeta. unfold set_masked, zeros_like. cbn [bind]. intros X LA LB FA. revert B LB.
  induction FA as [|a x A X La FA IH]; intros B LB FB; [destruct B; [reflexivity|discriminate]|].
  destruct B as [|b B]; [discriminate|]. cbn [length] in LA, LB. cbn [map2 map combine fst snd]. f_equal.
  assert (Q : length b = length x /\ Forall2 (fun b x => length b = length x) B X) by (inversion FB; auto). clear FB. destruct Q as [Lb FB].
  specialize (IH ltac:(lia) B ltac:(lia) FB). injection IH as IH. apply (f_equal2 cons); [|exact IH]. clear - La Lb.
  revert b x La Lb. induction a as [|a0 a IH]; intros b x La Lb; destruct x as [|r x]; destruct b as [|b0 b]; cbn [length] in *; try lia; [reflexivity|].
  unfold nrm_with. cbn [combine map2 map fst snd]. apply (f_equal2 cons).
  - unfold nrm_row. destruct (neqb a0 b0); cbn [negb fst snd]; [|reflexivity]. unfold zeros. now rewrite repeat_length.
  - unfold nrm_with in IH. apply IH; lia.
Qed.
Lemma mapM_Forall2 {A B} (f : A -> res B) (P : B -> A -> Prop) l : (forall x y, f x = Ok y -> P y x) -> forall r, mapM f l = Ok r -> Forall2 P r l.
Proof.
  intros Hf. induction l as [|x l IH]; intros r E; cbn in E; [injection E as <-; constructor|].
  destruct (f x) as [y|] eqn:Ex; [|discriminate]. cbn in E. destruct (mapM f l) as [ys|]; [|discriminate]. injection E as <-. constructor; auto.
Qed.
Lemma nrm_makes s x X m : valid m x -> load m x = X -> makes m m (nrm_mem s x) (nrm_transform s X).
Proof.
  intros Vx Lx. unfold nrm_mem, nrm_transform. apply (makes_contents _ _ _ _ _ _ Lx).
  rewrite (mapM_ext _ (fun x => let! a := bounds s vmin x in let! b := bounds s vmax x in Ok (nrm_with a b x))) by (intros; apply nrm_sample_bounds).
  rewrite (mapM_two (bounds s vmin) (bounds s vmax) nrm_with) by (apply bounds_only; [apply vmin_only || apply vmax_only]).
  assert (Eb : forall f, only_value_errors f -> mapM (bounds s f) X = let! q := mapM (mapM f) X in mapM (widen s f) q).
  { intros f Hf. apply (mapM_seq (mapM f) (widen s f)); [now apply mapM_only|now apply widen_only]. }
  assert (Main : forall A B, mapM (bounds s vmin) X = Ok A -> mapM (bounds s vmax) X = Ok B ->
    makes m m (seqm (new_array (zeros_like X)) (fun out =>
       seqm (assign out (set_masked (map2 (map2 (fun a b => negb (neqb a b))) A B)
              (map2 (fun ab r => map2 (fun p v => map (fun u => ndiv (nsub u (fst p)) (nsub (snd p) (fst p))) v) ab r) (map2 (fun a b => combine a b) A B) X))) (fun _ =>
       seqm (assign out (fun Q => set_masked (map (map negb) (map2 (map2 (fun a b => negb (neqb a b))) A B)) (zeros_like Q) Q)) (fun _ => ret out))))
      (Ok (map2 (fun p x => nrm_with (fst p) (snd p) x) (combine A B) X))).
  { intros A B EA EB. apply makes_seq_new; [apply untouched_refl|]. intros a m' O _.
    pose proof (mapM_length _ _ _ EA) as LA. pose proof (mapM_length _ _ _ EB) as LB.
    rewrite <- nrm_write; [|exact LA|exact LB| |].
    2: { apply (mapM_Forall2 (bounds s vmin) (fun a x => length a = length x)); [apply bounds_length|exact EA]. }
    2: { apply (mapM_Forall2 (bounds s vmax) (fun a x => length a = length x)); [apply bounds_length|exact EB]. }
    apply (makes_assign m m' a (zeros_like X) _ _ (fun Y => set_masked (map (map negb) (map2 (map2 (fun a b => negb (neqb a b))) A B)) (zeros_like Y) Y)); [exact O| |].
    - intros Y' E. injection E as <-. unfold zeros_like. rewrite !map2_length, combine_length, !map2_length, !map_length. lia.
    - intros Y' m'' E O'. injection E as E.
      assert (LY : length Y' = length X). { rewrite <- E. unfold zeros_like. rewrite !map2_length, combine_length, !map2_length, !map_length. lia. }
      match goal with |- makes _ _ _ ?r => replace r with (let! Y := r in Ok Y) by (now destruct r) end.
      apply (makes_assign m m'' a Y' (fun Q => set_masked (map (map negb) (map2 (map2 (fun a b => negb (neqb a b))) A B)) (zeros_like Q) Q) _ (fun Y => Ok Y)); [exact O'| |].
      + intros Y2 E2. injection E2 as <-. unfold zeros_like. rewrite !map2_length, map_length, combine_length, !map2_length, !map_length. lia.
      + intros Y2 m3 _ O3. now apply makes_ret. }
  rewrite (Eb vmin vmin_only) in *. rewrite (Eb vmax vmax_only) in *. clear Eb.
  destruct (mapM (mapM vmin) X) as [a|e] eqn:Ea; [|unfold makes, seqm, eval; cbn [bind]; split; [reflexivity|apply untouched_refl]].
  cbn [bind] in *.
  destruct (mapM (mapM vmax) X) as [b|e] eqn:Eb; cbn [bind] in *.
  2: { pose proof (mapM_only _ (mapM_only _ vmax_only) _ _ Eb) as ->. unfold makes, seqm, eval. split; [|apply untouched_refl].
       destruct (mapM (widen s vmin) a) as [a'|e] eqn:E; cbn [bind]; [reflexivity|]. now rewrite (mapM_only _ (widen_only s _ vmin_only) _ _ E). }
  unfold widen in Main |- *. destruct s.
  - destruct (mapM (fun r => let! v := vmin r in Ok (repeat v (length r))) a) as [a'|e] eqn:Ea'; cbn [bind].
    2: { unfold makes, seqm, eval. rewrite Ea'. split; [reflexivity|apply untouched_refl]. }
    destruct (mapM (fun r => let! v := vmax r in Ok (repeat v (length r))) b) as [b'|e] eqn:Eb'; cbn [bind].
    2: { unfold makes, seqm, eval. rewrite Ea', Eb'. split; [reflexivity|apply untouched_refl]. }
    pose proof (Main a' b' eq_refl eq_refl) as M. unfold makes, seqm, eval in *. rewrite Ea', Eb'. exact M.
  - assert (Eid : forall l : list (list T), mapM (fun r => Ok r) l = Ok l) by (intros l; rewrite (mapM_ok _ (fun r => r)) by reflexivity; now rewrite map_id).
    rewrite !Eid in *. cbn [bind]. exact (Main a b eq_refl eq_refl).
Qed.
End L.
