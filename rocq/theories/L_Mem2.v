(** The preparateurs on a heap of arrays, class by class (C89). *)
From Coq Require Import Ascii String List Arith ZArith Bool Lia.
From Verif Require Import Num Arr M_Str M_Np M_Prep M_Cache M_PrepObj M_Mem S_Mem L_Arr L_Np L_Mem.
Import ListNotations.

Section L.
Context {T : Type} `{N : Num T}.
Notation memory := (memory (T := T)).

(** ** INC *)
Lemma set_prefix z (X A : dataset T) : set_times None (Some z) (get_times None (Some z) X) A = map2M (map2M (inc_prefix1 z)) X A.
Proof.
  unfold set_times, get_times. rewrite map2M_map_l. apply map2M_ext. intros x y. rewrite map2M_map_l. reflexivity.
Qed.
Lemma inc_makes c k x X m : valid m x -> load m x = X -> forall n out O m',
  untouched m m' -> valid m' out -> load m' out = O -> length O = length X -> (1 <= n \/ owns m m' out O) ->
  makes m m' (inc_mem c k x n out) (inc_loop c k X n O).
Proof.
  intros Vx Lx n. induction n as [|n IH]; intros out O m' U Vo Lo LO Hn.
  - cbn [inc_mem inc_loop]. destruct Hn as [Hn|Ow]; [lia|]. now apply makes_ret.
  - cbn [inc_mem inc_loop]. apply (makes_contents _ _ _ _ _ _ Lo). unfold inc_step.
    destruct (increments k O) as [Y|e] eqn:EY; cbn [bind]; [|unfold makes, seqm, eval; auto].
    assert (LY : length Y = length X) by (unfold increments in EY; apply mapM_length in EY; lia).
    unfold makes, seqm at 1, eval. change (makes m m' (seqm (new_array Y) (fun out' =>
        seqm (if inc_zp c then ret tt else match inc_shift c with
            | ShFun _ => fail TypeError
            | ShInt z => seqm (contents x) (fun X => assign out' (set_times None (Some z) (get_times None (Some z) X)))
            end) (fun _ => inc_mem c k x n out')))
      (let! o := (if inc_zp c then Ok Y else match inc_shift c with ShInt z => map2M (map2M (inc_prefix1 z)) X Y | ShFun _ => Err TypeError end)
       in inc_loop c k X n o)).
    apply makes_seq_new; [exact U|]. intros a m2 Oa U2. pose proof Oa as (U3 & _).
    destruct (inc_zp c); cbn [bind].
    + change (makes m m2 (inc_mem c k x n a) (inc_loop c k X n Y)). apply IH; auto.
      * exact (owns_valid _ _ _ _ Oa). * exact (owns_load _ _ _ _ Oa).
    + destruct (inc_shift c) as [z|f]; [|unfold makes, seqm, fail; cbn [bind]; auto].
      apply makes_assoc. apply (makes_contents _ _ _ X); [now rewrite (untouched_load m m2 x U3 Vx)|].
      set (F := set_times None (Some z) (get_times None (Some z) X)).
      assert (EF : forall A, F A = map2M (map2M (inc_prefix1 z)) X A) by (intros A; apply set_prefix).
      rewrite <- (EF Y). apply (makes_assign m m2 a Y F (fun _ => inc_mem c k x n a) (fun o => inc_loop c k X n o)); [exact Oa| |].
      * intros Y' E. rewrite EF in E. apply map2M_len in E. lia.
      * intros Y' m3 E O3. rewrite EF in E. apply map2M_len in E. pose proof O3 as (U4 & _). apply IH; auto.
        -- exact (owns_valid _ _ _ _ O3). -- exact (owns_load _ _ _ _ O3). -- lia.
Qed.
Lemma inc_leaf c x X m : valid m x -> load m x = X -> 1 <= inc_depth c ->
  makes m m (inc_mem c (match inc_shift c with ShInt z => z | ShFun g => g (lenX X) end) x (inc_depth c) x) (inc_transform c X).
Proof. intros Vx Lx Hd. unfold inc_transform. apply inc_makes; auto. apply untouched_refl. Qed.

(** ** CTS *)
Lemma set_get_times lo hi lo' hi' (Y : dataset T) :
  set_times lo hi (get_times lo' hi' Y) Y = mapM (mapM (fun r => py_set_slice lo hi (py_slice lo' hi' r) r)) Y.
Proof.
  unfold set_times, get_times. rewrite map2M_map_l.
  induction Y as [|y Y IH]; [reflexivity|]. cbn [map2M mapM]. rewrite IH. rewrite (map2M_same (py_set_slice lo hi)). reflexivity.
Qed.
Lemma cts_makes s p x X m : valid m x -> load m x = X -> makes m m (cts_mem s p x) (cts_transform s p X).
Proof.
  intros Vx Lx. unfold cts_mem, cts_transform. apply (makes_contents _ _ _ _ _ _ Lx).
  set (sh := match s with CInt z => z | CFrac f => Z.max 1 (f (lenX X)) end).
  apply makes_seq_new; [apply untouched_refl|]. intros a m' O _. destruct p.
  - assert (E : mapM (mapM (cts_row true sh)) X = let! Y := zero_times None (Some sh) X in Ok Y).
    { unfold zero_times. cbn [bind]. apply mapM_ok. intros y Hy. apply mapM_ok. reflexivity. }
    rewrite E. apply (makes_assign m m' a X _ _ (fun Y => Ok Y)); [exact O| |].
    + intros Y' E'. injection E' as <-. apply map_length.
    + intros Y' m'' _ O'. now apply makes_ret.
  - set (f1 := fun r : list T => py_set_slice None (Some (- sh)%Z) (py_slice (Some sh) None r) r).
    set (f2 := fun r : list T => py_set_slice (Some (- sh)%Z) None (py_slice (Some (-1)%Z) None r) r).
    assert (H1 : only_value_errors f1) by (intros r e; apply py_set_slice_only).
    assert (H2 : only_value_errors f2) by (intros r e; apply py_set_slice_only).
    assert (E : mapM (mapM (cts_row false sh)) X = let! Y := mapM (mapM f1) X in let! Z := mapM (mapM f2) Y in Ok Z).
    { change (cts_row false sh) with (fun r => let! y := f1 r in f2 y). rewrite (mapM_ext _ (fun r => let! y := mapM f1 r in mapM f2 y)) by (intros r _; now apply mapM_seq).
      rewrite mapM_seq by now apply mapM_only. destruct (mapM (mapM f1) X) as [Y|e]; [|reflexivity]. cbn [bind]. now destruct (mapM (mapM f2) Y). }
    rewrite E. apply makes_assoc. pose proof (set_get_times None (Some (- sh)%Z) (Some sh) None X) as Eg. fold f1 in Eg. rewrite <- Eg.
    apply (makes_assign m m' a X (fun Y => set_times None (Some (- sh)%Z) (get_times (Some sh) None Y) Y) _
             (fun Y => let! Z := mapM (mapM f2) Y in Ok Z)); [exact O| |].
    + intros Y' E'. rewrite set_get_times in E'. now apply mapM_length in E'.
    + intros Y' m'' _ O'. pose proof (set_get_times (Some (- sh)%Z) None (Some (-1)%Z) None Y') as Eg2. fold f2 in Eg2. rewrite <- Eg2.
      apply (makes_assign m m'' a Y' (fun Y => set_times (Some (- sh)%Z) None (get_times (Some (-1)%Z) None Y) Y) _ (fun Z => Ok Z)); [exact O'| |].
      * intros Y2 E'. rewrite set_get_times in E'. now apply mapM_length in E'.
      * intros Y2 m3 _ O3. now apply makes_ret.
Qed.

(** ** DIL and PDD *)
Lemma fold_rows {A} (g : A -> list T -> list T) ps : forall X : dataset T,
  fold_left (fun Y p => map (map (g p)) Y) ps X = map (map (fun r => fold_left (fun v p => g p v) ps r)) X.
Proof.
  induction ps as [|p ps IH]; intros X; cbn [fold_left].
  - rewrite (map_ext _ (fun x => x)); [now rewrite map_id|]. intros x. apply map_id.
  - rewrite IH, map_map. apply map_ext. intros x. now rewrite map_map.
Qed.
Lemma strips_makes strips x X m : valid m x -> load m x = X ->
  makes m m (strips_mem strips x)
    (Ok (map (map (fun r => fold_left (fun v p => py_fill_slice (Some (Z.of_nat (fst p))) (Some (Z.of_nat (fst p + snd p))) nzero v) strips r)) X)).
Proof.
  intros Vx Lx. unfold strips_mem. apply (makes_contents _ _ _ _ _ _ Lx). apply makes_seq_new; [apply untouched_refl|]. intros a m' O _.
  set (g := fun (p : nat * nat) (v : list T) => py_fill_slice (Some (Z.of_nat (fst p))) (Some (Z.of_nat (fst p + snd p))) nzero v).
  rewrite <- (fold_rows g).
  destruct (for_each_ok (fun _ => True) (fun Y p => map (map (g p)) Y) m a strips
     (fun p => assign a (zero_times (Some (Z.of_nat (fst p))) (Some (Z.of_nat (fst p + snd p))))) m' X O Logic.I) as (_ & m'' & E & O').
  { intros p m1 Y _ _ O1. split; [exact Logic.I|].
    destruct (assign_ok m m1 a Y (zero_times (Some (Z.of_nat (fst p))) (Some (Z.of_nat (fst p + snd p)))) (map (map (g p)) Y) O1 eq_refl) as (m2 & E2 & O2).
    - apply map_length.
    - eauto. }
  unfold makes, seqm. rewrite E. unfold ret. eauto.
Qed.

(** ** DOT *)
Lemma nth_zeros t n : nth t (zeros n) nzero = nzero :> T.
Proof. unfold zeros. revert t. induction n as [|n IH]; intros [|t]; cbn; auto. Qed.
Lemma dot_makes n first x X m : valid m x -> load m x = X -> makes m m (dot_mem n first x) (dot_transform (Some (n, first)) X).
Proof.
  intros Vx Lx. unfold dot_mem, dot_transform. apply (makes_contents _ _ _ _ _ _ Lx). apply makes_seq_new; [apply untouched_refl|]. intros a m' O _.
  set (F := map2M (map2M (fun v o : list T => let! idx := stride_idx first n (length o) in
       Ok (map (fun t => if existsb (Nat.eqb t) idx then nth t v nzero else nth t o nzero) (seq 0 (length o))))) X).
  assert (E : mapM (mapM (dot_row n first)) X = let! Y := F (zeros_like X) in Ok Y).
  { unfold F, zeros_like. rewrite (map2M_same_r _ (map (fun r => zeros (length r)))).
    match goal with |- _ = bind ?r _ => assert (Er : r = mapM (mapM (dot_row n first)) X) end.
    2: { rewrite Er. now destruct (mapM (mapM (dot_row n first)) X). }
    { apply mapM_ext. intros x0 _. rewrite (map2M_same_r _ (fun r => zeros (length r))). apply mapM_ext. intros r _. unfold dot_row.
      replace (length (zeros (length r) : list T)) with (length r) by (unfold zeros; now rewrite repeat_length).
      destruct (stride_idx first n (length r)) as [idx|e]; [|reflexivity]. cbn [bind]. f_equal. apply map_ext. intros t. now rewrite nth_zeros. } }
  rewrite E. apply (makes_assign m m' a (zeros_like X) F _ (fun Y => Ok Y)); [exact O| |].
  - intros Y' E'. unfold F in E'. apply map2M_len in E'. unfold zeros_like in *. rewrite map_length in *. lia.
  - intros Y' m'' _ O'. now apply makes_ret.
Qed.

(** ** WIN *)
(** A loop that replaces one element after the other. *)
Lemma fold_upd {A} (F : nat -> A -> A) d xs : forall pre, 
  fold_left (fun Y i => upd i (F i (nth i Y d)) Y) (seq (length pre) (length xs)) (pre ++ xs) = pre ++ map2 F (seq (length pre) (length xs)) xs.
Proof.
  induction xs as [|x xs IH]; intros pre; cbn [length seq fold_left map2]; [reflexivity|].
  rewrite app_nth2, Nat.sub_diag by lia. cbn [nth]. rewrite upd_app_r by lia. rewrite Nat.sub_diag. cbn [upd].
  change (pre ++ F (length pre) x :: xs) with (pre ++ ([F (length pre) x] ++ xs)). rewrite app_assoc.
  replace (S (length pre)) with (length (pre ++ [F (length pre) x])) by (rewrite app_length; cbn; lia).
  rewrite IH. rewrite <- app_assoc. reflexivity.
Qed.
Lemma fold_upd_at {A} (G : nat -> A -> A) i d js : forall Y : list A, i < length Y ->
  fold_left (fun Y j => upd i (G j (nth i Y d)) Y) js Y = upd i (fold_left (fun s j => G j s) js (nth i Y d)) Y.
Proof.
  induction js as [|j js IH]; intros Y Hi; cbn [fold_left].
  - clear - Hi. revert i Hi. induction Y as [|y Y IH]; intros [|i] Hi; cbn in *; try lia; [reflexivity|]. f_equal. apply IH. lia.
  - rewrite IH by now rewrite upd_length. rewrite upd_nth_eq by exact Hi.
    clear. generalize (fold_left (fun s j => G j s) js (G j (nth i Y d))). intros v. generalize (G j (nth i Y d)). clear. intros w.
    revert i. induction Y as [|y Y IH]; intros [|i]; cbn; try reflexivity. now rewrite IH.
Qed.
Definition total_set lo hi (v o : list T) : list T := match py_set_slice lo hi v o with Ok r => r | Err _ => o end.
Lemma set_slice_total lo hi (v o : list T) : length v = length o -> py_set_slice lo hi (py_slice lo hi v) o = Ok (total_set lo hi (py_slice lo hi v) o) /\
  length (total_set lo hi (py_slice lo hi v) o) = length o.
Proof.
  intros L. unfold total_set. destruct (py_set_slice lo hi (py_slice lo hi v) o) as [r|e] eqn:E.
  - split; [reflexivity|]. unfold py_set_slice in E.
    assert (Hlo : lo_bound (length o) lo <= length o).
    { unfold lo_bound, py_bound. destruct lo as [z|]; [|lia]. destruct (z <? 0)%Z eqn:Ez; [apply Z.ltb_lt in Ez; lia|lia]. }
    assert (Hhi : hi_bound (length o) hi <= length o).
    { unfold hi_bound, py_bound. destruct hi as [z|]; [|lia]. destruct (z <? 0)%Z eqn:Ez; [apply Z.ltb_lt in Ez; lia|lia]. }
    destruct (Nat.eqb_spec (length (py_slice lo hi v)) (hi_bound (length o) hi - lo_bound (length o) lo)) as [El|].
    + injection E as <-. rewrite !app_length, firstn_length, skipn_length. lia.
    + destruct (py_slice lo hi v) as [|a [|b w]]; try discriminate. injection E as <-.
      rewrite !app_length, firstn_length, skipn_length, repeat_length. lia.
  - exfalso. unfold py_set_slice in E. 
    assert (El : length (py_slice lo hi v) = hi_bound (length o) hi - lo_bound (length o) lo).
    { unfold py_slice. rewrite firstn_length, skipn_length, L.
      assert (Hhi : hi_bound (length o) hi <= length o).
      { unfold hi_bound, py_bound. destruct hi as [z|]; [|lia]. destruct (z <? 0)%Z eqn:Ez; [apply Z.ltb_lt in Ez; lia|lia]. }
      lia. }
    rewrite El, Nat.eqb_refl in E. discriminate.
Qed.
Lemma win_makes cs ce x X m n d l : valid m x -> load m x = X -> box X n d l -> n <= Nat.min (length cs) (length ce) ->
  makes m m (win_mem cs ce x) (win_apply cs ce X).
Proof.
  intros Vx Lx [LX BX] Hc. unfold win_mem. apply (makes_contents _ _ _ _ _ _ Lx). apply makes_seq_new; [apply untouched_refl|]. intros a m' O _.
  set (lo := fun i => Some (Z.of_nat (nth i cs 0%nat) - 1)%Z). set (hi := fun i => Some (Z.of_nat (nth i ce 0%nat))).
  set (V := fun i j => py_slice (lo i) (hi i) (nth j (nth i X []) [])).
  set (inner := fun (Y : dataset T) i => fold_left (fun Y j => upd i (upd j (total_set (lo i) (hi i) (V i j) (nth j (nth i Y []) [])) (nth i Y [])) Y) (seq 0 (dimX X)) Y).
  assert (Dx : forall i, i < n -> length (nth i X []) = dimX X /\ (forall j, j < dimX X -> length (nth j (nth i X []) []) = l)).
  { intros i Hi. rewrite Forall_forall in BX.
    assert (D0 : dimX X = d). { destruct X as [|x0 X']; [cbn in LX; lia|]. cbn [dimX]. apply BX. now left. }
    assert (Hi' : i < length X) by lia. destruct (BX (nth i X []) (nth_In X [] Hi')) as [B1 B2]. rewrite B1, D0. split; [reflexivity|]. intros j Hj.
    rewrite Forall_forall in B2. apply B2, nth_In. lia. }
  set (P := fun Y : dataset T => length Y = n /\ forall i, i < n -> length (nth i Y []) = dimX X /\ (forall j, j < dimX X -> length (nth j (nth i Y []) []) = l)).
  assert (P0 : P (zeros_like X)).
  { unfold P, zeros_like. rewrite map_length. split; [exact LX|]. intros i Hi. destruct (Dx i Hi) as [D1 D2].
    assert (En : nth i (map (map (fun r : list T => zeros (length r))) X) [] = map (fun r : list T => zeros (length r)) (nth i X []))
      by exact (map_nth (map (fun r : list T => zeros (length r))) X [] i).
    rewrite En, map_length. split; [exact D1|]. intros j Hj.
    assert (Ej : nth j (map (fun r : list T => zeros (length r)) (nth i X [])) [] = zeros (length (nth j (nth i X []) [])))
      by exact (map_nth (fun r : list T => zeros (length r)) (nth i X []) [] j).
    rewrite Ej. unfold zeros. rewrite repeat_length. now apply D2. }
  assert (Pin : forall i j Y, i < n -> j < dimX X -> P Y ->
     set_cell i j (lo i) (hi i) (V i j) Y = Ok (upd i (upd j (total_set (lo i) (hi i) (V i j) (nth j (nth i Y []) [])) (nth i Y [])) Y) /\
     P (upd i (upd j (total_set (lo i) (hi i) (V i j) (nth j (nth i Y []) [])) (nth i Y [])) Y)).
  { intros i j Y Hi Hj [P1 P2]. destruct (P2 i Hi) as [Q1 Q2]. destruct (Dx i Hi) as [D1 D2].
    destruct (set_slice_total (lo i) (hi i) (nth j (nth i X []) []) (nth j (nth i Y []) []) ltac:(rewrite D2, Q2; auto)) as [S1 S2].
    fold (V i j) in S1, S2. split.
    - unfold set_cell. rewrite S1. reflexivity.
    - split; [now rewrite upd_length|]. intros i' Hi'. destruct (Nat.eq_dec i i') as [<-|Ne].
      + rewrite upd_nth_eq by lia. rewrite upd_length. split; [exact Q1|]. intros j' Hj'. destruct (Nat.eq_dec j j') as [<-|Nj].
        * rewrite upd_nth_eq by lia. rewrite S2. now apply Q2.
        * rewrite upd_nth_neq by exact Nj. now apply Q2.
      + rewrite upd_nth_neq by exact Ne. now apply P2. }
  destruct (for_each_ok P inner m a (seq 0 (length X))
     (fun i => for_each (seq 0 (dimX X)) (fun j => assign a (set_cell i j (lo i) (hi i) (V i j)))) m' (zeros_like X) O P0) as (_ & m'' & E & O').
  { intros i m1 Y Hi HP O1. apply in_seq in Hi. unfold inner.
    apply (for_each_ok P (fun Y j => upd i (upd j (total_set (lo i) (hi i) (V i j) (nth j (nth i Y []) [])) (nth i Y [])) Y)); [exact O1|exact HP|].
    intros j m2 Y2 Hj HP2 O2. apply in_seq in Hj. destruct (Pin i j Y2 ltac:(lia) ltac:(lia) HP2) as [E1 P1]. split; [exact P1|].
    destruct (assign_ok m m2 a Y2 _ _ O2 E1) as (m3 & E3 & O3); [now rewrite upd_length|]. eauto. }
  cbv zeta. unfold makes, seqm.
  match goal with |- context [for_each ?l ?b m'] => change (for_each l b m') with (for_each (seq 0 (length X))
     (fun i => for_each (seq 0 (dimX X)) (fun j => assign a (set_cell i j (lo i) (hi i) (V i j)))) m') end.
  rewrite E. unfold ret. eexists. split; [|exact O'].
  (* the loop computes win_apply *)
  assert (Inner : forall Y i, i < length Y -> inner Y i = upd i (fold_left (fun s j => upd j (total_set (lo i) (hi i) (V i j) (nth j s [])) s) (seq 0 (dimX X)) (nth i Y [])) Y).
  { intros Y i Hi. unfold inner. exact (fold_upd_at (fun j s => upd j (total_set (lo i) (hi i) (V i j) (nth j s [])) s) i [] (seq 0 (dimX X)) Y Hi). }
  assert (Loop : fold_left inner (seq 0 (length X)) (zeros_like X) =
     map2 (fun i s => fold_left (fun s j => upd j (total_set (lo i) (hi i) (V i j) (nth j s [])) s) (seq 0 (dimX X)) s) (seq 0 (length X)) (zeros_like X)).
  { pose proof (fold_upd (fun i s => fold_left (fun s j => upd j (total_set (lo i) (hi i) (V i j) (nth j s [])) s) (seq 0 (dimX X)) s) [] (zeros_like X) []) as Q.
    cbn [length app] in Q. assert (Lz : length (zeros_like X) = length X) by (unfold zeros_like; apply map_length). rewrite Lz in Q. rewrite <- Q.
    assert (G : forall l Y, (forall i, In i l -> i < length Y) -> fold_left inner l Y =
       fold_left (fun Y i => upd i (fold_left (fun s j => upd j (total_set (lo i) (hi i) (V i j) (nth j s [])) s) (seq 0 (dimX X)) (nth i Y [])) Y) l Y).
    { intros l0. induction l0 as [|i l0 IH]; intros Y Hl; cbn [fold_left]; [reflexivity|]. rewrite Inner by (apply Hl; now left). apply IH.
      intros i' Hi'. rewrite upd_length. apply Hl. now right. }
    apply G. intros i Hi. apply in_seq in Hi. lia. }
  rewrite Loop. unfold win_apply.
  assert (Sam : forall i, i < n -> mapM (win_row (Z.of_nat (nth i cs 0)) (Z.of_nat (nth i ce 0))) (nth i X []) =
     Ok (fold_left (fun s j => upd j (total_set (lo i) (hi i) (V i j) (nth j s [])) s) (seq 0 (dimX X)) (map (fun r => zeros (length r)) (nth i X [])))).
  { intros i Hi. destruct (Dx i Hi) as [D1 D2].
    pose proof (fold_upd (fun j o => total_set (lo i) (hi i) (V i j) o) [] (map (fun r : list T => zeros (length r)) (nth i X [])) []) as Q.
    cbn [length app] in Q. rewrite map_length, D1 in Q. rewrite Q.
    transitivity (Ok (map (fun r => total_set (lo i) (hi i) (py_slice (lo i) (hi i) r) (zeros (length r))) (nth i X []))).
    - apply mapM_ok. intros r Hr. unfold win_row. fold (lo i) (hi i). apply set_slice_total. unfold zeros. now rewrite repeat_length.
    - f_equal. unfold V. rewrite <- D1. generalize (nth i X []). clear. intros xs.
      enough (Q : forall pre xs : list (list T), map (fun r => total_set (lo i) (hi i) (py_slice (lo i) (hi i) r) (zeros (length r))) xs =
        map2 (fun j o => total_set (lo i) (hi i) (py_slice (lo i) (hi i) (nth j (pre ++ xs) [])) o) (seq (length pre) (length xs)) (map (fun r => zeros (length r)) xs))
        by exact (Q [] xs).
      clear xs. intros pre xs. revert pre. induction xs as [|r xs IH]; intros pre; [reflexivity|]. cbn [map length seq map2].
      rewrite app_nth2, Nat.sub_diag by lia. cbn [nth]. f_equal. rewrite (IH (pre ++ [r])). rewrite app_length. cbn [length]. rewrite Nat.add_1_r, <- app_assoc. reflexivity. }
  clear - Sam Hc LX. 
  assert (LX' : length X <= Nat.min (length cs) (length ce)) by lia. 
  assert (Q : forall (xs pre : dataset T) k c e, (forall i, i < length xs -> nth i xs [] = nth (length pre + i) X []) -> length pre + length xs = n ->
     c = skipn (length pre) cs -> e = skipn (length pre) ce -> k = length pre ->
     map2M (fun p x => mapM (win_row (Z.of_nat (fst p)) (Z.of_nat (snd p))) x) (combine c e) xs =
     Ok (map2 (fun i s => fold_left (fun s j => upd j (total_set (lo i) (hi i) (V i j) (nth j s [])) s) (seq 0 (dimX X)) s) (seq k (length xs)) (zeros_like xs))).
  2: { apply (Q X [] 0 cs ce); auto. }
  intros xs. induction xs as [|s xs IH]; intros pre k c e Hx Hl Ec Ee Ek.
  - destruct (combine c e); reflexivity.
  - cbn [length] in Hl. 
    assert (Hsk : forall (q : list nat), length pre < length q -> skipn (length pre) q = nth (length pre) q 0 :: skipn (S (length pre)) q).
    { clear. generalize (length pre). intros k q. revert k. induction q as [|a q IH]; intros [|k] Hk; cbn [length] in Hk; try lia; [reflexivity|]. cbn [skipn nth]. apply IH. lia. }
    rewrite Ec, Ee, !Hsk by lia. cbn [combine map2M fst snd].
    pose proof (Hx 0 ltac:(cbn; lia)) as Hx0. cbn [nth] in Hx0. rewrite Nat.add_0_r in Hx0. rewrite Hx0 at 1. rewrite (Sam (length pre)) by lia. cbn [bind].
    rewrite (IH (pre ++ [s]) (S k) (skipn (S (length pre)) cs) (skipn (S (length pre)) ce)).
    + cbn [bind length seq zeros_like map map2]. subst k. now rewrite <- Hx0.
    + intros i Hi. rewrite app_length. cbn [length]. rewrite (Nat.add_1_r), Nat.add_succ_comm. apply (Hx (S i)). cbn. lia.
    + rewrite app_length. cbn. lia.
    + f_equal. rewrite app_length. cbn. lia.
    + f_equal. rewrite app_length. cbn. lia.
    + subst k. rewrite app_length. cbn. lia.
Qed.
End L.
