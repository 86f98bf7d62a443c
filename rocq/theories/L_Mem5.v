(** Lemmas about M_Mem2: the stage of iterated sums and sieves in memory. *)
From Coq Require Import Ascii String List Arith ZArith Bool Lia.
From Verif Require Import Num Arr M_Str M_Np M_Prep M_Fruit M_Mem M_Mem2 S_Fruit S_Mem S_Mem2 L_Arr L_Np L_Fruit L_Mem L_Mem4.
Import ListNotations.

Section L.
Context {T : Type} `{N : Num T}.
Notation memory := (memory (T := T)).
Notation mem := (mem (T := T)).

Lemma unblock_block (A : mts T) : unblock2 (block2 A) = A.
Proof. unfold unblock2, block2. rewrite map_map. cbn. apply map_id. Qed.
Lemma block_len (A : mts T) : length (block2 A) = length A.
Proof. apply map_length. Qed.
Lemma set_columns_block k nf R (A : mts T) : set_columns k nf R (block2 A) = let! A' := set_cols k nf R A in Ok (block2 A').
Proof. unfold set_columns. now rewrite unblock_block. Qed.
Lemma set_cols_len k nf (R A A' : mts T) : set_cols k nf R A = Ok A' -> length A' = length A.
Proof.
  unfold set_cols. destruct (Nat.eqb_spec (length R) (length A)) as [E|_].
  - intros Q. apply map2M_len in Q. lia.
  - destruct R as [|r [|r2 R]]; try discriminate. intros Q. apply map2M_len in Q. rewrite repeat_length in Q. lia.
Qed.
Lemma set_columns_len k nf R (A B : dataset T) : set_columns k nf R A = Ok B -> length B = length A.
Proof.
  unfold set_columns. destruct (set_cols k nf R (unblock2 A)) as [A'|] eqn:E; [|discriminate]. intros Q. injection Q as <-.
  rewrite block_len. apply set_cols_len in E. now rewrite E; unfold unblock2; rewrite map_length.
Qed.

(** From [m] to [m'] only the block [f], the rows [P] and new blocks change. *)
Definition frame (f : nat) (P : nat -> nat -> Prop) (m m' : memory) : Prop :=
  length m <= length m' /\ forall b, b < length m -> b <> f ->
    length (nth b m' []) = length (nth b m []) /\ forall i, ~ P b i -> nth i (nth b m' []) [] = nth i (nth b m []) [].
Definition nothing (b i : nat) : Prop := False.
Definition rows_of (a : arr) (b i : nat) : Prop := b = base a /\ In i (rows a).
Lemma frame_refl f P (m : memory) : frame f P m m.
Proof. split; [lia|]. intros; split; auto. Qed.
Lemma frame_trans f P m1 m2 m3 : frame f P m1 m2 -> frame f P m2 m3 -> frame f P m1 m3.
Proof.
  intros (L1 & F1) (L2 & F2). split; [lia|]. intros b Hb Hf. destruct (F1 b Hb Hf) as [A1 B1]. destruct (F2 b ltac:(lia) Hf) as [A2 B2].
  split; [congruence|]. intros i Hi. now rewrite B2, B1.
Qed.
Lemma frame_mono f (P Q : nat -> nat -> Prop) m m' : (forall b i, P b i -> Q b i) -> frame f P m m' -> frame f Q m m'.
Proof. intros HPQ (L & F). split; [exact L|]. intros b Hb Hf. destruct (F b Hb Hf) as [A B]. split; [exact A|]. intros i Hi. apply B. auto. Qed.
Lemma frame_untouched f m m' : untouched m m' -> frame f nothing m m'.
Proof.
  intros U. split; [now apply untouched_len|]. intros b Hb _. rewrite (untouched_nth _ _ _ U Hb). auto.
Qed.
(** rows in new blocks do not count *)
Lemma frame_new f P m m1 m' : untouched m m1 -> frame f P m1 m' -> (forall b i, P b i -> length m <= b) -> frame f nothing m m'.
Proof.
  intros U (L & F) HP. pose proof (untouched_len _ _ U) as L1. split; [lia|]. intros b Hb Hf. destruct (F b ltac:(lia) Hf) as [A B].
  rewrite (untouched_nth _ _ _ U Hb) in *. split; [exact A|]. intros i _. apply B. intros Hp. specialize (HP b i Hp). lia.
Qed.
Lemma frame_load f P m m' a : frame f P m m' -> valid m a -> base a <> f -> (forall i, In i (rows a) -> ~ P (base a) i) ->
  load m' a = load m a /\ valid m' a.
Proof.
  intros (L & F) (Vb & Vn & Vr) Hf HP. destruct (F _ Vb Hf) as [A B]. split.
  - unfold load. apply map_ext_in. intros i Hi. apply B. now apply HP.
  - split; [lia|]. split; [exact Vn|]. rewrite A. exact Vr.
Qed.
Lemma nth_upd {A} i j (v d : A) l : nth i (upd j v l) d = if (i =? j) && (j <? length l) then v else nth i l d.
Proof.
  revert i j. induction l as [|x l IH]; intros i j; [destruct i, j; cbn; try reflexivity; now rewrite andb_false_r|]. destruct j as [|j]; cbn [upd].
  - destruct i; reflexivity.
  - destruct i as [|i]; [reflexivity|]. cbn [nth]. rewrite IH. reflexivity.
Qed.
(** Writing to an array changes its rows only. *)
Lemma frame_put f a Y (m : memory) : frame f (rows_of a) m (put a Y m).
Proof.
  unfold put. split; [now rewrite upd_length|]. intros b Hb Hf. rewrite nth_upd.
  destruct (Nat.eqb_spec b (base a)) as [->|Hn]; [|auto]. rewrite (proj2 (Nat.ltb_lt _ _) Hb). cbn [andb].
  set (blk := nth (base a) m []). unfold put_rows.
  assert (Q : forall l (blk : dataset T), length (fold_left (fun b p => upd (fst p) (snd p) b) l blk) = length blk /\
     forall i, ~ In i (map fst l) -> nth i (fold_left (fun b p => upd (fst p) (snd p) b) l blk) [] = nth i blk []).
  { induction l as [|[i v] l IH]; intros b; [auto|]. cbn [fold_left fst snd map]. destruct (IH (upd i v b)) as [A B]. rewrite upd_length in A.
    split; [exact A|]. intros j Hj. rewrite B by (intros Hj'; apply Hj; now right). rewrite nth_upd.
    destruct (Nat.eqb_spec j i) as [->|_]; [exfalso; apply Hj; now left|reflexivity]. }
  destruct (Q (combine (rows a) Y) blk) as [A B]. split; [exact A|]. intros i Hi. apply B. intros Hj. apply Hi. split; [reflexivity|].
  apply in_map_iff in Hj. destruct Hj as ([i' v] & E & Hin). cbn in E. subst i'. now apply in_combine_l in Hin.
Qed.
Lemma put_load_same (m : memory) a : valid m a -> put a (load m a) m = m.
Proof.
  intros (Vb & Vn & Vr). unfold put, load, put_rows. set (blk := nth (base a) m []) in *.
  assert (E : fold_left (fun b p => upd (fst p) (snd p) b) (combine (rows a) (map (fun i => nth i blk []) (rows a))) blk = blk).
  { clear Vn. induction (rows a) as [|i r IH]; [reflexivity|]. cbn [map combine fold_left fst snd].
    replace (upd i (nth i blk []) blk) with blk; [exact (IH (Forall_inv_tail Vr))|].
    apply (nth_ext _ _ [] []); [now rewrite upd_length|]. intros j _. rewrite nth_upd. destruct (Nat.eqb_spec j i) as [->|_]; [now destruct (_ && _)|reflexivity]. }
  rewrite E. subst blk. apply (nth_ext _ _ [] []); [apply upd_length|]. intros j _. rewrite nth_upd.
  destruct (Nat.eqb_spec j (base a)) as [->|_]; [now destruct (_ && _)|reflexivity].
Qed.

(** ** The loop over the iterated sums *)
Section Iterate.
Variable K : kit T.
Variable src : source (T := T).
Variables (m1 : memory) (c : dataset T) (f : arr).
Hypothesis Hsrc : L_Mem4.sees m1 src c.
Notation owns := (owns m1).
Definition does {S} (P : nat -> nat -> Prop) (m : memory) (p : mem S) (r : res (S * mts T)) : Prop :=
  match p m with
  | (Ok s, m') => exists A, r = Ok (s, A) /\ owns m' f (block2 A) /\ frame (base f) P m m'
  | (Err e, m') => r = Err e /\ untouched m1 m'
  end.
Lemma does_weak {S} (P Q : nat -> nat -> Prop) m (p : mem S) r : (forall b i, P b i -> Q b i) -> does P m p r -> does Q m p r.
Proof.
  intros HPQ. unfold does. destruct (p m) as [[s|e] m']; [|auto]. intros (A & E & O & F). exists A. split; [exact E|]. split; [exact O|].
  now apply (frame_mono _ P).
Qed.
Lemma does_seq' {S S'} (P Q : nat -> nat -> Prop) m (p : mem S) (q : S -> mem S') r g : (forall b i, P b i -> Q b i) -> does P m p r ->
  (forall s A m', r = Ok (s, A) -> owns m' f (block2 A) -> frame (base f) P m m' -> does Q m' (q s) (g (s, A))) ->
  does Q m (seqm p q) (let! sA := r in g sA).
Proof.
  intros HPQ. unfold does, seqm. destruct (p m) as [[s|e] m'].
  - intros (A & -> & O & F) Hq. specialize (Hq s A m' eq_refl O F). cbn [bind]. destruct (q s m') as [[s'|e] m''].
    + destruct Hq as (A' & E & O' & F'). exists A'. split; [exact E|]. split; [exact O'|]. exact (frame_trans _ _ _ _ _ (frame_mono _ _ _ _ _ HPQ F) F').
    + exact Hq.
  - intros (-> & U) _. auto.
Qed.
Lemma does_seq {S S'} P m (p : mem S) (q : S -> mem S') r g : does P m p r ->
  (forall s A m', r = Ok (s, A) -> owns m' f (block2 A) -> frame (base f) P m m' -> does P m' (q s) (g (s, A))) ->
  does P m (seqm p q) (let! sA := r in g sA).
Proof. apply does_seq'. auto. Qed.
Lemma look_src (m : memory) {B : Type} (k : dataset T -> mem B) : untouched m1 m -> seqm (look src) k m = k c m.
Proof.
  intros U. unfold seqm. destruct src as [a|X]; cbn in Hsrc |- *.
  - destruct Hsrc as [V L]. unfold contents. now rewrite (untouched_load _ _ _ U V), L.
  - now subst.
Qed.
(** The loop, without memory: *)
Fixpoint go {S} (bodyv : S -> mts T -> mts T -> res (S * mts T)) (s : S) (A : mts T) (its : list (res (mts T))) : res (S * mts T) :=
  match its with
  | [] => Ok (s, A)
  | Err e :: _ => Err e
  | Ok Y :: r => let! sA := bodyv s A Y in go bodyv (fst sA) (snd sA) r
  end.
Lemma go_app {S} (bodyv : S -> mts T -> mts T -> res (S * mts T)) l1 : forall s A l2,
  go bodyv s A (l1 ++ l2) = let! sA := go bodyv s A l1 in go bodyv (fst sA) (snd sA) l2.
Proof.
  induction l1 as [|[Y|e] l1 IH]; intros s A l2; cbn [app go]; [reflexivity| |reflexivity].
  destruct (bodyv s A Y) as [[s' A']|e]; cbn [bind]; [apply IH|reflexivity].
Qed.
Section Body.
Context {S : Type}.
Variable body : S -> arr -> mem S.
Variable bodyv : S -> mts T -> mts T -> res (S * mts T).
Hypothesis Hbody : forall s A a j Y m, owns m f (block2 A) -> valid m a -> length m1 <= base a -> base a <> base f -> rows a = [j] -> load m a = [Y] ->
  does (rows_of a) m (body s a) (bodyv s A Y).
Lemma iterate_does : forall (is : list (issT K)) (top : bool) x s A m X, owns m f (block2 A) -> valid m x -> base x <> base f ->
  X = (if top then load m x else map (fun r => [r]) (hd [] (load m x))) ->
  (top = true -> is <> []) -> (top = false -> (exists j, rows x = [j]) /\ length m1 <= base x) ->
  does (match is with [] => rows_of x | _ => nothing end) m (iterate_mem K src body is top x s)
       (go bodyv s A (iterate_iss K (map (i_attach K c) is) X)).
Proof.
  induction is as [|i rest IH]; intros top x s A m X O V Hx EX Ht Hf.
  - destruct top; [now specialize (Ht eq_refl)|]. destruct (Hf eq_refl) as ((j & Ej) & Hl). cbn [iterate_mem map iterate_iss go].
    assert (El : load m x = [hd [] (load m x)]) by (unfold load; rewrite Ej; reflexivity).
    subst X. rewrite map_map. cbn [nth]. rewrite map_id. pose proof (Hbody s A x j (hd [] (load m x)) m O V Hl Hx Ej El) as Hb.
    destruct (bodyv s A (hd [] (load m x))) as [[s' A']|e]; exact Hb.
  - cbn [iterate_mem map iterate_iss].
    assert (U : untouched m1 m) by apply O.
    assert (Arg : forall m {B} (k : dataset T -> mem B), load m x = load m x -> seqm (argument top x) k m = k (if top then load m x else map (fun r => [r]) (hd [] (load m x))) m) by reflexivity.
    unfold does. rewrite look_src by exact U. rewrite Arg by reflexivity. rewrite <- EX.
    fold (does nothing m (fold_each (seq 0 (length (i_batches K (i_attach K c i) X))) (fun s b =>
        seqm (look src) (fun c => seqm (argument top x) (fun X => seqm (eval (nth b (i_batches K (i_attach K c i) X) (Err IndexError))) (fun Y =>
        seqm (new_array Y) (fun r => fold_each (seq 0 (length Y)) (fun s j => iterate_mem K src body rest false (row r j) s) s))))) s)
      (go bodyv s A (flat_map (fun b => match b with Err e => [Err e] | Ok itsums => flat_map (fun s => iterate_iss K (map (i_attach K c) rest) (map (fun row => [row]) s)) itsums end)
        (i_batches K (i_attach K c i) X)))).
    set (bs := i_batches K (i_attach K c i) X).
    assert (G : forall l pre s A m', bs = pre ++ l -> owns m' f (block2 A) -> frame (base f) nothing m m' ->
      does nothing m' (fold_each (seq (length pre) (length l)) (fun s b =>
        seqm (look src) (fun c => seqm (argument top x) (fun X => seqm (eval (nth b (i_batches K (i_attach K c i) X) (Err IndexError))) (fun Y =>
        seqm (new_array Y) (fun r => fold_each (seq 0 (length Y)) (fun s j => iterate_mem K src body rest false (row r j) s) s))))) s)
      (go bodyv s A (flat_map (fun b => match b with Err e => [Err e] | Ok itsums => flat_map (fun s => iterate_iss K (map (i_attach K c) rest) (map (fun row => [row]) s)) itsums end) l))).
    { induction l as [|b l IHl]; intros pre s' A' m' Eb O' F'.
      - cbn. exists A'. split; [reflexivity|]. split; [exact O'|apply frame_refl].
      - cbn [length seq fold_each flat_map]. rewrite go_app.
        assert (Ex : load m' x = load m x /\ valid m' x) by (apply (frame_load (base f) nothing); auto).
        destruct Ex as [Ex Vx].
        apply does_seq.
        + unfold does. rewrite look_src by apply O'. rewrite Arg by reflexivity. rewrite Ex, <- EX. fold bs.
          assert (En : nth (length pre) bs (Err IndexError) = b) by (rewrite Eb, app_nth2, Nat.sub_diag by lia; reflexivity).
          rewrite En. unfold seqm at 1, eval. destruct b as [Y|e]; [|split; [reflexivity|apply O']].
          destruct (owns_new m1 m' Y) as (r & m2 & E2 & O2 & U2); [apply O'|]. unfold seqm. rewrite E2.
          assert (Br : base r = length m') by (unfold new_array in E2; injection E2 as <- _; reflexivity).
          assert (Hr : base r <> base f) by (pose proof O' as (_ & B & _); lia).
          assert (R : forall lr prer s A m3, Y = prer ++ lr -> owns m3 f (block2 A) ->
             frame (base f) (fun b i => b = base r /\ i < length prer) m2 m3 ->
             does (fun b i => b = base r) m3 (fold_each (seq (length prer) (length lr)) (fun s j => iterate_mem K src body rest false (row r j) s) s)
               (go bodyv s A (flat_map (fun s => iterate_iss K (map (i_attach K c) rest) (map (fun row => [row]) s)) lr))).
          { induction lr as [|y lr IHr]; intros prer s3 A3 m3 EY O3 F3.
            - cbn. exists A3. split; [reflexivity|]. split; [exact O3|apply frame_refl].
            - cbn [length seq fold_each flat_map]. rewrite go_app. pose proof O2 as (_ & [_ Bl] & Er & Rr).
              assert (Rj : rows (row r (length prer)) = [length prer]).
              { cbn. rewrite Rr. rewrite seq_nth; [reflexivity|]. rewrite EY, app_length. cbn. lia. }
              assert (Vr : valid m2 (row r (length prer))).
              { unfold valid. rewrite Rj. cbn [base row]. split; [exact Bl|]. split; [repeat constructor; cbn; tauto|]. constructor; [|constructor].
                rewrite Er, EY, app_length. cbn. lia. }
              destruct (frame_load _ _ _ _ (row r (length prer)) F3 Vr Hr) as [L3 V3].
              { rewrite Rj. intros i0 [<-|[]] (_ & Hlt). lia. }
              assert (L2 : load m2 (row r (length prer)) = [y]).
              { unfold load. rewrite Rj. cbn [base row map]. rewrite Er, EY, app_nth2, Nat.sub_diag by lia. reflexivity. }
              apply (does_seq' (rows_of (row r (length prer)))).
              + intros b0 i0 (-> & _). reflexivity.
              + eapply does_weak; [|apply (IH false (row r (length prer)) s3 A3 m3 (map (fun row => [row]) y) O3 V3 Hr)].
                * intros b0 i0 Hp. destruct rest; [exact Hp|destruct Hp].
                * now rewrite L3, L2.
                * discriminate.
                * intros _. split; [eauto|]. cbn [row base]. rewrite Br. apply untouched_len. apply O'.
              + intros s4 A4 m4 _ O4 F4. specialize (IHr (prer ++ [y]) s4 A4 m4). rewrite app_length in IHr. cbn [length] in IHr.
                rewrite Nat.add_1_r in IHr. apply IHr; [now rewrite <- app_assoc|exact O4|].
                apply (frame_trans _ _ _ m3); [eapply frame_mono; [|exact F3]; intros b0 i0 (-> & Hi); split; [reflexivity|lia]|].
                eapply frame_mono; [|exact F4]. intros b0 i0 (-> & Hi). rewrite Rj in Hi. destruct Hi as [<-|[]]. split; [reflexivity|lia]. }
          assert (O2f : owns m2 f (block2 A')) by exact (owns_later _ _ _ _ _ O' U2).
          pose proof (R Y [] s' A' m2 eq_refl O2f (frame_refl _ _ _)) as D. unfold does in D. cbn [length] in D.
          destruct (fold_each (seq 0 (length Y)) (fun s j => iterate_mem K src body rest false (row r j) s) s' m2) as [[s4|e] m4]; [|exact D].
          destruct D as (A4 & E4 & O4 & F4). exists A4. split; [exact E4|]. split; [exact O4|].
          refine (frame_new _ _ _ _ _ U2 F4 _). intros b0 i0 ->. lia.
        + intros s2 A2 m2 _ O2 F2. specialize (IHl (pre ++ [b]) s2 A2 m2). rewrite app_length in IHl. cbn [length] in IHl.
          rewrite Nat.add_1_r in IHl. apply IHl; [now rewrite <- app_assoc|exact O2|exact (frame_trans _ _ _ _ _ F' F2)]. }
    exact (G bs [] s A m eq_refl O (frame_refl _ _ _)).
Qed.
End Body.

(** ** The sieves *)
Hypothesis Hnf : forall c s, s_nf K (s_attach K c s) = s_nf K s.
Lemma frame_put_self Y (m : memory) : frame (base f) nothing m (put f Y m).
Proof.
  unfold put. split; [now rewrite upd_length|]. intros b Hb Hf. rewrite nth_upd. destruct (Nat.eqb_spec b (base f)); [congruence|auto].
Qed.
Lemma call_observes cbs y : Forall observes cbs -> forall m : memory, exists m', call cbs y m = (Ok tt, m') /\ untouched m m'.
Proof.
  unfold call. induction cbs as [|cb cbs IH]; intros Hc m; [exists m; split; [reflexivity|apply untouched_refl]|].
  cbn [for_each]. unfold seqm. pose proof (Forall_inv Hc y m) as [E U]. destruct (cb y m) as [r m2]. cbn [fst snd] in *. subst r.
  destruct (IH (Forall_inv_tail Hc) m2) as (m3 & E2 & U2). exists m3. split; [exact E2|]. exact (untouched_trans _ _ _ U U2).
Qed.
Definition value (r : res ((nat * mts T) * list (event T))) : res (nat * mts T) := match r with Ok (kA, _) => Ok kA | Err e => Err e end.
Lemma sieves_does hk a Y : Forall observes (on_sieve hk) -> base a <> base f -> forall l k A m,
  owns m f (block2 A) -> valid m a -> load m a = [Y] ->
  does nothing m (sieves_mem K hk src l a f k) (value (ev_sieves K c l Y (k, A))).
Proof.
  intros Hc Ha. induction l as [|s l IH]; intros k A m O V L.
  - cbn. exists A. split; [reflexivity|]. split; [exact O|apply frame_refl].
  - cbn [sieves_mem ev_sieves]. unfold does. rewrite look_src by apply O.
    assert (En : s_nf K (s_attach K c s) = s_nf K s) by apply Hnf. rewrite En.
    unfold seqm at 1, contents. rewrite L. cbn [hd]. unfold seqm at 1, eval.
    destruct (fst (s_transform K Y (s_attach K c s))) as [R|e]; [|split; [reflexivity|apply O]].
    unfold seqm at 1.
    destruct (set_cols k (s_nf K s) R A) as [A'|e] eqn:Es.
    + assert (Ec : set_columns k (s_nf K s) R (block2 A) = Ok (block2 A')) by (rewrite set_columns_block, Es; reflexivity).
      destruct (assign_ok m1 m f (block2 A) (set_columns k (s_nf K s) R) (block2 A') O Ec) as (m2 & E2 & O2).
      { rewrite !block_len. now apply (set_cols_len k (s_nf K s) R). }
      rewrite E2. assert (F2 : frame (base f) nothing m m2).
      { unfold assign in E2. rewrite (owns_load _ _ _ _ O), Ec in E2. injection E2 as <-. apply frame_put_self. }
      unfold seqm. destruct (call_observes (on_sieve hk) (row_range f k (s_nf K s)) Hc m2) as (m3 & E3 & U3). rewrite E3.
      assert (F3 : frame (base f) nothing m m3) by exact (frame_trans _ _ _ _ _ F2 (frame_untouched _ _ _ U3)).
      destruct (frame_load _ _ _ _ a F3 V Ha) as [L3 V3]; [intros i _ []|]. rewrite L in L3.
      pose proof (IH (k + s_nf K s) A' m3 (owns_later _ _ _ _ _ O2 U3) V3 L3) as D. unfold does in D.
      destruct (sieves_mem K hk src l a f (k + s_nf K s) m3) as [[k4|e] m4].
      * destruct D as (A4 & E4 & O4 & F4). exists A4. split; [|split; [exact O4|exact (frame_trans _ _ _ _ _ F3 F4)]].
        destruct (ev_sieves K c l Y (k + s_nf K s, A')) as [[x evs]|]; [|discriminate]. cbn in *. exact E4.
      * destruct D as [E4 U4]. split; [|exact U4]. destruct (ev_sieves K c l Y (k + s_nf K s, A')) as [[x evs]|]; [discriminate|]. exact E4.
    + assert (Ec : set_columns k (s_nf K s) R (block2 A) = Err e) by (rewrite set_columns_block, Es; reflexivity).
      rewrite (assign_err m1 m f (block2 A) _ e O Ec). split; [reflexivity|apply O].
Qed.

(** ** The body of the loop, with callbacks that overwrite the iterated sum *)
Lemma call_overwrites a j : rows a = [j] -> base a <> base f -> length m1 <= base a ->
  forall cbs gs, Forall2 (fun cb g => overwrites cb (map g)) cbs gs -> forall m Y A, owns m f (block2 A) -> valid m a -> load m a = [Y] ->
  exists m', call cbs a m = (Ok tt, m') /\ owns m' f (block2 A) /\ frame (base f) (rows_of a) m m' /\ valid m' a /\ load m' a = [applied gs Y].
Proof.
  intros Ej Ha Hm cbs gs F. induction F as [|cb g cbs gs Hcb F IH]; intros m Y A O V L.
  - exists m. split; [reflexivity|]. split; [exact O|]. split; [apply frame_refl|]. auto.
  - destruct (Hcb a m V) as [_ (new & E)]. rewrite L in E. cbn [map] in E.
    set (m2 := put a [g Y] m ++ new) in *.
    assert (U2 : untouched (put a [g Y] m) m2) by (exists new; reflexivity).
    assert (F2 : frame (base f) (rows_of a) m m2).
    { apply (frame_trans _ _ _ (put a [g Y] m)); [apply frame_put|]. eapply frame_mono; [|exact (frame_untouched _ _ _ U2)]. intros ? ? []. }
    assert (Vp : valid (put a [g Y] m) a).
    { destruct (frame_put (base f) a [g Y] m) as [Lp Fp]. destruct V as (Vb & Vn & Vr). destruct (Fp _ Vb Ha) as [Lb _].
      split; [lia|]. split; [exact Vn|]. rewrite Lb. exact Vr. }
    assert (Lp : load (put a [g Y] m) a = [g Y]).
    { destruct V as (Vb & _ & Vr). unfold load, put. rewrite Ej. cbn [map]. rewrite nth_upd, Nat.eqb_refl, (proj2 (Nat.ltb_lt _ _) Vb). cbn [andb].
      unfold put_rows. cbn [combine fold_left fst snd]. rewrite nth_upd, Nat.eqb_refl. rewrite Ej in Vr. rewrite (proj2 (Nat.ltb_lt _ _) (Forall_inv Vr)). reflexivity. }
    assert (Op : owns (put a [g Y] m) f (block2 A)).
    { destruct O as (U & B & En & Er). split; [exact (put_new m1 m a [g Y] U Hm)|]. unfold put. rewrite upd_length. split; [exact B|]. split; [|exact Er].
      rewrite nth_upd. destruct (Nat.eqb_spec (base f) (base a)) as [Q|_]; [congruence|exact En]. }
    destruct (IH m2 (g Y) A) as (m3 & E3 & O3 & F3 & V3 & L3).
    + exact (owns_later _ _ _ _ _ Op U2).
    + exact (untouched_valid _ _ _ U2 Vp).
    + now rewrite (untouched_load _ _ _ U2 Vp).
    + exists m3. split; [|split; [exact O3|split; [exact (frame_trans _ _ _ _ _ F2 F3)|auto]]].
      unfold call in *. cbn [for_each]. unfold seqm. rewrite E. exact E3.
Qed.
Definition bodyv (svs : list (sieveT K)) (ext : list (list (sieveT K))) (gs : list (mts T -> mts T)) (ik : nat * nat) (A Y : mts T) : res ((nat * nat) * mts T) :=
  let! l := sieves_at K svs ext (fst ik) in
  let! kA := value (ev_sieves K c l (applied gs Y) (snd ik, A)) in
  Ok ((S (fst ik), fst kA), snd kA).
Lemma itsum_does hk svs ext gs : Forall2 (fun cb g => overwrites cb (map g)) (on_iterated_sum hk) gs -> Forall observes (on_sieve hk) ->
  forall ik A a j Y m, owns m f (block2 A) -> valid m a -> length m1 <= base a -> base a <> base f -> rows a = [j] -> load m a = [Y] ->
  does (rows_of a) m (itsum_mem K hk src svs ext f ik a) (bodyv svs ext gs ik A Y).
Proof.
  intros Ho Hs ik A a j Y m O V Hm Ha Ej L. unfold itsum_mem, bodyv, does. unfold seqm at 1.
  destruct (call_overwrites a j Ej Ha Hm _ gs Ho m Y A O V L) as (m2 & E2 & O2 & F2 & V2 & L2). rewrite E2.
  unfold seqm at 1, eval. destruct (sieves_at K svs ext (fst ik)) as [l|e]; cbn [bind]; [|split; [reflexivity|apply O2]].
  pose proof (sieves_does hk a (applied gs Y) Hs Ha l (snd ik) A m2 O2 V2 L2) as D. unfold does in D. unfold seqm.
  destruct (sieves_mem K hk src l a f (snd ik) m2) as [[k3|e] m3].
  - destruct D as (A3 & E3 & O3 & F3). rewrite E3. cbn. exists A3. split; [reflexivity|]. split; [exact O3|].
    apply (frame_trans _ _ _ m2); [exact F2|]. eapply frame_mono; [|exact F3]. intros ? ? [].
  - destruct D as [E3 U3]. rewrite E3. auto.
Qed.
Lemma go_itsums svs ext gs its : forall i k A,
  mapr snd (go (bodyv svs ext gs) (i, k) A its) = mapr snd (value (ev_itsums K c (getter K svs ext) i (map (mapr (applied gs)) its) (k, A))).
Proof.
  induction its as [|[Y|e] its IH]; intros i k A; [reflexivity| |reflexivity]. cbn [go map mapr ev_itsums]. unfold bodyv at 1. cbn [fst snd].
  assert (Eg : getter K svs ext i = sieves_at K svs ext i) by (unfold getter, sieves_at; destruct ext; reflexivity). rewrite Eg.
  destruct (sieves_at K svs ext i) as [l|e]; [|reflexivity]. cbn [bind].
  destruct (ev_sieves K c l (applied gs Y) (k, A)) as [[[k' A'] e1]|e]; [|reflexivity]. cbn [value bind fst snd]. rewrite IH.
  destruct (ev_itsums K c (getter K svs ext) (S i) _ (k', A')) as [[x e2]|e]; reflexivity.
Qed.
End Iterate.
End L.
