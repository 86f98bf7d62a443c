(** Lemmas for C89: the statements of the preparateurs executed on a heap of
    arrays compute the functions of M_Prep. *)
From Coq Require Import Ascii String List Arith ZArith Bool Lia.
From Verif Require Import Num Arr M_Str M_Np M_Prep M_Cache M_PrepObj M_Mem S_Mem L_Arr L_Np.
Import ListNotations.

Section L.
Context {T : Type} `{N : Num T}.
Notation memory := (memory (T := T)).

(** ** Heaps *)
Lemma untouched_refl (m : memory) : untouched m m.
Proof. exists []. now rewrite app_nil_r. Qed.
Lemma untouched_trans (m1 m2 m3 : memory) : untouched m1 m2 -> untouched m2 m3 -> untouched m1 m3.
Proof. intros [a ->] [b ->]. exists (a ++ b). now rewrite app_assoc. Qed.
Lemma untouched_len (m m' : memory) : untouched m m' -> length m <= length m'.
Proof. intros [a ->]. rewrite app_length. lia. Qed.
Lemma untouched_nth (m m' : memory) b : untouched m m' -> b < length m -> nth b m' [] = nth b m [].
Proof. intros [a ->] Hb. now apply app_nth1. Qed.
Lemma untouched_load (m m' : memory) a : untouched m m' -> valid m a -> load m' a = load m a.
Proof. intros U [Hb _]. unfold load. now rewrite (untouched_nth m m' _ U Hb). Qed.
Lemma untouched_valid (m m' : memory) a : untouched m m' -> valid m a -> valid m' a.
Proof.
  intros U [Hb [Hn Hr]]. unfold valid. rewrite (untouched_nth m m' _ U Hb). split; [|auto].
  apply untouched_len in U. lia.
Qed.
Lemma upd_app_r {A} i (v : A) l1 l2 : length l1 <= i -> upd i v (l1 ++ l2) = l1 ++ upd (i - length l1) v l2.
Proof.
  revert i. induction l1 as [|x l1 IH]; intros i Hi; cbn [app length] in *; [now rewrite Nat.sub_0_r|].
  destruct i as [|i]; [lia|]. cbn [upd]. rewrite IH by lia. reflexivity.
Qed.
Lemma put_new (m m' : memory) a Y : untouched m m' -> length m <= base a -> untouched m (put a Y m').
Proof. intros [n ->] Hb. unfold put. rewrite upd_app_r by exact Hb. eexists. reflexivity. Qed.
Lemma load_full (m : memory) a Y : nth (base a) m [] = Y -> rows a = seq 0 (length Y) -> load m a = Y.
Proof.
  intros E Er. unfold load. rewrite E, Er. clear. apply (nth_ext _ _ [] []); [now rewrite map_length, seq_length|].
  intros i Hi. rewrite map_length, seq_length in Hi.
  rewrite (nth_indep _ [] (nth 0 Y [])) by now rewrite map_length, seq_length.
  rewrite (map_nth (fun i => nth i Y [])), seq_nth by exact Hi. reflexivity.
Qed.
Lemma put_rows_full (old Y : dataset T) : length Y = length old -> put_rows (seq 0 (length old)) Y old = Y.
Proof.
  intros L. unfold put_rows.
  enough (Q : forall (Y pre old : dataset T), length Y = length old ->
    fold_left (fun b p => upd (fst p) (snd p) b) (combine (seq (length pre) (length old)) Y) (pre ++ old) = pre ++ Y)
    by exact (Q Y [] old L).
  clear. intros Y. induction Y as [|y Y IH]; intros pre old L; destruct old as [|o old]; try discriminate; [reflexivity|].
  cbn [length seq combine fold_left fst snd]. rewrite upd_app_r by lia. rewrite Nat.sub_diag. cbn [upd].
  change (pre ++ y :: old) with (pre ++ ([y] ++ old)). rewrite app_assoc.
  replace (S (length pre)) with (length (pre ++ [y])) by (rewrite app_length; cbn; lia).
  rewrite IH by (cbn in L; lia). now rewrite <- app_assoc.
Qed.

(** [a] is an array made since [m] that holds [Y]. *)
Definition owns (m m' : memory) (a : arr) (Y : dataset T) : Prop :=
  untouched m m' /\ length m <= base a < length m' /\ nth (base a) m' [] = Y /\ rows a = seq 0 (length Y).
Lemma owns_load m m' a Y : owns m m' a Y -> load m' a = Y.
Proof. intros (_ & _ & E & Er). now apply load_full. Qed.
Lemma owns_valid m m' a Y : owns m m' a Y -> valid m' a.
Proof.
  intros (_ & [_ Hb] & E & Er). unfold valid. rewrite E, Er. split; [exact Hb|]. split; [apply seq_NoDup|].
  apply Forall_forall. intros i Hi. apply in_seq in Hi. lia.
Qed.
Lemma owns_new (m m' : memory) Y : untouched m m' ->
  exists a m'', new_array Y m' = (Ok a, m'') /\ owns m m'' a Y /\ untouched m' m''.
Proof.
  intros U. unfold new_array. do 2 eexists. split; [reflexivity|]. unfold owns. cbn [base rows].
  assert (U2 : untouched m' (m' ++ [Y])) by (eexists; reflexivity).
  split; [|exact U2]. split; [exact (untouched_trans _ _ _ U U2)|]. rewrite app_length. cbn [length].
  apply untouched_len in U. split; [lia|]. split; [|reflexivity]. rewrite app_nth2, Nat.sub_diag by lia. reflexivity.
Qed.
Lemma owns_mono m0 m m' a Y : untouched m0 m -> owns m m' a Y -> owns m0 m' a Y.
Proof.
  intros U (U2 & B & E & Er). split; [exact (untouched_trans _ _ _ U U2)|]. apply untouched_len in U. split; [lia|]. auto.
Qed.
Lemma owns_later m m' m'' a Y : owns m m' a Y -> untouched m' m'' -> owns m m'' a Y.
Proof.
  intros (U & B & E & Er) U2. split; [exact (untouched_trans _ _ _ U U2)|]. pose proof (untouched_len _ _ U2). split; [lia|].
  split; [|exact Er]. now rewrite (untouched_nth _ _ _ U2) by lia.
Qed.
(** An assignment to an array that was made by the call. *)
Lemma assign_ok m m' a Y f Y' : owns m m' a Y -> f Y = Ok Y' -> length Y' = length Y ->
  exists m'', assign a f m' = (Ok tt, m'') /\ owns m m'' a Y'.
Proof.
  intros O E L. unfold assign. rewrite (owns_load _ _ _ _ O), E. eexists. split; [reflexivity|].
  destruct O as (U & B & En & Er). unfold owns. split; [now apply put_new|]. unfold put. rewrite upd_length. split; [exact B|].
  split; [|now rewrite L]. rewrite upd_nth_eq by lia. rewrite En, Er. now apply put_rows_full.
Qed.
Lemma assign_err m m' a Y f e : owns m m' a Y -> f Y = Err e -> assign a f m' = (Err e, m').
Proof. intros O E. unfold assign. now rewrite (owns_load _ _ _ _ O), E. Qed.
(** A loop of assignments to it. *)
Lemma for_each_ok {A} (P : dataset T -> Prop) (g : dataset T -> A -> dataset T) m a l : forall (body : A -> mem unit) m' Y,
  owns m m' a Y -> P Y ->
  (forall x m' Y, In x l -> P Y -> owns m m' a Y -> P (g Y x) /\ exists m'', body x m' = (Ok tt, m'') /\ owns m m'' a (g Y x)) ->
  P (fold_left g l Y) /\ exists m'', for_each l body m' = (Ok tt, m'') /\ owns m m'' a (fold_left g l Y).
Proof.
  induction l as [|x l IH]; intros body m' Y O HP Hb.
  - split; [exact HP|]. exists m'. split; [reflexivity|exact O].
  - cbn [for_each fold_left]. unfold seqm at 1. destruct (Hb x m' Y (or_introl eq_refl) HP O) as (P1 & m1 & E1 & O1). rewrite E1.
    apply IH; [exact O1|exact P1|]. intros y m2 Y2 Hy. apply Hb. now right.
Qed.
(** Running [c] in [m'], a later state of [m], gives an array made since [m]
    with the contents [r], or raises. *)
Definition makes (m m' : memory) (c : mem arr) (r : res (dataset T)) : Prop :=
  match c m' with
  | (Ok a, m'') => exists Y, r = Ok Y /\ owns m m'' a Y
  | (Err e, m'') => r = Err e /\ untouched m m''
  end.
Lemma makes_new m m' Y : untouched m m' -> makes m m' (new_array Y) (Ok Y).
Proof. intros U. unfold makes. destruct (owns_new m m' Y U) as (a & m'' & E & O & _). rewrite E. eauto. Qed.
Lemma makes_fail m m' e : untouched m m' -> makes m m' (fail e) (Err e).
Proof. intros U. unfold makes, fail. auto. Qed.
Lemma makes_ret m m' a Y : owns m m' a Y -> makes m m' (ret a) (Ok Y).
Proof. intros O. unfold makes, ret. eauto. Qed.
Lemma makes_eval {A} m m' (r : res A) k f : untouched m m' -> (forall x, r = Ok x -> makes m m' (k x) (f x)) ->
  makes m m' (seqm (eval r) k) (let! x := r in f x).
Proof. intros U Hk. unfold makes, seqm, eval. destruct r as [x|e]; cbn [bind]; [exact (Hk x eq_refl)|auto]. Qed.
Lemma makes_contents m m' a X k r : load m' a = X -> makes m m' (k X) r -> makes m m' (seqm (contents a) k) r.
Proof. intros E Hk. unfold makes, seqm, contents. now rewrite E. Qed.
Lemma makes_seq_new m m' Y k r : untouched m m' ->
  (forall a m'', owns m m'' a Y -> untouched m' m'' -> makes m m'' (k a) r) -> makes m m' (seqm (new_array Y) k) r.
Proof.
  intros U Hk. destruct (owns_new m m' Y U) as (a & m'' & E & O & U2). unfold makes, seqm. rewrite E. exact (Hk a m'' O U2).
Qed.
Lemma makes_assign m m' a Y f k r : owns m m' a Y -> (forall Y', f Y = Ok Y' -> length Y' = length Y) ->
  (forall Y' m'', f Y = Ok Y' -> owns m m'' a Y' -> makes m m'' (k tt) (r Y')) ->
  makes m m' (seqm (assign a f) k) (let! Y' := f Y in r Y').
Proof.
  intros O L Hk. destruct (f Y) as [Y'|e] eqn:E; cbn [bind].
  - destruct (assign_ok m m' a Y f Y' O E (L Y' eq_refl)) as (m'' & Ea & O'). unfold makes, seqm. rewrite Ea. exact (Hk Y' m'' eq_refl O').
  - unfold makes, seqm. rewrite (assign_err m m' a Y f e O E). split; [reflexivity|apply O].
Qed.
Lemma seqm_assoc {A B C} (c : mem (T := T) A) (f : A -> mem (T := T) B) (g : B -> mem (T := T) C) m : seqm (seqm c f) g m = seqm c (fun x => seqm (f x) g) m.
Proof. unfold seqm. destruct (c m) as [[x|e] m']; reflexivity. Qed.
Lemma makes_assoc {A B} m m' (c : mem (T := T) A) (f : A -> mem (T := T) B) g r : makes m m' (seqm c (fun x => seqm (f x) g)) r -> makes m m' (seqm (seqm c f) g) r.
Proof. unfold makes. now rewrite seqm_assoc. Qed.
Lemma makes_computes m c r : makes m m c r -> computes c m r /\ returns_new_array c m.
Proof.
  unfold makes, computes, returns_new_array. destruct (c m) as [[a|e] m'].
  - intros (Y & -> & O). pose proof O as (U & B & _). split; [|lia]. split; [exact U|]. split; [exact (owns_valid _ _ _ _ O)|exact (owns_load _ _ _ _ O)].
  - intros [-> U]. auto.
Qed.

(** ** Lists of rows *)
Lemma map2M_map_l {A A' B C} (f : A' -> B -> res C) (g : A -> A') l1 : forall l2, map2M f (map g l1) l2 = map2M (fun x => f (g x)) l1 l2.
Proof. induction l1 as [|x l1 IH]; intros [|y l2]; cbn; try reflexivity. rewrite IH. reflexivity. Qed.
Lemma map2M_same {A B C} (f : B -> A -> res C) (g : A -> B) l : map2M f (map g l) l = mapM (fun x => f (g x) x) l.
Proof. induction l as [|x l IH]; cbn; [reflexivity|]. now rewrite IH. Qed.
Lemma map2M_same_r {A B C} (f : A -> B -> res C) (g : A -> B) l : map2M f l (map g l) = mapM (fun x => f x (g x)) l.
Proof. induction l as [|x l IH]; cbn; [reflexivity|]. now rewrite IH. Qed.
Lemma map2M_len {A B C} (f : A -> B -> res C) l1 : forall l2 r, map2M f l1 l2 = Ok r -> length r = Nat.min (length l1) (length l2).
Proof.
  induction l1 as [|x l1 IH]; intros [|y l2] r E; cbn in *; try (injection E as <-; reflexivity).
  destruct (f x y) as [z|]; [|discriminate]. cbn in E. destruct (map2M f l1 l2) as [zs|] eqn:Ez; [|discriminate]. injection E as <-.
  cbn. f_equal. exact (IH _ _ Ez).
Qed.
Lemma map2M_ext {A B C} (f g : A -> B -> res C) : (forall x y, f x y = g x y) -> forall l1 l2, map2M f l1 l2 = map2M g l1 l2.
Proof. intros E l1. induction l1 as [|x l1 IH]; intros [|y l2]; cbn; try reflexivity. now rewrite E, IH. Qed.
(** Two passes with one kind of exception are one pass. *)
Definition only_value_errors {A B} (f : A -> res B) : Prop := forall x e, f x = Err e -> e = ValueError.
Lemma mapM_only {A B} (f : A -> res B) : only_value_errors f -> only_value_errors (mapM f).
Proof.
  intros Hf l. induction l as [|x l IH]; intros e E; cbn in E; [discriminate|]. destruct (f x) as [y|e'] eqn:Ex; cbn in E.
  - destruct (mapM f l) as [ys|e'']; [discriminate|]. injection E as <-. now apply IH.
  - injection E as <-. exact (Hf _ _ Ex).
Qed.
Lemma mapM_seq {A B C} (f : A -> res B) (h : B -> res C) l : only_value_errors f -> only_value_errors h ->
  mapM (fun x => let! y := f x in h y) l = let! ys := mapM f l in mapM h ys.
Proof.
  intros Hf Hh. induction l as [|x l IH]; [reflexivity|]. cbn [mapM]. destruct (f x) as [y|e] eqn:Ex; cbn [bind]; [|reflexivity].
  rewrite IH. destruct (mapM f l) as [ys|e] eqn:El; cbn [bind mapM]; [reflexivity|].
  destruct (h y) as [z|e'] eqn:Eh; [reflexivity|]. cbn [bind]. rewrite (Hh _ _ Eh). now rewrite (mapM_only f Hf _ _ El).
Qed.
Lemma py_set_slice_only lo hi (v : list T) : only_value_errors (py_set_slice lo hi v).
Proof.
  intros x e. unfold py_set_slice. destruct (Nat.eqb _ _); [discriminate|]. destruct v as [|v1 [|v2 v]]; intros E; try discriminate; now injection E as <-.
Qed.
End L.
