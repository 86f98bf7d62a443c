(** Property C70: when are two preparateurs equal ([==]), and what does it say
    about them?  [peq a b] is the outcome of [a == b]. *)
From Coq Require Import Ascii String List Arith ZArith Lia Bool Reals Lra.
From Verif Require Import Num Arr M_Str M_Np M_Prep M_Cache M_PrepObj M_PyEq S_ISS S_Prep L_Arr L_Np L_Prep L_Prep2 L_Prep4 L_WordObj L_RComp.
Import ListNotations.
Open Scope R_scope.

(** * Specification *)
(** Numbers are equal by value, callables by identity. *)
Inductive same_num : pynum R -> pynum R -> Prop :=
| SN_ii z : same_num (NI z) (NI z)
| SN_ff x : same_num (NF x) (NF x)
| SN_if z : same_num (NI z) (NF (IZR z))
| SN_fi z : same_num (NF (IZR z)) (NI z).
Inductive same_arg : pyarg R -> pyarg R -> Prop :=
| SA_num a b : same_num a b -> same_arg (ANum a) (ANum b)
| SA_fun i : same_arg (AFun i) (AFun i).
Inductive same_opt : option (pynum R) -> option (pynum R) -> Prop :=
| SO_none : same_opt None None
| SO_some a b : same_num a b -> same_opt (Some a) (Some b).
(** Kernels that can be found equal: none, or a single number. *)
Inductive same_kernel : option (list (list R)) -> option (list (list R)) -> Prop :=
| SK_none : same_kernel None None
| SK_one x : same_kernel (Some [[x]]) (Some [[x]]).
(** Same class and equal arguments; the epsilon of STD does not count. *)
Inductive alike : pobj R -> pobj R -> Prop :=
| A_INC s s' d z : same_arg s s' -> alike (OINC s d z) (OINC s' d z)
| A_STD s v e e' : alike (OSTD s v e) (OSTD s v e')
| A_NRM s : alike (ONRM s) (ONRM s)
| A_MAV w w' : same_num w w' -> alike (OMAV w) (OMAV w')
| A_LAG : alike OLAG OLAG
| A_RIN w w' a o f k k' : same_arg w w' -> same_kernel k k' -> alike (ORIN w a o f k) (ORIN w' a o f k')
| A_RDW d : alike (ORDW d) (ORDW d)
| A_JLD d d' ds b : same_num d d' -> alike (OJLD d ds b) (OJLD d' ds b)
| A_SPE fr op fn st ml : alike (OSPE fr op fn st ml) (OSPE fr op fn st ml)
| A_RPE fr ml : alike (ORPE fr ml) (ORPE fr ml)
| A_CTS s s' p : same_num s s' -> alike (OCTS s p) (OCTS s' p)
| A_QTC q l b : alike (OQTC q l b) (OQTC q l b)
| A_WIN s e : alike (OWIN s e) (OWIN s e)
| A_DOT n n' f f' : same_num n n' -> same_opt f f' -> alike (ODOT n f) (ODOT n' f')
| A_PDD d p : alike (OPDD d p) (OPDD d p).
Definition class (a : pobj R) : string :=
  match a with
  | OINC _ _ _ => "INC" | OSTD _ _ _ => "STD" | ONRM _ => "NRM" | OMAV _ => "MAV" | OLAG => "LAG" | OFFN _ _ _ _ => "FFN"
  | ORIN _ _ _ _ _ => "RIN" | ORDW _ => "RDW" | OJLD _ _ _ => "JLD" | OSPE _ _ _ _ _ => "SPE" | ORPE _ _ => "RPE"
  | OCTS _ _ => "CTS" | OQTC _ _ _ => "QTC" | OFUN _ => "FUN" | ODIL _ => "DIL" | OWIN _ _ => "WIN" | ODOT _ _ => "DOT"
  | OPDD _ _ => "PDD" | ODIM _ _ => "DIM" | ONEW _ => "NEW"
  end%string.
(** Kernels are rectangular arrays with at least one entry. *)
Definition kernel_ok (a : pobj R) : Prop :=
  match a with ORIN _ _ _ _ (Some k) => (1 <= length k)%nat /\ (1 <= tlen k)%nat /\ Forall (fun r => length r = tlen k) k | _ => True end.

(** * Lemmas *)
Lemma neqb_iff (x y : R) : neqb x y = true <-> x = y.
Proof. cbn [neqb RNum]. unfold Reqb'. destruct (Req_EM_T x y); split; congruence. Qed.
Lemma num_eq_iff (a b : pynum R) : num_eq a b = true <-> same_num a b.
Proof.
  unfold num_eq. rewrite neqb_iff. destruct a as [z|x], b as [z'|x']; cbn [num_val nofZ RNum]; split; intros E.
  - apply eq_IZR in E. subst. constructor.
  - inversion E; subst; reflexivity.
  - subst. constructor.
  - inversion E; subst; reflexivity.
  - subst. constructor.
  - inversion E; subst; reflexivity.
  - subst. constructor.
  - inversion E; subst; reflexivity.
Qed.
Lemma arg_eq_iff (a b : pyarg R) : arg_eq a b = true <-> same_arg a b.
Proof.
  destruct a as [n|i], b as [m|j]; cbn [arg_eq].
  - rewrite num_eq_iff. split; [now constructor|now inversion 1].
  - split; [discriminate|inversion 1].
  - split; [discriminate|inversion 1].
  - rewrite Nat.eqb_eq. split; [intros ->; constructor|now inversion 1].
Qed.
Lemma opt_num_iff (a b : option (pynum R)) : opt_eq num_eq a b = true <-> same_opt a b.
Proof.
  destruct a as [n|], b as [m|]; cbn [opt_eq].
  - rewrite num_eq_iff. split; [now constructor|now inversion 1].
  - split; [discriminate|inversion 1].
  - split; [discriminate|inversion 1].
  - split; [constructor|reflexivity].
Qed.
Lemma opt_eq_iff {A} (e : A -> A -> bool) : (forall x y, e x y = true <-> x = y) -> forall a b, opt_eq e a b = true <-> a = b.
Proof. intros K [x|] [y|]; cbn [opt_eq]; rewrite ?K; split; congruence. Qed.
Lemma eqs_iff (a b : pystr) : eqs a b = true <-> a = b.
Proof. apply eqs_true. Qed.
Lemma truth_true n v : truth n v = Ok true -> n = 1%nat /\ v = true.
Proof. unfold truth. destruct n as [|[|n]]; cbn; [discriminate| |discriminate]. intros E. injection E as ->. auto. Qed.
Definition tame (others : list (list R) -> list (list R) -> res bool) : Prop :=
  forall k k', others k k' = Ok false \/ others k k' = Err ValueError.
Lemma one_by_one (k : list (list R)) : (1 <= length k)%nat /\ (1 <= tlen k)%nat /\ Forall (fun r => length r = tlen k) k -> arr_size k = 1%nat -> k = [[nth 0 (nth 0 k []) 0]].
Proof.
  unfold arr_size. intros (A & B & C) E. apply Nat.eq_mul_1 in E. destruct E as [E1 E2].
  destruct k as [|r [|? ?]]; cbn in E1; try lia. cbn in E2. destruct r as [|x [|? ?]]; cbn in E2; try lia. reflexivity.
Qed.
Lemma kernel_eq_iff others w a o f w' a' o' f' k k' : tame others -> kernel_ok (ORIN w a o f k) -> kernel_ok (ORIN w' a' o' f' k') ->
  kernel_eq others k k' = Ok true <-> same_kernel k k'.
Proof.
  intros HO Hk Hk'. cbn [kernel_ok] in *. split.
  - destruct k as [k|], k' as [k'|]; cbn [kernel_eq].
    + destruct ((length k =? length k') && (tlen k =? tlen k'))%nat eqn:Es.
      * intros E. apply truth_true in E. destruct E as [E1 E2]. apply neqb_iff in E2. apply andb_prop in Es. destruct Es as [S1 S2].
        apply Nat.eqb_eq in S1, S2. assert (E1' : arr_size k' = 1%nat) by (unfold arr_size in *; congruence).
        rewrite (one_by_one k Hk E1), (one_by_one k' Hk' E1'). cbn in E2. rewrite E2. constructor.
      * intros E. destruct (HO k k') as [K|K]; rewrite K in E; discriminate.
    + intros E. apply truth_true in E. destruct E as [_ E]. discriminate.
    + intros E. apply truth_true in E. destruct E as [_ E]. discriminate.
    + constructor.
  - intros E. inversion E; subst; [reflexivity|]. cbn [kernel_eq length tlen Nat.eqb andb nth]. unfold truth, arr_size. cbn [length tlen hd Nat.mul Nat.add Nat.eqb].
    now rewrite (proj2 (neqb_iff x x) eq_refl).
Qed.
Lemma Ok_true (b : bool) : Ok b = Ok true -> b = true.
Proof. congruence. Qed.
Ltac split_ands := repeat match goal with
  | E : _ && _ = true |- _ => apply andb_prop in E; destruct E
  | E : eqb _ _ = true |- _ => apply eqb_prop in E; subst
  | E : num_eq _ _ = true |- _ => apply num_eq_iff in E
  | E : arg_eq _ _ = true |- _ => apply arg_eq_iff in E
  | E : opt_eq num_eq _ _ = true |- _ => apply opt_num_iff in E
  | E : opt_eq Nat.eqb _ _ = true |- _ => apply (opt_eq_iff Nat.eqb Nat.eqb_eq) in E; subst
  | E : opt_eq eqs _ _ = true |- _ => apply (opt_eq_iff eqs eqs_iff) in E; subst
  | E : opt_eq neqb _ _ = true |- _ => apply (opt_eq_iff neqb neqb_iff) in E; subst
  | E : neqb _ _ = true |- _ => apply neqb_iff in E; subst
  | E : eqs _ _ = true |- _ => apply eqs_iff in E; subst
  | E : Z.eqb _ _ = true |- _ => apply Z.eqb_eq in E; subst
  end.
Ltac fill := rewrite ?eqb_reflx, ?Z.eqb_refl, ?(proj2 (opt_eq_iff Nat.eqb Nat.eqb_eq _ _) eq_refl), ?(proj2 (opt_eq_iff eqs eqs_iff _ _) eq_refl),
  ?(proj2 (opt_eq_iff neqb neqb_iff _ _) eq_refl), ?(proj2 (neqb_iff _ _) eq_refl), ?(proj2 (eqs_iff _ _) eq_refl); cbn [andb]; try reflexivity.

(** * Theorems *)
Theorem C70_meaning : forall others a b, tame others -> kernel_ok a -> kernel_ok b ->
  peq others a b = Ok true <-> alike a b.
Proof.
  intros others a b HO Ha Hb. split.
  - intros E. destruct a, b; cbn [peq] in E; try discriminate E;
      try (apply Ok_true in E; split_ands; constructor; assumption).
    destruct (arg_eq width width0 && eqb adaptive adaptive0 && (out_dim =? out_dim0)%Z && eqb force force0) eqn:Q; [|discriminate].
      split_ands. constructor; [assumption|]. now apply (kernel_eq_iff others _ _ _ _ _ _ _ _ _ _ HO Ha Hb).
  - intros E. inversion E; subst; cbn [peq]; fill.
    + rewrite (proj2 (arg_eq_iff _ _) H). fill.
    + rewrite (proj2 (num_eq_iff _ _) H). fill.
    + rewrite (proj2 (arg_eq_iff _ _) H). fill. now apply (kernel_eq_iff others _ _ _ _ _ _ _ _ _ _ HO Ha Hb).
    + rewrite (proj2 (num_eq_iff _ _) H). fill.
    + rewrite (proj2 (num_eq_iff _ _) H). fill.
    + rewrite (proj2 (num_eq_iff _ _) H), (proj2 (opt_num_iff _ _) H0). fill.
Qed.
Print Assumptions C70_meaning.
(** [a == b] raises exactly when a filter of filter.py (WIN, DOT, PDD) meets
    another class, or when two RIN kernels have to be compared as arrays. *)
Theorem C70_errors : forall others a b e, tame others ->
  (peq others a b = Err e ->
     (e = TypeError /\ In (class a) ["WIN"; "DOT"; "PDD"]%string /\ class b <> class a) \/
     (e = ValueError /\ class a = "RIN"%string /\ class b = "RIN"%string)) /\
  (In (class a) ["WIN"; "DOT"; "PDD"]%string -> class b <> class a -> peq others a b = Err TypeError).
Proof.
  intros others a b e HO. split.
  - intros E. destruct a, b; cbn [peq] in E; try discriminate E;
      try (left; split; [congruence|]; split; [cbn; tauto|cbn; discriminate]).
    right. destruct (_ && _); [|discriminate]. split; [|split; reflexivity].
    destruct kernel as [k|], kernel0 as [k'|]; cbn [kernel_eq] in E; try discriminate E.
    + destruct (_ && _).
      * unfold truth in E. destruct (_ =? _)%nat; [discriminate|]. destruct (_ =? _)%nat; [discriminate|]. congruence.
      * destruct (HO k k') as [Q|Q]; congruence.
    + unfold truth in E. destruct (_ =? _)%nat; [discriminate|]. destruct (_ =? _)%nat; [discriminate|]. congruence.
    + unfold truth in E. destruct (_ =? _)%nat; [discriminate|]. destruct (_ =? _)%nat; [discriminate|]. congruence.
  - intros Ha Hb. destruct a; cbn [class] in *; try (cbn in Ha; intuition discriminate);
      destruct b; cbn [class peq] in *; try reflexivity; congruence.
Qed.
Print Assumptions C70_errors.

Lemma same_num_sym a b : same_num a b -> same_num b a.
Proof. destruct 1; constructor. Qed.
Lemma same_num_val a b : same_num a b <-> num_val a = num_val b.
Proof. rewrite <- num_eq_iff. unfold num_eq. apply neqb_iff. Qed.
Lemma same_num_trans a b c : same_num a b -> same_num b c -> same_num a c.
Proof. rewrite !same_num_val. congruence. Qed.
Lemma alike_sym a b : alike a b -> alike b a.
Proof.
  destruct 1; constructor; try (now apply same_num_sym).
  - destruct H; constructor. now apply same_num_sym.
  - destruct H; constructor. now apply same_num_sym.
  - destruct H0; constructor.
  - destruct H0; constructor. now apply same_num_sym.
Qed.
Lemma same_arg_trans a b c : same_arg a b -> same_arg b c -> same_arg a c.
Proof. destruct 1; inversion 1; subst; constructor. eapply same_num_trans; eassumption. Qed.
Lemma same_opt_trans a b c : same_opt a b -> same_opt b c -> same_opt a c.
Proof. destruct 1; inversion 1; subst; constructor. eapply same_num_trans; eassumption. Qed.
Lemma same_kernel_trans a b c : same_kernel a b -> same_kernel b c -> same_kernel a c.
Proof. destruct 1; inversion 1; subst; constructor. Qed.
Lemma alike_trans a b c : alike a b -> alike b c -> alike a c.
Proof.
  destruct 1; inversion 1; subst; constructor; eauto using same_num_trans, same_arg_trans, same_opt_trans, same_kernel_trans.
Qed.
(** Among preparateurs, a true comparison is true the other way round, and true
    comparisons compose. *)
Theorem C70_symmetric_transitive : forall others a b c, tame others -> kernel_ok a -> kernel_ok b -> kernel_ok c ->
  (peq others a b = Ok true -> peq others b a = Ok true) /\
  (peq others a b = Ok true -> peq others b c = Ok true -> peq others a c = Ok true).
Proof.
  intros others a b c HO Ha Hb Hc. split.
  - rewrite !C70_meaning by assumption. apply alike_sym.
  - rewrite !C70_meaning by assumption. apply alike_trans.
Qed.
Print Assumptions C70_symmetric_transitive.

(** FFN, FUN, DIL, DIM and NEW are equal to nothing, not even to themselves. *)
Theorem C70_never_equal : forall others a b, In (class a) ["FFN"; "FUN"; "DIL"; "DIM"; "NEW"]%string -> peq others a b = Ok false.
Proof. intros others a b Ha. destruct a; cbn [class] in Ha; try (cbn in Ha; intuition discriminate); reflexivity. Qed.
Print Assumptions C70_never_equal.

(** A preparateur of any other class equals its copy (and itself), unless it is
    a RIN with a kernel of several entries: then comparing raises. *)
Definition selfable (a : pobj R) : Prop :=
  ~ In (class a) ["FFN"; "FUN"; "DIL"; "DIM"; "NEW"]%string /\
  match a with ORIN _ _ _ _ (Some k) => exists x, k = [[x]] | _ => True end.
Lemma same_num_refl a : same_num a a.
Proof. destruct a; constructor. Qed.
Lemma same_arg_refl a : same_arg a a.
Proof. destruct a; constructor. apply same_num_refl. Qed.
Lemma same_opt_refl a : same_opt a a.
Proof. destruct a; constructor. apply same_num_refl. Qed.
Theorem C70_copy_is_equal : forall others eps0 a, tame others -> kernel_ok a -> selfable a ->
  peq others (obj_copy eps0 a) a = Ok true /\ peq others a (obj_copy eps0 a) = Ok true /\ peq others a a = Ok true.
Proof.
  intros others eps0 a HO Ha [Hs Hk].
  assert (alike (obj_copy eps0 a) a) as A1.
  { destruct a; cbn [obj_copy]; try (constructor; auto using same_num_refl, same_arg_refl, same_opt_refl); try (exfalso; apply Hs; cbn; tauto).
    destruct kernel as [k|]; [|constructor]. destruct Hk as [x ->]. constructor. }
  assert (kernel_ok (obj_copy eps0 a)) as A2 by (destruct a; cbn [obj_copy]; try exact Ha; destruct p; exact Logic.I).
  rewrite !C70_meaning by assumption. split; [exact A1|]. split; [now apply alike_sym|].
  eapply alike_trans; [apply alike_sym|]; exact A1.
Qed.
Print Assumptions C70_copy_is_equal.
Theorem C70_kernel_raises : forall others w a o f k, (2 <= arr_size k)%nat ->
  peq others (ORIN w a o f (Some k)) (ORIN w a o f (Some k)) = Err ValueError.
Proof.
  intros others w a o f k Hk. cbn [peq]. rewrite (proj2 (arg_eq_iff _ _) (same_arg_refl w)). fill.
  cbn [kernel_eq]. rewrite !Nat.eqb_refl. cbn [andb]. unfold truth.
  destruct (Nat.eqb_spec (arr_size k) 0) as [E|_]; [lia|]. destruct (Nat.eqb_spec (arr_size k) 1) as [E|_]; [lia|reflexivity].
Qed.
Print Assumptions C70_kernel_raises.

(** The preparateur that the copied arguments build is the copy of the
    preparateur that the arguments build. *)
Theorem C70_copy_commutes : forall eps0 M a, prep_of M (obj_copy eps0 a) = pr_copy eps0 (prep_of M a).
Proof.
  intros eps0 M a. revert a. fix IH 1. intros a. destruct a; try reflexivity.
  - cbn [obj_copy prep_of pr_copy]. now rewrite IH.
  - destruct p as [p|]; [|reflexivity]. cbn [obj_copy prep_of pr_copy]. now rewrite IH.
Qed.
Print Assumptions C70_copy_commutes.

(** Equal preparateurs do the same, if STD's epsilon agrees and no INC compares
    an int with a float. *)
Definition no_mixing (a b : pobj R) : Prop :=
  match a, b with
  | OINC (ANum (NI _)) _ _, OINC (ANum (NF _)) _ _ | OINC (ANum (NF _)) _ _, OINC (ANum (NI _)) _ _ => False
  | OSTD _ _ e, OSTD _ _ e' => e = e'
  | _, _ => True
  end.
Lemma unit_float_int z : unit_float (NF (IZR z)) = false.
Proof.
  cbn [unit_float]. destruct (nltb nzero (IZR z) && nltb (IZR z) nunit) eqn:Q; [|reflexivity]. exfalso.
  apply andb_prop in Q. destruct Q as [Q1 Q2].
  destruct (Rltb_spec' nzero (IZR z)) as [L1|]; [|discriminate]. destruct (Rltb_spec' (IZR z) nunit) as [L2|]; [|discriminate].
  apply (lt_IZR 0 z) in L1. apply (lt_IZR z 1) in L2. lia.
Qed.
Lemma num_unit a b : same_num a b -> unit_float a = true -> unit_float b = true -> a = b.
Proof. destruct 1; intros U V; try reflexivity; rewrite unit_float_int in *; discriminate. Qed.
Theorem C70_interchangeable : forall others M a b, tame others -> kernel_ok a -> kernel_ok b ->
  (forall z, m_trunc M (IZR z) = z) -> constructible a = true -> constructible b = true -> no_mixing a b ->
  peq others a b = Ok true -> prep_of M a = prep_of M b.
Proof.
  intros others M a b HO Ha Hb HM Ca Cb Hm E. apply C70_meaning in E; auto.
  destruct E; cbn [prep_of no_mixing constructible] in *; try reflexivity.
  - destruct H as [n m []|]; try reflexivity; contradiction.
  - now subst.
  - now rewrite (num_unit w w' H Ca Cb).
  - destruct H0; destruct H as [n m []|]; cbn; rewrite ?HM; reflexivity.
  - now rewrite (num_unit d d' H Ca Cb).
  - destruct H; try reflexivity.
    + rewrite HM. pose proof (unit_float_int z) as Q. cbn [unit_float] in Q. now rewrite Q.
    + rewrite HM. pose proof (unit_float_int z) as Q. cbn [unit_float] in Q. now rewrite Q.
  - apply andb_prop in Ca. apply andb_prop in Cb. destruct Ca as [C1 C2], Cb as [D1 D2].
    rewrite (num_unit n n' H C1 D1). destruct H0 as [|x y Hxy]; [reflexivity|]. now rewrite (num_unit x y Hxy C2 D2).
Qed.
Print Assumptions C70_interchangeable.
(** The two exceptions are real: INC(1) == INC(1.0), but the second one shifts
    by the whole length; *)
Theorem C70_equal_but_different_INC_refuted : forall others M parse powf, (forall l, m_ceil M 1 l = Z.of_nat l) ->
  let a := OINC (ANum (NI 1%Z)) 1%Z true in
  let b := OINC (ANum (NF 1)) 1%Z true in
  peq others a b = Ok true /\
  forall X n d l i j, has_shape X n d l -> (i < n)%nat -> (j < d)%nat -> (2 <= l)%nat -> entry X i j 1 <> entry X i j 0 ->
  exists Y Z, fst (pr_transform parse powf (prep_of M a) X) = Ok Y /\ fst (pr_transform parse powf (prep_of M b) X) = Ok Z /\
    entry Y i j 1 = entry X i j 1 - entry X i j 0 /\ entry Z i j 1 = 0 /\ Y <> Z.
Proof.
  intros others M parse powf HM a b. split.
  { cbn [peq a b]. rewrite (proj2 (arg_eq_iff _ _) (SA_num _ _ (SN_if 1%Z))). reflexivity. }
  intros X n d l i j HX Hi Hj Hl Hne.
  destruct (inc_zero_padded {| inc_shift := ShInt 1; inc_depth := 1; inc_zp := true |} X n d l 1 HX) as [Y [EY [SY VY]]]; try lia; try reflexivity.
  destruct (inc_zero_padded {| inc_shift := ShFun (m_ceil M 1); inc_depth := 1; inc_zp := true |} X n d l l HX) as [Z [EZ [SZ VZ]]]; try lia; try reflexivity.
  { unfold inc_k. cbn [inc_shift]. apply HM. }
  exists Y, Z.
  assert (K1 : entry Y i j 1 = entry X i j 1 - entry X i j 0).
  { rewrite VY by lia. cbn [inc_depth iterate]. reflexivity. }
  assert (K2 : entry Z i j 1 = 0).
  { rewrite VZ by lia. cbn [inc_depth iterate]. unfold diff. destruct (Nat.leb_spec l 1); [lia|]. destruct (Nat.ltb_spec 1 l); [reflexivity|lia]. }
  split; [|split; [|split; [exact K1|split; [exact K2|]]]].
  - cbn [a prep_of pr_transform leaf_transform pr_cache]. change (Z.to_nat 1) with 1%nat. rewrite EY. reflexivity.
  - cbn [b prep_of pr_transform leaf_transform pr_cache]. change (Z.to_nat 1) with 1%nat. rewrite EZ. reflexivity.
  - intros Q. apply (f_equal (fun W => entry W i j 1)) in Q. rewrite K1, K2 in Q. apply Hne. lra.
Qed.
Print Assumptions C70_equal_but_different_INC_refuted.
(** and two STD that differ in their epsilon are equal. *)
Theorem C70_equal_but_different_STD_refuted : forall others M parse powf e e', 0 < e -> 0 < e' -> e <> e' ->
  let a := OSTD true false e in
  let b := OSTD true false e' in
  peq others a b = Ok true /\
  forall X n d l i j t, has_shape X n d l -> (i < n)%nat -> (j < d)%nat -> (t < l)%nat -> entry X i j t <> mean_of (entry X i j) l ->
  exists Y Z, fst (pr_transform parse powf (prep_of M a) X) = Ok Y /\ fst (pr_transform parse powf (prep_of M b) X) = Ok Z /\ Y <> Z.
Proof.
  intros others M parse powf e e' He He' Hne a b. split; [reflexivity|].
  intros X n d l i j t HX Hi Hj Ht Hm.
  destruct (std_separate_spec {| std_separately := true; std_var := false; std_eps := e |} None X n d l HX eq_refl) as [Y [EY [SY VY]]].
  destruct (std_separate_spec {| std_separately := true; std_var := false; std_eps := e' |} None X n d l HX eq_refl) as [Z [EZ [SZ VZ]]].
  exists Y, Z. split; [|split].
  - cbn [a prep_of pr_transform leaf_transform pr_cache]. rewrite EY. reflexivity.
  - cbn [b prep_of pr_transform leaf_transform pr_cache]. rewrite EZ. reflexivity.
  - intros Q. apply (f_equal (fun W => entry W i j t)) in Q. rewrite VY, VZ in Q by assumption. unfold std_div in Q. cbn [std_var std_eps] in Q.
    apply Hne. set (c := entry X i j t - mean_of (entry X i j) l) in *. assert (c <> 0) by (unfold c; lra).
    unfold Rdiv in Q. apply Rmult_eq_reg_l in Q; [|assumption]. apply (f_equal Rinv) in Q. rewrite !Rinv_inv in Q. lra.
Qed.
Print Assumptions C70_equal_but_different_STD_refuted.
(** Comparing is not symmetric as an operation. *)
Theorem C70_order_matters_refuted : forall others,
  peq others OLAG (OWIN 0 1) = Ok false /\ peq others (OWIN 0 1) OLAG = Err TypeError.
Proof. split; reflexivity. Qed.
Print Assumptions C70_order_matters_refuted.
(** What the constructors accept, in words: depths of INC are at least 1,
    floats given as a width, a dimension or a distance lie strictly between 0
    and 1, everything else is taken as it is. *)
Definition proper (n : pynum R) : Prop := forall x, n = NF x -> 0 < x < 1.
Inductive accepted : pobj R -> Prop :=
| A_inc s d z : (1 <= d)%Z -> accepted (OINC s d z)
| A_mav w : proper w -> accepted (OMAV w)
| A_jld d a b : proper d -> accepted (OJLD d a b)
| A_dot n f : proper n -> (forall x, f = Some x -> proper x) -> accepted (ODOT n f)
| A_pdd d p : 0 < d <= 1 -> 0 < p < 1 -> accepted (OPDD d p)
| A_dim p l : accepted p -> accepted (ODIM p l)
| A_new p : accepted p -> accepted (ONEW (Some p))
| A_other a : match a with OINC _ _ _ | OMAV _ | OJLD _ _ _ | ODOT _ _ | OPDD _ _ | ODIM _ _ | ONEW (Some _) => False | _ => True end -> accepted a.
Lemma nltb_iff (x y : R) : nltb x y = true <-> x < y.
Proof. destruct (Rltb_spec' x y); split; auto; discriminate. Qed.
Lemma nleb_iff (x y : R) : nleb x y = true <-> x <= y.
Proof. destruct (Rleb_spec x y); split; auto; discriminate. Qed.
Lemma unit_float_iff (n : pynum R) : unit_float n = true <-> proper n.
Proof.
  unfold proper. destruct n as [z|x]; cbn [unit_float]; [split; [discriminate|reflexivity]|].
  rewrite andb_true_iff, !nltb_iff. split; [intros A y [= <-]; exact A|]. intros A. exact (A x eq_refl).
Qed.
Theorem C70_constructors (a : pobj R) : constructible a = true <-> accepted a.
Proof.
  split.
  - revert a. fix IH 1. intros a. destruct a; try (intros _; apply A_other; exact Logic.I); cbn [constructible]; intros E.
    + constructor. now apply Z.leb_le.
    + constructor. now apply unit_float_iff.
    + constructor. now apply unit_float_iff.
    + apply andb_true_iff in E as (E & F). constructor; [now apply unit_float_iff|]. intros x ->. now apply unit_float_iff.
    + rewrite !andb_true_iff, !nltb_iff, nleb_iff in E. cbn [nzero nunit RNum] in E. constructor; tauto.
    + constructor. now apply IH.
    + destruct p as [p|]; [constructor; now apply IH|apply A_other; exact Logic.I].
  - induction 1; cbn [constructible]; try assumption.
    + now apply Z.leb_le.
    + now apply unit_float_iff.
    + now apply unit_float_iff.
    + apply andb_true_iff. split; [now apply unit_float_iff|]. destruct f; [apply unit_float_iff; auto|reflexivity].
    + rewrite !andb_true_iff, !nltb_iff, nleb_iff. cbn [nzero nunit RNum]. tauto.
    + destruct a; try reflexivity; try contradiction. destruct p; [contradiction|reflexivity].
Qed.
Print Assumptions C70_constructors.
Example C70_ex others : tame others ->
  let a := OCTS (NI 3%Z) true in let b := OCTS (NF 3) true in
  kernel_ok a /\ kernel_ok b /\ constructible a = true /\ constructible b = true /\ no_mixing a b /\ peq others a b = Ok true /\
  selfable (ODOT (NI 2%Z) None) /\ selfable (ORIN (ANum (NI 2%Z)) false (-1)%Z false None) /\
  peq others (OCTS (NI 3%Z) true) (OCTS (NI 4%Z) true) = Ok false /\ arr_size [[1; 2]; [3; 4]] = 4%nat.
Proof.
  intros HO a b. repeat split; try reflexivity.
  - cbn [peq a b]. now rewrite (proj2 (num_eq_iff _ _) (SN_if 3%Z)).
  - cbn; intuition discriminate.
  - cbn; intuition discriminate.
  - cbn [peq]. destruct (num_eq (NI 3%Z) (NI 4%Z)) eqn:Q; [|reflexivity]. apply num_eq_iff in Q. inversion Q.
Qed.
