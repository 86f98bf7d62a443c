(** The preparateurs of the library treat every series on its own (C76). *)
From Coq Require Import Ascii String List Arith ZArith Bool RelationClasses Lia.
From Verif Require Import Num Arr M_Str M_Np M_Prep M_Cache M_Sieve M_PrepObj M_Cos M_Fruit M_Seeds
  L_API L_Gen S_Rowwise S_Rowwise2 L_Arr L_Np L_Rowwise L_Seeds2 L_Seeds3.
Import ListNotations.

Section Preps.
Context {T : Type} `{N : Num T}.
Variable parse : pystr -> res T.
Variable powf : T -> T -> T.
Notation shp := (map (@length T)).
Notation dset := (list (list (list T))).

(** ** Shapes *)
Definition okshape (g : mts T -> res (mts T)) : Prop := forall x x' y y', shp x = shp x' -> g x = Ok y -> g x' = Ok y' -> shp y = shp y'.
Definition oklen (g : series T -> res (series T)) : Prop := forall x x' y y', length x = length x' -> g x = Ok y -> g x' = Ok y' -> length y = length y'.
Lemma mapM_shp (g : series T -> res (series T)) : oklen g -> okshape (mapM g).
Proof.
  intros Hg. intros x. induction x as [|r x IH]; intros x' y y' E; destruct x' as [|r' x']; try discriminate; cbn; [intros A B; now injection A as <-; injection B as <-|].
  cbn in E. injection E as E1 E2. destruct (g r) as [s|e] eqn:Es; [|discriminate]. destruct (g r') as [s'|e] eqn:Es'; [|discriminate]. cbn.
  destruct (mapM g x) as [z|e]; [|discriminate]. destruct (mapM g x') as [z'|e] eqn:Ez'; [|discriminate]. cbn. intros A B. injection A as <-. injection B as <-. cbn.
  f_equal; [exact (Hg _ _ _ _ E1 Es Es')|]. exact (IH x' z z' E2 eq_refl Ez').
Qed.
Lemma tlen_shp (x x' : mts T) : shp x = shp x' -> tlen x = tlen x'.
Proof. destruct x, x'; cbn; congruence. Qed.
Lemma dim_shp (x x' : mts T) : shp x = shp x' -> length x = length x'.
Proof. intros E. apply (f_equal (@length _)) in E. now rewrite !map_length in E. Qed.
Lemma py_set_slice_length (lo hi : option int) (v l r : list T) : py_set_slice lo hi v l = Ok r -> length r = length l.
Proof.
  unfold py_set_slice. pose proof (lo_bound_le (length l) lo) as A. pose proof (hi_bound_le (length l) hi) as B.
  set (a := lo_bound (length l) lo) in *. set (b := hi_bound (length l) hi) in *.
  destruct (Nat.eqb_spec (length v) (b - a)) as [E|E].
  - intros F. injection F as <-. rewrite !app_length, firstn_length, skipn_length. lia.
  - destruct v as [|x [|x' v]]; try discriminate. intros F. injection F as <-. rewrite !app_length, firstn_length, skipn_length, repeat_length. lia.
Qed.
Lemma increments1_len k (x y : series T) : increments1 k x = Ok y -> length y = length x.
Proof.
  unfold increments1. destruct (length _ =? length _); [|discriminate]. intros E. rewrite (py_set_slice_length _ _ _ _ _ E). unfold zeros. apply repeat_length.
Qed.
Lemma keep_oklen (g : series T -> res (series T)) : (forall x y, g x = Ok y -> length y = length x) -> oklen g.
Proof. intros Hg x x' y y' E A B. rewrite (Hg _ _ A), (Hg _ _ B). exact E. Qed.
Lemma keep_shp (g : series T -> res (series T)) x y : (forall x y, g x = Ok y -> length y = length x) -> mapM g x = Ok y -> shp y = shp x.
Proof.
  intros Hg. revert y. induction x as [|r x IH]; intros y E; cbn in E; [now injection E as <-|]. destruct (g r) as [s|e] eqn:Es; [|discriminate]. cbn in E.
  destruct (mapM g x) as [z|e]; [|discriminate]. injection E as <-. cbn. now rewrite (Hg _ _ Es), (IH z).
Qed.
Lemma map_shp (g : series T -> series T) x : (forall r, length (g r) = length r) -> shp (map g x) = shp x.
Proof. intros Hg. rewrite map_map. apply map_ext, Hg. Qed.

Lemma lenX_pick sel (X : dset) : same_shapes X -> picks (length X) sel -> lenX (pick [] sel X) = lenX X /\ dimX (pick [] sel X) = dimX X.
Proof.
  intros S (P1 & P2). destruct sel as [|i sel]; [congruence|]. destruct X as [|x X]; [specialize (P2 i (or_introl eq_refl)); cbn in P2; lia|].
  cbn [pick map lenX dimX]. assert (E : shp (nth i (x :: X) []) = shp x) by (apply S; [apply nth_In, P2; now left|now left]).
  split; [now apply tlen_shp|now apply dim_shp].
Qed.
Lemma pick_cons sel (X : dset) n : picks n sel -> pick [] sel X <> [].
Proof. intros (P & _). destruct sel; [congruence|discriminate]. Qed.
Lemma picks_cons {A} sel (X : list A) : picks (length X) sel -> X <> [].
Proof. intros (P & Q) ->. destruct sel as [|i sel]; [congruence|]. specialize (Q i (or_introl eq_refl)). cbn in Q. lia. Qed.
Lemma rowfun_gen (G : nat -> nat -> mts T -> mts T -> res (mts T)) (F : dset -> dset -> res dset) :
  (forall c X Y, same_shapes c -> same_shapes X -> length c = length X -> X <> [] -> (F c X = Ok Y <-> map2M (G (lenX X) (dimX X)) c X = Ok Y)) ->
  (forall l d a a' x x' y y', shp a = shp a' -> shp x = shp x' -> G l d a x = Ok y -> G l d a' x' = Ok y' -> shp y = shp y') -> rowfun F.
Proof.
  intros E S c X sel Y Sc SX L P Ey. pose proof (picks_cons sel X P) as Hne. apply (E c X Y Sc SX L Hne) in Ey. destruct P as (P1 & P2). split; [|split].
  - rewrite (map2M_length _ _ _ _ Ey). lia.
  - intros y y' Hy Hy'. destruct (map2M_In _ _ _ _ _ Ey Hy) as (a & x & Ha & Hx & Eg). destruct (map2M_In _ _ _ _ _ Ey Hy') as (a' & x' & Ha' & Hx' & Eg').
    exact (S _ _ _ _ _ _ _ _ (Sc a a' Ha Ha') (SX x x' Hx Hx') Eg Eg').
  - apply E.
    + apply same_shapes_pick; [exact Sc|]. now rewrite L.
    + apply same_shapes_pick; assumption.
    + now rewrite !pick_length.
    + apply (pick_cons sel X (length X)). split; assumption.
    + destruct (lenX_pick sel X SX (conj P1 P2)) as (-> & ->). apply map2M_pick with (1 := Ey). rewrite L. auto.
Qed.
Lemma map2M_snd (g : mts T -> res (mts T)) (c X : dset) : length c = length X -> map2M (fun _ x => g x) c X = mapM g X.
Proof.
  revert X. induction c as [|a c IH]; intros [|x X] L; cbn in L; try discriminate; [reflexivity|]. cbn. destruct (g x) as [y|e]; [|reflexivity]. cbn.
  rewrite IH by lia. reflexivity.
Qed.
(** A function of each series and the shape of the array. *)
Lemma rowfun_mapM (g : nat -> nat -> mts T -> res (mts T)) (F : dset -> dset -> res dset) :
  (forall c X Y, same_shapes X -> X <> [] -> (F c X = Ok Y <-> mapM (g (lenX X) (dimX X)) X = Ok Y)) -> (forall l d, okshape (g l d)) -> rowfun F.
Proof.
  intros E S. apply (rowfun_gen (fun l d _ x => g l d x)).
  - intros c X Y Sc SX L Hne. rewrite (map2M_snd (g (lenX X) (dimX X)) c X L). now apply E.
  - intros l d a a' x x' y y' _. apply S.
Qed.
Lemma mapM_Ok {A B} (g : A -> B) l : mapM (fun x => Ok (g x)) l = Ok (map g l).
Proof. apply mapM_ok. reflexivity. Qed.
Lemma rowfun_map (g : mts T -> mts T) : (forall x x', shp x = shp x' -> shp (g x) = shp (g x')) -> rowfun (fun _ X => Ok (map g X)).
Proof.
  intros S. apply (rowfun_mapM (fun _ _ x => Ok (g x))).
  - intros c X Y _ _. rewrite mapM_Ok. reflexivity.
  - intros _ _ x x' y y' E A B. injection A as <-. injection B as <-. now apply S.
Qed.
Lemma rowfun_err e : rowfun (T := T) (fun _ _ => Err e).
Proof. intros c X sel Y _ _ _ _ E. discriminate. Qed.
Lemma rowfun_ext (F G : dset -> dset -> res dset) : (forall c X, F c X = G c X) -> rowfun F -> rowfun G.
Proof. intros E HF c X sel Y. rewrite <- !E. apply HF. Qed.

(** ** The preparateurs one by one *)
Lemma inc_step_rows c k (X out o : dset) sel : same_shapes X -> same_shapes out -> length out = length X -> picks (length X) sel -> inc_step c k X out = Ok o ->
  length o = length X /\ same_shapes o /\ inc_step c k (pick [] sel X) (pick [] sel out) = Ok (pick [] sel o).
Proof.
  intros SX So L (P1 & P2) E. unfold inc_step in *. destruct (increments k out) as [o1|e] eqn:Ei; [|discriminate]. cbn [bind] in E.
  assert (L1 : length o1 = length X) by (rewrite <- L; exact (mapM_length _ _ _ Ei)).
  assert (S1 : same_shapes o1).
  { intros y y' Hy Hy'. destruct (mapM_In _ _ _ _ Ei Hy) as (x & Hx & Ex). destruct (mapM_In _ _ _ _ Ei Hy') as (x' & Hx' & Ex').
    rewrite (keep_shp _ _ _ (increments1_len k) Ex), (keep_shp _ _ _ (increments1_len k) Ex'). now apply So. }
  assert (E1 : increments k (pick [] sel out) = Ok (pick [] sel o1)) by (apply mapM_pick with (1 := Ei); now rewrite L).
  rewrite E1. cbn [bind]. destruct (inc_zp c); [injection E as <-; auto|]. destruct (inc_shift c) as [z|f]; [|discriminate].
  split; [rewrite (map2M_length _ _ _ _ E); lia|]. split; [|apply map2M_pick with (1 := E); rewrite L1; auto].
  intros y y' Hy Hy'. destruct (map2M_In _ _ _ _ _ E Hy) as (x & q & Hx & Hq & Ex). destruct (map2M_In _ _ _ _ _ E Hy') as (x' & q' & Hx' & Hq' & Ex').
  assert (G : forall x q y, map2M (inc_prefix1 z) x q = Ok y -> shp y = firstn (length x) (shp q)).
  { clear. induction x as [|r x IH]; intros [|s q] y E; cbn in E; try (injection E as <-; reflexivity).
    destruct (inc_prefix1 z r s) as [w|e] eqn:Ew; [|discriminate]. cbn in E. destruct (map2M (inc_prefix1 z) x q) as [ws|e] eqn:Em; [|discriminate]. injection E as <-. cbn.
    rewrite (IH q ws Em). f_equal. exact (py_set_slice_length _ _ _ _ _ Ew). }
  rewrite (G _ _ _ Ex), (G _ _ _ Ex'). rewrite (S1 q q' Hq Hq'). f_equal. apply dim_shp. now apply SX.
Qed.
Lemma inc_rows c : rowfun (fun _ X => inc_transform c X).
Proof.
  intros ca X sel Y _ SX _ P E. unfold inc_transform in *. destruct (lenX_pick sel X SX P) as (-> & _).
  set (k := match inc_shift c with ShInt z => z | ShFun f => f (lenX X) end) in *. clearbody k.
  assert (G : forall n (out Y : dset), same_shapes out -> length out = length X -> inc_loop c k X n out = Ok Y ->
    length Y = length X /\ same_shapes Y /\ inc_loop c k (pick [] sel X) n (pick [] sel out) = Ok (pick [] sel Y)).
  { clear E Y. induction n as [|n IH]; intros out Y So L E; cbn [inc_loop] in *; [injection E as <-; auto|].
    destruct (inc_step c k X out) as [o|e] eqn:Es; [|discriminate]. cbn [bind] in E.
    destruct (inc_step_rows c k X out o sel SX So L P Es) as (L1 & S1 & E1). rewrite E1. cbn [bind]. now apply IH. }
  now apply G.
Qed.
Lemma std_rows c st : rowfun (fun _ X => std_transform c st X).
Proof.
  unfold std_transform. destruct (std_separately c).
  - apply rowfun_map. intros x x' E. rewrite !map_shp; [exact E| |]; intros r; unfold std_row; apply map_length.
  - destruct st as [[m sd]|]; [|apply rowfun_err]. apply rowfun_map. intros x x' E. rewrite !map_shp; [exact E| |]; intros r; apply map_length.
Qed.
Lemma nrm_row_len (a b : T) x : length (nrm_row a b x) = length x.
Proof. unfold nrm_row. destruct (neqb a b); [apply repeat_length|apply map_length]. Qed.
Lemma nrm_rows sd : rowfun (fun _ X => nrm_transform sd X).
Proof.
  apply (rowfun_mapM (fun _ _ => nrm_sample sd)); [reflexivity|]. intros _ _.
  assert (G : forall x y, nrm_sample sd x = Ok y -> shp y = shp x).
  { intros x y. unfold nrm_sample. destruct (mapM vmin x) as [mns|e] eqn:E1; [|discriminate]. cbn [bind]. destruct (mapM vmax x) as [mxs|e] eqn:E2; [|discriminate]. cbn [bind].
    destruct sd.
    - destruct (vmin mns) as [mn|e]; [|discriminate]. cbn [bind]. destruct (vmax mxs) as [mx|e]; [|discriminate]. cbn [bind]. intros E. injection E as <-. apply map_shp. intros; apply nrm_row_len.
    - intros E. injection E as <-. rewrite map_map. apply mapM_length in E1, E2.
      transitivity (map (fun p : T * T * list T => length (snd p)) (combine (combine mns mxs) x)); [apply map_ext; intros; apply nrm_row_len|].
      rewrite <- map_map with (g := @length T). f_equal.
      assert (L : length (combine mns mxs) = length x) by (rewrite combine_length; lia). revert L. generalize (combine mns mxs). clear. induction x as [|r x IH]; intros [|q l] L; cbn in L; try discriminate; [reflexivity|]. cbn. f_equal. apply IH. lia. }
  intros x x' y y' E A B. rewrite (G _ _ A), (G _ _ B). exact E.
Qed.
Lemma tab_shp (n : nat) (f : nat -> T) : length (map f (seq 0 n)) = n.
Proof. now rewrite map_length, seq_length. Qed.
Lemma mav_rows w st : rowfun (fun _ X => mav_transform w st X).
Proof.
  unfold mav_transform. destruct st as [v|]; [|apply rowfun_err].
  assert (A : rowfun (fun _ X => Ok (map mav_dims X))) by (apply rowfun_map; intros x x' E; unfold mav_dims; cbn; now rewrite !tab_shp, (tlen_shp x x' E)).
  assert (B : rowfun (fun _ X => Ok (map (map (mav_row (Z.to_nat v))) X))).
  { apply rowfun_map. intros x x' E. rewrite !map_shp; [exact E| |]; intros r; unfold mav_row; apply tab_shp. }
  destruct w as [[|p|[p|p|]]|]; assumption.
Qed.
Lemma set_strided_len a b (v r : list T) : length (set_strided a b v r) = length r.
Proof. unfold set_strided. apply tab_shp. Qed.
Lemma lag_rows : rowfun (fun _ X => lag_transform X).
Proof.
  apply (rowfun_mapM (fun l _ x => if l =? 0 then Err ValueError else Ok (flat_map lag_pair x))).
  - intros c X Y _ Hne. unfold lag_transform. destruct (lenX X =? 0); [|rewrite mapM_Ok; reflexivity].
    destruct X as [|x X]; [congruence|]. cbn. split; discriminate.
  - intros l _ x x' y y' E. destruct (l =? 0); [discriminate|]. intros A B. injection A as <-. injection B as <-.
    revert x' E. induction x as [|r x IH]; intros [|r' x'] E; try discriminate; [reflexivity|]. cbn in E. injection E as E1 E2. cbn [flat_map]. rewrite !map_app, (IH x' E2). f_equal. unfold lag_pair, zeros. cbn [map].
    rewrite !set_strided_len, !repeat_length. now rewrite E1.
Qed.
Lemma forallb_mapM {A B} (P : A -> bool) (g : A -> B) e l Y : (if forallb P l then Ok (map g l) else Err e) = Ok Y <-> mapM (fun x => if P x then Ok (g x) else Err e) l = Ok Y.
Proof.
  revert Y. induction l as [|x l IH]; intros Y; [reflexivity|]. cbn. destruct (P x); cbn; [|split; discriminate].
  destruct (mapM (fun x0 => if P x0 then Ok (g x0) else Err e) l) as [ys|e'] eqn:Em; cbn.
  - destruct (forallb P l) eqn:Ef; [|exfalso; destruct (IH ys) as (_ & K); now discriminate K]. destruct (IH ys) as (_ & K). specialize (K eq_refl). injection K as ->. reflexivity.
  - destruct (forallb P l); [|split; discriminate]. destruct (IH (map g l)) as (K & _). now discriminate K.
Qed.
Lemma ffn_rows c st : rowfun (fun _ X => ffn_transform c st X).
Proof.
  unfold ffn_transform. destruct st as [st|]; [|apply rowfun_err].
  apply (rowfun_mapM (fun _ _ x => if forallb (fun w => length w =? length x) (ffn_w1 st) then Ok (ffn_sample c st x) else Err ValueError)).
  - intros _ X Y _ _. apply (forallb_mapM (fun x => forallb (fun w => length w =? length x) (ffn_w1 st)) (ffn_sample c st) ValueError X Y).
  - intros _ _ x x' y y' E A B. destruct (forallb _ _); [|discriminate]. destruct (forallb _ _); [|discriminate]. injection A as <-. injection B as <-.
    unfold ffn_sample. set (z := if ffn_center c then map center_row x else x). set (z' := if ffn_center c then map center_row x' else x').
    assert (Ez : shp z = shp z') by (unfold z, z'; destruct (ffn_center c); [rewrite !map_shp; [exact E| |]; intros r; unfold center_row; apply map_length|exact E]).
    rewrite !map_map. apply map_ext. intros o. now rewrite !tab_shp, (tlen_shp z z' Ez).
Qed.
Lemma rin_backend_shp k nd di (x x' : mts T) : tlen x = tlen x' -> shp (rin_backend k nd di x) = shp (rin_backend k nd di x').
Proof. intros E. unfold rin_backend. rewrite !map_map. apply map_ext. intros g. now rewrite !tab_shp. Qed.
Lemma rin_rows a st : rowfun (fun _ X => rin_transform a st X).
Proof.
  unfold rin_transform. destruct st as [st|]; [|apply rowfun_err]. destruct a.
  - apply rowfun_map. intros x x' E.
    assert (Et : tlen (map (fun r => zeros (tlen (rin_kernel st)) ++ r) x) = tlen (map (fun r => zeros (tlen (rin_kernel st)) ++ r) x')).
    { destruct x, x'; cbn in *; try congruence. injection E as E1 _. rewrite !app_length. congruence. }
    apply (rin_backend_shp (rin_kernel st) (rin_ndim st) (rin_dims st)) in Et. revert Et. generalize (rin_backend (rin_kernel st) (rin_ndim st) (rin_dims st) (map (fun r => zeros (tlen (rin_kernel st)) ++ r) x)).
    generalize (rin_backend (rin_kernel st) (rin_ndim st) (rin_dims st) (map (fun r => zeros (tlen (rin_kernel st)) ++ r) x')). clear. intros B A. revert B.
    induction A as [|r A IH]; intros [|s B] E; try discriminate; [reflexivity|]. cbn in E. injection E as E1 E2. cbn [map]. rewrite !skipn_length, E1. f_equal. now apply IH.
  - apply rowfun_map. intros x x' E. apply rin_backend_shp. now apply tlen_shp.
Qed.
Lemma jld_rows st : rowfun (fun _ X => jld_transform st X).
Proof.
  unfold jld_transform. destruct st as [st|]; [|apply rowfun_err]. apply rowfun_map. intros x x' E. unfold jld_backend. rewrite (tlen_shp x x' E).
  generalize (jld_bias st). induction (groups (jld_ndim st)) as [|g gs IH]; intros [|b bs]; cbn; try reflexivity. rewrite !tab_shp. f_equal. apply IH.
Qed.
Lemma bcast_lens {A B} (r r' : list A) (w w' : list B) a b a' b' : length r = length r' -> length w = length w' -> bcast r w = Ok (a, b) -> bcast r' w' = Ok (a', b') ->
  length a = length a' /\ length b = length b'.
Proof.
  intros E F. unfold bcast. rewrite E, F. destruct (Nat.eqb_spec (length r') (length w')) as [Q|Q].
  - intros P R. injection P as <- <-. injection R as <- <-. auto.
  - destruct r as [|x [|x2 r]], r' as [|x' [|x2' r']]; cbn in E; try discriminate; destruct w as [|y [|y2 w]], w' as [|y' [|y2' w']]; cbn in F; try discriminate;
      cbn in Q; try lia; intros P R; try discriminate; injection P as <- <-; injection R as <- <-; cbn; rewrite ?repeat_length; auto.
Qed.
Lemma bcast_eq_len {A B} (r : list A) (w : list B) a b : bcast r w = Ok (a, b) -> length a = length b.
Proof. intros E. now apply bcast_length in E. Qed.
Lemma rdw_rows w : rowfun (fun _ X => mapM (fun x => let! (rows, es) := bcast x w in Ok (map2 (fun row e => map (fun v => powf v e) row) rows es)) X).
Proof.
  apply (rowfun_mapM (fun _ _ x => let! (rows, es) := bcast x w in Ok (map2 (fun row e => map (fun v => powf v e) row) rows es))); [reflexivity|].
  intros _ _ x x' y y' E A B. destruct (bcast x w) as [[rows es]|e] eqn:Eb; [|discriminate]. destruct (bcast x' w) as [[rows' es']|e] eqn:Eb'; [|discriminate]. cbn in A, B. injection A as <-. injection B as <-.
  assert (Er : shp rows = shp rows' /\ es = es').
  { pose proof (dim_shp _ _ E) as L. unfold bcast in Eb, Eb'. rewrite L in Eb. destruct (length x' =? length w) eqn:Q; [injection Eb as <- <-; injection Eb' as <- <-; auto|].
    destruct x as [|r [|r2 x]], x' as [|r' [|r2' x']]; cbn in L; try discriminate; destruct w as [|v [|v2 w]]; try discriminate; injection Eb as <- <-; injection Eb' as <- <-;
      cbn [length repeat]; rewrite ?map_repeat_; cbn in E |- *; try (split; congruence).
    - injection E as E. split; [|reflexivity]. rewrite !map_repeat_, E. reflexivity.
  }
  destruct Er as (Er & <-). clear - Er. revert rows' es Er. induction rows as [|r rows IH]; intros [|r' rows'] es E; try discriminate; [reflexivity|]. cbn in E. injection E as E1 E2.
  destruct es as [|e es]; [reflexivity|]. cbn. rewrite !map_length, E1. f_equal. now apply IH.
Qed.
Lemma wave_row_len (op : T -> T -> T) (w w' r r' y y' : series T) : length w = length w' -> length r = length r' ->
  (let! (a, b) := bcast r w in Ok (map2 op a b)) = Ok y -> (let! (a, b) := bcast r' w' in Ok (map2 op a b)) = Ok y' -> length y = length y'.
Proof.
  intros Ew Er. destruct (bcast r w) as [[a b]|e] eqn:E1; [|discriminate]. destruct (bcast r' w') as [[a' b']|e] eqn:E2; [|discriminate]. cbn. intros A B. injection A as <-. injection B as <-.
  destruct (bcast_lens r r' w w' a b a' b' Er Ew E1 E2) as (L1 & L2). now rewrite !map2_len, L1, L2.
Qed.
Lemma mapM2_shp (g g' : series T -> res (series T)) x x' y y' : (forall r r' s s', length r = length r' -> g r = Ok s -> g' r' = Ok s' -> length s = length s') ->
  shp x = shp x' -> mapM g x = Ok y -> mapM g' x' = Ok y' -> shp y = shp y'.
Proof.
  intros Hg. revert x' y y'. induction x as [|r x IH]; intros x' y y' E; destruct x' as [|r' x']; try discriminate; cbn; [intros A B; now injection A as <-; injection B as <-|].
  cbn in E. injection E as E1 E2. destruct (g r) as [s|e] eqn:Es; [|discriminate]. destruct (g' r') as [s'|e] eqn:Es'; [|discriminate]. cbn.
  destruct (mapM g x) as [z|e]; [|discriminate]. destruct (mapM g' x') as [z'|e] eqn:Ez'; [|discriminate]. cbn. intros A B. injection A as <-. injection B as <-. cbn.
  f_equal; [exact (Hg _ _ _ _ E1 Es Es')|]. exact (IH x' z z' E2 eq_refl Ez').
Qed.
Definition wave1 (op : T -> T -> T) (w : series T) (x : mts T) : res (mts T) := mapM (fun row => let! (a, b) := bcast row w in Ok (map2 op a b)) x.
Lemma wave_one op (X : dset) w : X <> [] -> wave_apply op X [w] = mapM (wave1 op w) X.
Proof.
  intros Hne. unfold wave_apply.
  assert (E : bcast X [w] = Ok (X, repeat w (length X))).
  { unfold bcast. destruct X as [|x [|x' X]]; [congruence|reflexivity|reflexivity]. }
  rewrite E. cbn [bind]. clear. induction X as [|x X IH]; [reflexivity|]. cbn [length repeat map2M mapM]. unfold wave1 at 1. destruct (mapM _ x); [|reflexivity]. cbn [bind]. now rewrite IH.
Qed.
Lemma wave_all op (X : dset) (c : dset) (f : mts T -> series T) : length c = length X -> wave_apply op X (map f c) = map2M (fun a x => wave1 op (f a) x) c X.
Proof.
  intros L. unfold wave_apply, bcast. rewrite map_length, L, Nat.eqb_refl. cbn [bind]. clear - L. revert X L.
  induction c as [|a c IH]; intros [|x X] L; cbn in L; try discriminate; [reflexivity|]. cbn [map map2M]. unfold wave1 at 1. destruct (mapM _ x); [|reflexivity]. cbn [bind]. rewrite IH by lia. reflexivity.
Qed.
Lemma inc_first_len (x x' : mts T) : shp x = shp x' -> length (inc_first x) = length (inc_first x').
Proof.
  intros E. assert (L : length (nth 0 x []) = length (nth 0 x' [])) by (destruct x, x'; cbn in *; congruence).
  assert (G : forall r : series T, (exists v, increments1 1 r = Ok v) ).
  { intros r. unfold increments1.
    assert (La : length (py_slice (Some 1%Z) None r) = length r - 1).
    { unfold py_slice, lo_bound, hi_bound, py_bound. change (1 <? 0)%Z with false. cbv iota. change (Z.to_nat 1) with 1. rewrite firstn_length, skipn_length. lia. }
    assert (Lb : length (py_slice None (Some (-1)%Z) r) = length r - 1).
    { unfold py_slice, lo_bound, hi_bound, py_bound. change (-1 <? 0)%Z with true. cbv iota. cbn [skipn]. rewrite firstn_length. lia. }
    change (- (1))%Z with (-1)%Z. rewrite La, Lb, Nat.eqb_refl. unfold py_set_slice, zeros. rewrite repeat_length, map2_len, La, Lb. unfold lo_bound, hi_bound, py_bound. change (1 <? 0)%Z with false. cbv iota. change (Z.to_nat 1) with 1.
    replace (Nat.min (length r - 1) (length r - 1)) with (length r - Nat.min 1 (length r)) by lia. rewrite Nat.eqb_refl. eauto. }
  unfold inc_first. destruct (G (nth 0 x [])) as (v & Ev). destruct (G (nth 0 x' [])) as (v' & Ev'). rewrite Ev, Ev', (increments1_len _ _ _ Ev), (increments1_len _ _ _ Ev'). exact L.
Qed.
Lemma cumsum_len (x : series T) : length (cumsum x) = length x.
Proof.
  assert (G : forall (l : list T) (f : T -> T -> T) a, length (scan f a l) = length l) by (induction l as [|y l IH]; intros f a; cbn; [reflexivity|now rewrite IH]).
  destruct x as [|v x]; [reflexivity|]. cbn. now rewrite G.
Qed.
Lemma spe_rows fr op fn step ml : rowfun (fun c X => spe_run parse powf c fr op fn step ml X).
Proof.
  set (f := match fn with None => nsin | Some g => g end).
  assert (G : forall (o : T -> T -> T), rowfun (fun c X =>
     let! wave := match step with
                  | None => let t := powf (nofnat (match ml with None => lenX X | Some m => m end)) fr in Ok [map (fun i => f (ndiv (nofnat i) t)) (seq 0 (lenX X))]
                  | Some key => let! v := cache_fresh parse c CISS key in
                                match v with
                                | VSum sums => Ok (map (fun s => let t := powf (match ml with None => last s nzero | Some m => nofnat m end) fr in map (fun x => f (ndiv x t)) s) sums)
                                | VCoq _ => Err ValueError end
                  end in wave_apply o X wave)).
  { intros o. destruct step as [key|].
    - assert (Q : (exists e, forall c, cache_fresh parse c CISS key = Err e) \/ exists h : T -> T, forall c : dset, cache_fresh parse c CISS key = Ok (VSum (map (fun x => cumsum (map h (inc_first x))) c))).
      { unfold cache_fresh, compute. destruct (eqs key (str "L1")); [right; exists nabs; reflexivity|]. destruct (eqs key (str "L2")); [right; exists (fun v => nmul v v); reflexivity|]. left. eexists. reflexivity. }
      destruct Q as [(e & Q)|(h & Q)].
      + eapply rowfun_ext; [|apply (rowfun_err e)]. intros c X. rewrite Q. reflexivity.
      + set (wv := fun s : series T => let t := powf (match ml with None => last s nzero | Some m => nofnat m end) fr in map (fun x => f (ndiv x t)) s).
        apply (rowfun_gen (fun _ _ a x => wave1 o (wv (cumsum (map h (inc_first a)))) x)).
        * intros c X Y _ _ L _. rewrite Q. cbn [bind]. rewrite map_map. rewrite (wave_all o X c (fun a => wv (cumsum (map h (inc_first a)))) L). reflexivity.
        * intros l d a a' x x' y y' Ea Ex A B. eapply mapM2_shp; [|exact Ex|exact A|exact B]. intros r r' s s' Er. apply wave_row_len; [|exact Er].
          unfold wv. cbv zeta. rewrite !map_length, !cumsum_len, !map_length. now apply inc_first_len.
    - set (wv := fun l => let t := powf (nofnat (match ml with None => l | Some m => m end)) fr in map (fun i => f (ndiv (nofnat i) t)) (seq 0 l)).
      apply (rowfun_mapM (fun l _ => wave1 o (wv l))).
      + intros c X Y _ Hne. cbn [bind]. rewrite (wave_one o X _ Hne). reflexivity.
      + intros l _ x x' y y' Ex A B. eapply mapM2_shp; [|exact Ex|exact A|exact B]. intros r r' s s' Er. apply wave_row_len; [reflexivity|exact Er]. }
  unfold spe_run. fold f. destruct (eqs op (str "multiplicative")); [exact (G nmul)|]. destruct (eqs op (str "additive")); [exact (G nadd)|].
  intros c X sel Y _ _ _ _ E. exfalso. match type of E with (let! _ := ?w in _) = _ => destruct w; discriminate end.
Qed.
Lemma rpe_rows fr ml : rowfun (fun _ X => rpe_transform (powf (nofnat (match ml with None => lenX X | Some m => m end)) fr) X).
Proof.
  apply (rowfun_mapM (fun l d x => if d =? 2 then Ok (rpe_sample (powf (nofnat (match ml with None => l | Some m => m end)) fr) x) else Err ValueError)).
  - intros c X Y _ Hne. unfold rpe_transform. destruct (dimX X =? 2); [rewrite mapM_Ok; reflexivity|]. destruct X as [|x X]; [congruence|]. cbn. split; discriminate.
  - intros l d x x' y y' E. destruct (d =? 2); [|discriminate]. intros A B. injection A as <-. injection B as <-. unfold rpe_sample. cbn. now rewrite !tab_shp, (tlen_shp x x' E).
Qed.
Lemma rows_keep (g : nat -> series T -> res (series T)) : (forall l x y, g l x = Ok y -> length y = length x) -> rowfun (fun _ X => mapM (mapM (g (lenX X))) X).
Proof. intros Hg. apply (rowfun_mapM (fun l _ => mapM (g l))); [reflexivity|]. intros l _. apply mapM_shp, keep_oklen, Hg. Qed.
Lemma cts_rows s p : rowfun (fun _ X => cts_transform s p X).
Proof.
  unfold cts_transform. apply (rows_keep (fun l => cts_row p (match s with CInt z => z | CFrac f => Z.max 1 (f l) end))). intros l x y. unfold cts_row. destruct p.
  - intros E. injection E as <-. apply py_fill_slice_length.
  - destruct (py_set_slice _ _ _ x) as [z|e] eqn:E1; [|discriminate]. cbn [bind]. intros E2. rewrite (py_set_slice_length _ _ _ _ _ E2). exact (py_set_slice_length _ _ _ _ _ E1).
Qed.
Lemma map_rows (g : series T -> series T) : (forall x, length (g x) = length x) -> rowfun (fun _ X => Ok (map (map g) X)).
Proof. intros Hg. apply rowfun_map. intros x x' E. now rewrite !map_shp. Qed.
Lemma fold_fill_len {A} (f : list T -> A -> list T) l : (forall v a, length (f v a) = length v) -> forall v, length (fold_left f l v) = length v.
Proof. intros Hf. induction l as [|a l IH]; intros v; cbn; [reflexivity|]. now rewrite IH, Hf. Qed.
Lemma win_rows s e : rowfun (fun c X => win_run parse c s e X).
Proof.
  unfold win_run.
  destruct (fresh_coquantile parse (s ++ str ":L2")) as [(er & Ea)|(f & Ea)]; [eapply rowfun_ext; [|apply (rowfun_err er)]; intros c X; now rewrite Ea|].
  destruct (fresh_coquantile parse (e ++ str ":L2")) as [(er & Eb)|(g & Eb)]; [eapply rowfun_ext; [|apply (rowfun_err er)]; intros c X; now rewrite Ea, Eb|].
  apply (rowfun_gen (fun _ _ a x => mapM (win_row (Z.of_nat (f a)) (Z.of_nat (g a))) x)).
  - intros c X Y _ _ L _. rewrite Ea, Eb. cbn [bind]. rewrite !map_length, Nat.min_id, L, Nat.leb_refl. unfold win_apply.
    assert (Q : forall X, map2M (fun (p : nat * nat) (x : mts T) => mapM (win_row (Z.of_nat (fst p)) (Z.of_nat (snd p))) x) (combine (map f c) (map g c)) X = map2M (fun a x => mapM (win_row (Z.of_nat (f a)) (Z.of_nat (g a))) x) c X).
    { clear. induction c as [|a c IH]; intros [|x X]; cbn; try reflexivity. destruct (mapM _ x); [|reflexivity]. cbn. now rewrite IH. }
    now rewrite Q.
  - assert (Hw : forall p q (x y : series T), win_row p q x = Ok y -> length y = length x) by (intros p q x y E; unfold win_row in E; rewrite (py_set_slice_length _ _ _ _ _ E); apply repeat_length).
    intros _ _ a a' x x' y y' _ E A B. rewrite (keep_shp _ _ _ (Hw _ _) A), (keep_shp _ _ _ (Hw _ _) B). exact E.
Qed.
Lemma leaf_rowfun f : (match f with LFUN g => rowfun (fun _ => g) | _ => True end) -> rowfun (fun c X => leaf_transform parse powf c f X).
Proof.
  intros Hf. destruct f; cbn [leaf_transform].
  - apply inc_rows.
  - apply std_rows.
  - apply nrm_rows.
  - apply mav_rows.
  - apply lag_rows.
  - apply ffn_rows.
  - apply rin_rows.
  - destruct st as [w|]; [apply rdw_rows|apply rowfun_err].
  - apply jld_rows.
  - apply spe_rows.
  - apply rpe_rows.
  - apply cts_rows.
  - unfold qtc_transform. destruct st as [q|]; [|apply rowfun_err]. apply map_rows. intros x. apply map_length.
  - exact Hf.
  - unfold dil_transform. destruct st as [s|]; [|apply rowfun_err]. apply map_rows. intros x. unfold dil_row. apply fold_fill_len. intros; apply py_fill_slice_length.
  - apply win_rows.
  - unfold dot_transform. destruct st as [[n0 f0]|]; [|apply rowfun_err]. apply (rows_keep (fun _ => dot_row n0 f0)). intros _ x y. unfold dot_row. destruct (stride_idx f0 n0 (length x)); [|discriminate]. cbn [bind]. intros E. injection E as <-. apply tab_shp.
  - unfold pdd_transform. destruct st as [s|]; [|apply rowfun_err]. apply map_rows. intros x. unfold pdd_row. apply fold_fill_len. intros; apply py_fill_slice_length.
Qed.
End Preps.
