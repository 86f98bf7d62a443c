(** The lengths of iterated sums depend only on the shape of the series. *)
From Coq Require Import Ascii String List Arith ZArith Bool RelationClasses Lia.
From Verif Require Import Num Arr M_Str M_Semiring M_Words M_ISS M_Np M_Prep M_Cos L_Arr L_Gen L_API S_Rowwise S_Rowwise2 L_Seeds2 L_Rowwise2.
Import ListNotations.

Section Len.
Context {T : Type} `{N : Num T}.
Notation shp := (map (@length T)).
Definition eql {A} (a b : list A) : Prop := length a = length b.
Definition eqls (R S : list (list T)) : Prop := Forall2 eql R S.
Lemma eql_refl {A} (a : list A) : eql a a. Proof. reflexivity. Qed.
Lemma eql_map2 {A B C} (f : A -> B -> C) a b a' b' : eql a a' -> eql b b' -> eql (map2 f a b) (map2 f a' b').
Proof. unfold eql. rewrite !map2_len. congruence. Qed.
Lemma eql_map {A B} (f g : A -> B) a a' : eql a a' -> eql (map f a) (map g a').
Proof. unfold eql. now rewrite !map_length. Qed.
Lemma accumulate_len {A} (f : A -> A -> A) l : length (accumulate f l) = length l.
Proof. assert (G : forall (l : list A) a, length (scan f a l) = length l) by (induction l0 as [|y l0 IH]; intros a; cbn; [reflexivity|now rewrite IH]). destruct l; cbn; [reflexivity|now rewrite G]. Qed.
Lemma eql_acc {A} (f : A -> A -> A) a a' : eql a a' -> eql (accumulate f a) (accumulate f a').
Proof. unfold eql. now rewrite !accumulate_len. Qed.
Lemma removelast_len {A} (l : list A) : length (removelast l) = length l - 1.
Proof. induction l as [|x [|y l] IH]; cbn in *; [reflexivity|reflexivity|]. rewrite IH. lia. Qed.
Lemma shift0_len (a : list T) : length (shift0 a) = length a.
Proof.
  unfold shift0. rewrite upd_length. destruct a as [|x a]; [reflexivity|]. unfold roll1. cbn [length]. rewrite removelast_len. cbn [length]. lia.
Qed.
Lemma eql_shift0 (a a' : list T) : eql a a' -> eql (shift0 a) (shift0 a').
Proof. unfold eql. now rewrite !shift0_len. Qed.
Lemma eql_upd {A} i (v v' : A) a a' : eql a a' -> eql (upd i v a) (upd i v' a').
Proof. unfold eql. now rewrite !upd_length. Qed.
Lemma eql_if {A} (b : bool) (x x' y y' : list A) : eql x x' -> eql y y' -> eql (if b then x else y) (if b then x' else y').
Proof. now destruct b. Qed.
Lemma eql_iter {A} n (f f' : list A -> list A) a a' : (forall x x', eql x x' -> eql (f x) (f' x')) -> eql a a' -> eql (Nat.iter n f a) (Nat.iter n f' a').
Proof. intros Hf E. induction n; cbn; auto. Qed.
Lemma shp_nth (Z Z' : mts T) j : shp Z = shp Z' -> eql (nth j Z []) (nth j Z' []).
Proof. intros E. unfold eql. rewrite <- !(map_nth (@length T)). now rewrite E. Qed.
Lemma eql_letter (z z' : list T) o a a' : eql z z' -> eql a a' -> eql (apply_letter z o a) (apply_letter z' o a').
Proof. intros Ez Ea. unfold apply_letter. destruct (0 <? o)%Z; [apply eql_iter; auto; intros; now apply eql_map2|]. destruct (o <? 0)%Z; [apply eql_iter; auto; intros; now apply eql_map2|exact Ea]. Qed.
Lemma eql_ext (Z Z' : mts T) el : shp Z = shp Z' -> forall j a a', eql a a' -> eql (apply_ext Z j el a) (apply_ext Z' j el a').
Proof. intros EZ. induction el as [|o el IH]; intros j a a' E; cbn [apply_ext]; [exact E|]. apply IH, eql_letter; [now apply shp_nth|exact E]. Qed.
Lemma eql_arctic (Z Z' : mts T) el : shp Z = shp Z' -> forall j a a', eql a a' -> eql (arctic_ext Z j el a) (arctic_ext Z' j el a').
Proof. intros EZ. induction el as [|o el IH]; intros j a a' E; cbn [arctic_ext]; [exact E|]. apply IH, eql_map2; [exact E|]. apply eql_map. now apply shp_nth. Qed.
Lemma eqls_repeat (a a' : list T) n : eql a a' -> eqls (repeat a n) (repeat a' n).
Proof. intros E. induction n; cbn; constructor; auto. Qed.
Lemma eqls_save len k ext (a a' : list T) R R' : eql a a' -> eqls R R' -> eqls (save len k ext a R) (save len k ext a' R').
Proof.
  intros E F. unfold save. destruct (len - k <=? ext); [|exact F]. generalize (ext - (len - k)). revert F. clear - E. intros F. induction F as [|r s R S Er F IH]; intros i; [destruct i; constructor|].
  destruct i; cbn; constructor; auto. apply IH.
Qed.
Lemma eql_zeros (Z Z' : mts T) : shp Z = shp Z' -> eql (zeros (T := T) (tlen Z)) (zeros (tlen Z')).
Proof. intros E. unfold eql, zeros. rewrite !repeat_length. now apply tlen_shp. Qed.
Lemma eql_ones (Z Z' : mts T) : shp Z = shp Z' -> eql (ones (T := T) (tlen Z)) (ones (tlen Z')).
Proof. intros E. unfold eql, ones. rewrite !repeat_length. now apply tlen_shp. Qed.
Ltac lens := unfold vadd, vsub, vmul, vdiv, vneg, vexp, vscale, expw, expwn, cumsum, cummax;
  repeat first [assumption | apply eql_if | apply eql_acc | apply eql_map2 | apply eql_map | apply eql_shift0 | apply eql_ext | apply eql_arctic | apply eql_upd
               | apply eqls_repeat | apply eql_zeros | apply eql_ones | apply eql_refl].

Lemma reals_len (Z Z' : mts T) w alpha g g' ext : shp Z = shp Z' -> eql g g' -> eqls (reals_single Z w alpha g ext) (reals_single Z' w alpha g' ext).
Proof.
  intros EZ Eg. unfold reals_single. generalize (length w) as len. intros len. generalize 0 as k.
  assert (E1 : eql (ones (tlen Z)) (ones (tlen Z'))) by lens. assert (E2 : eqls (repeat (zeros (tlen Z)) ext) (repeat (zeros (tlen Z')) ext)) by lens.
  revert E1 E2. generalize (ones (T := T) (tlen Z)) (ones (T := T) (tlen Z')) (repeat (zeros (T := T) (tlen Z)) ext) (repeat (zeros (T := T) (tlen Z')) ext).
  induction w as [|el w IH]; intros a a' R R' E1 E2 k; cbn [reals_loop]; [exact E2|]. apply IH; [lens|]. apply eqls_save; [lens|exact E2].
Qed.
Lemma total_reals_len (Z Z' : mts T) w alpha g g' ext : shp Z = shp Z' -> eql g g' -> eqls (total_reals_single Z w alpha g ext) (total_reals_single Z' w alpha g' ext).
Proof.
  intros EZ Eg. unfold total_reals_single. generalize (length w) as len. intros len. generalize 0 as k.
  assert (E1 : eql (ones (tlen Z)) (ones (tlen Z'))) by lens. assert (E2 : eqls (repeat (zeros (tlen Z)) ext) (repeat (zeros (tlen Z')) ext)) by lens.
  revert E1 E2. generalize (ones (T := T) (tlen Z)) (ones (T := T) (tlen Z')) (repeat (zeros (T := T) (tlen Z)) ext) (repeat (zeros (T := T) (tlen Z')) ext).
  induction w as [|el w IH]; intros a a' R R' E1 E2 k; cbn [total_reals_loop]; [exact E2|]. apply IH; [lens|]. apply eqls_save; [lens|exact E2].
Qed.
Lemma arctic_len (Z Z' : mts T) w alpha g g' ext : shp Z = shp Z' -> eql g g' -> eqls (arctic_single Z w alpha g ext) (arctic_single Z' w alpha g' ext).
Proof.
  intros EZ Eg. unfold arctic_single. generalize (length w) as len. intros len. generalize 0 as k.
  assert (E1 : eql (zeros (tlen Z)) (zeros (tlen Z'))) by lens. assert (E2 : eqls (repeat (zeros (tlen Z)) ext) (repeat (zeros (tlen Z')) ext)) by lens.
  revert E2. generalize (repeat (zeros (T := T) (tlen Z)) ext) (repeat (zeros (T := T) (tlen Z')) ext). revert E1. generalize (zeros (T := T) (tlen Z)) (zeros (T := T) (tlen Z')).
  induction w as [|el w IH]; intros a a' E1 R R' E2 k; cbn [arctic_loop]; [exact E2|]. apply IH; [lens|]. apply eqls_save; [lens|exact E2].
Qed.
Lemma total_arctic_len (Z Z' : mts T) w alpha g g' ext : shp Z = shp Z' -> eql g g' -> eqls (total_arctic_single Z w alpha g ext) (total_arctic_single Z' w alpha g' ext).
Proof.
  intros EZ Eg. unfold total_arctic_single. generalize (length w) as len. intros len. generalize 0 as k.
  assert (E1 : eql (zeros (tlen Z)) (zeros (tlen Z'))) by lens. assert (E2 : eqls (repeat (zeros (tlen Z)) ext) (repeat (zeros (tlen Z')) ext)) by lens.
  revert E2. generalize (repeat (zeros (T := T) (tlen Z)) ext) (repeat (zeros (T := T) (tlen Z')) ext). revert E1. generalize (zeros (T := T) (tlen Z)) (zeros (T := T) (tlen Z')).
  induction w as [|el w IH]; intros a a' E1 R R' E2 k; cbn [total_arctic_loop]; [exact E2|]. apply IH; [lens|]. apply eqls_save; [lens|exact E2].
Qed.
Lemma bayesian_len (Z Z' : mts T) w alpha g g' ext : shp Z = shp Z' -> eql g g' -> eqls (bayesian_single Z w alpha g ext) (bayesian_single Z' w alpha g' ext).
Proof.
  intros EZ Eg. unfold bayesian_single. generalize (length w) as len. intros len. generalize 0 as k.
  assert (E1 : eql (ones (tlen Z)) (ones (tlen Z'))) by lens. assert (E2 : eqls (repeat (ones (tlen Z)) ext) (repeat (ones (tlen Z')) ext)) by lens.
  revert E2. generalize (repeat (ones (T := T) (tlen Z)) ext) (repeat (ones (T := T) (tlen Z')) ext). revert E1. generalize (ones (T := T) (tlen Z)) (ones (T := T) (tlen Z')).
  induction w as [|el w IH]; intros a a' E1 R R' E2 k; cbn [bayesian_loop]; [exact E2|]. apply IH; [lens|]. apply eqls_save; [lens|exact E2].
Qed.
Lemma total_bayesian_len (Z Z' : mts T) w alpha g g' ext : shp Z = shp Z' -> eql g g' -> eqls (total_bayesian_single Z w alpha g ext) (total_bayesian_single Z' w alpha g' ext).
Proof.
  intros EZ Eg. unfold total_bayesian_single. generalize (length w) as len. intros len. generalize 0 as k.
  assert (E1 : eql (ones (tlen Z)) (ones (tlen Z'))) by lens. assert (E2 : eqls (repeat (zeros (tlen Z)) ext) (repeat (zeros (tlen Z')) ext)) by lens.
  revert E1 E2. generalize (ones (T := T) (tlen Z)) (ones (T := T) (tlen Z')) (repeat (zeros (T := T) (tlen Z)) ext) (repeat (zeros (T := T) (tlen Z')) ext).
  induction w as [|el w IH]; intros a a' R R' E1 E2 k; cbn [total_bayesian_loop]; [exact E2|]. apply IH; [lens|]. apply eqls_save; [lens|exact E2].
Qed.
Lemma argmax_row_len (a : list T) : length (argmax_row a) = length a.
Proof.
  assert (G : forall (l : list T) i v c, length (argmax_scan i v c l) = length l) by (induction l as [|x l IH]; intros i v c; cbn; [reflexivity|destruct (nleb x v); cbn; now rewrite IH]).
  destruct a; cbn; [reflexivity|now rewrite G].
Qed.
Lemma argmax_loop_len (Z Z' : mts T) w alpha g g' len : shp Z = shp Z' -> eql g g' -> forall k a a', eql a a' ->
  Forall2 eql (argmax_loop Z alpha g len k w a) (argmax_loop Z' alpha g' len k w a').
Proof.
  intros EZ Eg. induction w as [|el w IH]; intros k a a' E; cbn [argmax_loop]; [constructor|]. destruct (forallb (Z.eqb 0) el).
  - constructor; [now apply eql_map|]. now apply IH.
  - assert (E0 : eql (zeros (T := T) (length a)) (zeros (length a'))) by (unfold eql, zeros; rewrite !repeat_length; exact E).
    assert (Em : eql (if 0 <? k then vsub (vadd a (arctic_ext Z 0 el (zeros (length a)))) (vscale g (nth (k - 1) alpha nzero)) else vadd a (arctic_ext Z 0 el (zeros (length a))))
                     (if 0 <? k then vsub (vadd a' (arctic_ext Z' 0 el (zeros (length a')))) (vscale g' (nth (k - 1) alpha nzero)) else vadd a' (arctic_ext Z' 0 el (zeros (length a'))))) by lens.
    constructor; [unfold eql; rewrite !argmax_row_len; exact Em|]. apply IH. apply eql_if; [|exact Em]. apply eql_acc, eql_map2; [exact Em|now apply eql_map].
Qed.
Lemma clip_row_len (r : list nat) c : length (clip_row r c) = length r.
Proof. unfold clip_row. rewrite app_length, firstn_length, repeat_length. lia. Qed.
Lemma Forall2_nth_eql {A} (R S : list (list A)) k : Forall2 eql R S -> eql (nth k R []) (nth k S []).
Proof. intros F. revert k. induction F as [|r s R S E F IH]; intros [|k]; try reflexivity; [exact E|]. apply IH. Qed.
Lemma trans_len (A B : list (list nat)) s : Forall2 eql A B -> forall n m, Forall2 eql (trans_idx A s n) (trans_idx B s m).
Proof.
  intros F. induction s as [|s IH]; intros n m; cbn [trans_idx]; [constructor|]. apply Forall2_app; [apply IH|]. constructor; [|constructor].
  unfold eql. rewrite !clip_row_len. now apply Forall2_nth_eql.
Qed.
Lemma Forall2_map_eql {A B C} (f : list A -> list C) (g : list B -> list C) (R : list (list A)) (S : list (list B)) :
  (forall a b, length a = length b -> length (f a) = length (g b)) -> Forall2 (fun a b => length a = length b) R S -> Forall2 eql (map f R) (map g S).
Proof. intros Hf F. induction F; cbn; constructor; auto. now apply Hf. Qed.
Lemma argmax_len (Z Z' : mts T) w alpha g g' : shp Z = shp Z' -> eql g g' -> eqls (arctic_argmax_single Z w alpha g) (arctic_argmax_single Z' w alpha g').
Proof.
  intros EZ Eg. unfold arctic_argmax_single.
  assert (F := argmax_loop_len Z Z' w alpha g g' (length w) EZ Eg 0 (zeros (tlen Z)) (zeros (tlen Z')) (eql_zeros Z Z' EZ)).
  revert F. generalize (argmax_loop Z alpha g (length w) 0 w (zeros (tlen Z))) (argmax_loop Z' alpha g' (length w) 0 w (zeros (tlen Z'))). intros R S F.
  assert (Fs : Forall2 eql (map (map snd) R) (map (map snd) S)) by (apply Forall2_map_eql; [intros a b E; now rewrite !map_length|exact F]).
  induction (seq 0 (length w)) as [|k ks IH]; cbn [flat_map]; [constructor|]. apply Forall2_app; [|exact IH]. unfold argmax_block. constructor.
  - unfold eql. rewrite !map_length. now apply Forall2_nth_eql.
  - apply Forall2_map_eql; [intros a b E; now rewrite !map_length|]. apply Forall2_app; [now apply trans_len|]. constructor; [|constructor]. exact (Forall2_nth_eql _ _ k Fs).
Qed.
Lemma fast_len s (Z Z' : mts T) w alpha g g' ext tot : shp Z = shp Z' -> eql g g' -> eqls (fast_single s Z w alpha g ext tot) (fast_single s Z' w alpha g' ext tot).
Proof.
  intros EZ Eg. destruct s as [|[|]|]; cbn [fast_single]; [destruct tot|now apply argmax_len|destruct tot|destruct tot].
  - now apply total_reals_len. - now apply reals_len. - now apply total_arctic_len. - now apply arctic_len. - now apply total_bayesian_len. - now apply bayesian_len.
Qed.

Lemma ext_value_len o (Z Z' : mts T) el : shp Z = shp Z' -> Forall shaped_letter el -> eql (ext_value o Z el) (ext_value o Z' el).
Proof.
  intros EZ F. unfold ext_value. assert (E : eql (repeat (sr_one o) (tlen Z)) (repeat (sr_one o) (tlen Z'))) by (unfold eql; rewrite !repeat_length; now apply tlen_shp).
  revert E. generalize (repeat (sr_one o) (tlen Z)) (repeat (sr_one o) (tlen Z')). induction F as [|l el Hl F IH]; intros a a' E; cbn [fold_left]; [exact E|].
  apply IH, eql_map2; [exact E|]. now apply Hl.
Qed.
Definition cum_len (o : srops T) : Prop := forall a, length (sr_cum o a) = length a.
Lemma slow_len o (Z Z' : mts T) w ext : cum_len o -> shp Z = shp Z' -> Forall (Forall shaped_letter) w -> eqls (slow_single o Z w ext) (slow_single o Z' w ext).
Proof.
  intros Ho EZ F. unfold slow_single. generalize (length w) as len. intros len. generalize 0 as k.
  assert (E1 : eql (repeat (sr_one o) (tlen Z)) (repeat (sr_one o) (tlen Z'))) by (unfold eql; rewrite !repeat_length; now apply tlen_shp).
  assert (E2 : eqls (repeat (zeros (tlen Z)) ext) (repeat (zeros (tlen Z')) ext)) by lens.
  revert E2. generalize (repeat (zeros (T := T) (tlen Z)) ext) (repeat (zeros (T := T) (tlen Z')) ext). revert E1. generalize (repeat (sr_one o) (tlen Z)) (repeat (sr_one o) (tlen Z')).
  induction F as [|el w Hel F IH]; intros a a' E1 R R' E2 k; cbn [slow_loop]; [exact E2|].
  assert (Es : eql (if 0 <? k then shift0 a else a) (if 0 <? k then shift0 a' else a')) by lens. revert Es. generalize (if 0 <? k then shift0 a else a) (if 0 <? k then shift0 a' else a'). intros b b' Eb.
  assert (Ec : eql (firstn k b ++ map2 (sr_op o) (skipn k b) (skipn k (ext_value o Z el))) (firstn k b' ++ map2 (sr_op o) (skipn k b') (skipn k (ext_value o Z' el)))).
  { pose proof (ext_value_len o Z Z' el EZ Hel) as Q. unfold eql in *. rewrite !app_length, !map2_len, !firstn_length, !skipn_length. congruence. }
  revert Ec. generalize (firstn k b ++ map2 (sr_op o) (skipn k b) (skipn k (ext_value o Z el))) (firstn k b' ++ map2 (sr_op o) (skipn k b') (skipn k (ext_value o Z' el))). intros d d' Ed.
  assert (Ef : eql (firstn k d ++ sr_cum o (skipn k d)) (firstn k d' ++ sr_cum o (skipn k d'))) by (unfold eql in *; rewrite !app_length, !Ho, !firstn_length, !skipn_length; congruence).
  apply IH; [exact Ef|]. now apply eqls_save.
Qed.
Lemma slow_arctic_len (Z Z' : mts T) w ext : shp Z = shp Z' -> Forall (Forall shaped_letter) w -> eqls (slow_arctic_single Z w ext) (slow_arctic_single Z' w ext).
Proof.
  intros EZ F. unfold slow_arctic_single. generalize (length w) as len. intros len. generalize 0 as k.
  assert (E1 : eql (zeros (tlen Z)) (zeros (tlen Z'))) by lens. assert (E2 : eqls (repeat (zeros (tlen Z)) ext) (repeat (zeros (tlen Z')) ext)) by lens.
  revert E2. generalize (repeat (zeros (T := T) (tlen Z)) ext) (repeat (zeros (T := T) (tlen Z')) ext). revert E1. generalize (zeros (T := T) (tlen Z)) (zeros (T := T) (tlen Z')).
  induction F as [|el w Hel F IH]; intros a a' E1 R R' E2 k; cbn [slow_arctic_loop]; [exact E2|].
  assert (Ec : eql (sr_cum arctic_ops (map2 (sr_op arctic_ops) a (ext_value arctic_ops Z el))) (sr_cum arctic_ops (map2 (sr_op arctic_ops) a' (ext_value arctic_ops Z' el)))).
  { apply eql_acc, eql_map2; [exact E1|]. now apply ext_value_len. }
  apply IH; [exact Ec|]. now apply eqls_save.
Qed.
Lemma general_len s (Z Z' : mts T) w ext : shp Z = shp Z' -> Forall (Forall shaped_letter) w -> eqls (general_single s Z w ext) (general_single s Z' w ext).
Proof.
  intros EZ F. destruct s as [|b|]; cbn [general_single]; [apply slow_len|now apply slow_arctic_len|apply slow_len]; auto; intros a; apply accumulate_len.
Qed.

(** CosWISS *)
Lemma mul_times_len m (v v' a a' : list T) : eql v v' -> eql a a' -> eql (mul_times m v a) (mul_times m v' a').
Proof. intros Ev Ea. apply eql_iter; [|exact Ea]. intros x x' E. now apply eql_map2. Qed.
Lemma drop_at_len idx (a a' : list T) : eql a a' -> eql (drop_at idx a) (drop_at idx a').
Proof. unfold drop_at. revert a a'. induction idx as [|i idx IH]; intros a a' E; cbn; [exact E|]. now apply IH, eql_upd. Qed.
Lemma cos_single_len (X X' : mts T) w f W drop : shp X = shp X' -> eql (cos_single X w f W drop) (cos_single X' w f W drop).
Proof.
  intros EX. unfold cos_single. rewrite (tlen_shp X X' EX). set (sw := map nsin (angles f (tlen X'))). set (cw := map ncos (angles f (tlen X'))).
  generalize (zeros (T := T) (tlen X')). assert (G : forall row, eql (cos_term X w sw cw drop row) (cos_term X' w sw cw drop row)).
  { intros row. unfold cos_term. apply eql_map.
    assert (E : eql (cos_loop X sw cw drop row 0 w (ones (tlen X))) (cos_loop X' sw cw drop row 0 w (ones (tlen X')))).
    { generalize 0 as k. pose proof (eql_ones X X' EX) as E. revert E. generalize (ones (T := T) (tlen X)) (ones (T := T) (tlen X')).
      induction w as [|el w IH]; intros a a' E k; cbn [cos_loop]; [exact E|]. apply IH. apply eql_acc, drop_at_len, mul_times_len; [reflexivity|]. apply mul_times_len; [reflexivity|]. apply eql_ext; [exact EX|]. now apply eql_if; [apply eql_shift0|]. }
    apply eql_if; [|exact E]. apply mul_times_len; [reflexivity|]. now apply mul_times_len. }
  intros z. assert (E : eql z z) by reflexivity. revert E. generalize z at 1 3 as a. generalize z as a'. clear z. induction W as [|row W IH]; intros a' a E; cbn [fold_left]; [exact E|].
  apply IH, eql_map2; auto.
Qed.
End Len.
