(** Rounding error analysis of the kernels of iterated sums. *)
From Coq Require Import Ascii String List Arith ZArith Bool Lia Reals Lra.
From Verif Require Import Num Arr L_Arr S_ISS M_Str M_Semiring M_Words M_ISS M_Float L_Tuples L_Reals L_Max L_Slow L_ISS L_Gen L_API L_Rows L_Single.
Import ListNotations.
Local Open Scope nat_scope.

(** * The unweighted kernels as functions of time, for any number type *)
Section Fun.
Context {T : Type} `{Num T}.
Definition pt_iter (k : nat) (op : T -> T -> T) (z f : nat -> T) : nat -> T := Nat.iter k (fun f t => op (f t) (z t)) f.
Definition letterF (z : nat -> T) (o : Z) (f : nat -> T) : nat -> T :=
  if (0 <? o)%Z then pt_iter (Z.to_nat o) nmul z f else if (o <? 0)%Z then pt_iter (Z.to_nat (- o)) ndiv z f else f.
Definition rowF (X : list (list T)) (d t : nat) : T := nth t (nth d X []) nzero.
Fixpoint extF (X : list (list T)) (d : nat) (el : list Z) (f : nat -> T) : nat -> T :=
  match el with [] => f | o :: r => extF X (S d) r (letterF (rowF X d) o f) end.
Definition shiftF (f : nat -> T) (t : nat) : T := match t with O => nzero | S s => f s end.
Definition e0 : T := nexp (nmul nzero nzero).
Definition e0n : T := nexp (nmul (nopp nzero) nzero).
(** Reals *)
Fixpoint finR (X : list (list T)) (w : list (list Z)) (f : nat -> T) : nat -> T :=
  match w with
  | [] => f
  | el :: r =>
      let c := accum nadd (fun t => nmul (extF X 0 el f t) e0) in
      match r with
      | [] => fun t => nmul (c t) e0n
      | _ => finR X r (fun t => nmul (shiftF c t) e0n)
      end
  end.

Lemma tab_iter n k op (z f : nat -> T) : Nat.iter k (fun v => map2 op v (tab n z)) (tab n f) = tab n (pt_iter k op z f).
Proof. induction k as [|k IH]; [reflexivity|]. change (map2 op (Nat.iter k (fun v => map2 op v (tab n z)) (tab n f)) (tab n z) = tab n (pt_iter (S k) op z f)). rewrite IH, tab_map2. reflexivity. Qed.
Lemma apply_letter_tab n Zd o f : length Zd = n \/ o = 0%Z -> apply_letter Zd o (tab n f) = tab n (letterF (fun t => nth t Zd nzero) o f).
Proof.
  unfold apply_letter, letterF. intros [L| ->]; [|reflexivity].
  assert (E : Zd = tab n (fun t => nth t Zd nzero)) by (apply tab_eta'; exact L).
  destruct (0 <? o)%Z; [rewrite <- tab_iter, <- E; reflexivity|]. destruct (o <? 0)%Z; [rewrite <- tab_iter, <- E; reflexivity|reflexivity].
Qed.
Lemma apply_ext_tab n X el : forall d f, (forall j, j < length el -> nth j el 0%Z <> 0%Z -> length (nth (d + j) X []) = n) ->
  apply_ext X d el (tab n f) = tab n (extF X d el f).
Proof.
  induction el as [|o el IH]; intros d f L; [reflexivity|]. cbn [apply_ext extF].
  rewrite apply_letter_tab.
  - apply IH. intros j Hj Hn. replace (S d + j) with (d + S j) by lia. apply (L (S j)); [cbn; lia|exact Hn].
  - destruct (Z.eq_dec o 0) as [E|E]; [now right|left]. specialize (L 0 ltac:(cbn; lia) E). now rewrite Nat.add_0_r in L.
Qed.
Lemma shift0_tab n f : shift0 (tab n f) = tab n (shiftF f).
Proof.
  unfold shift0. rewrite roll1_tab. destruct n as [|n]; [reflexivity|]. rewrite tab_S. cbn [upd]. rewrite tab_S. reflexivity.
Qed.
Lemma expw_zero n a : expw (zeros n) a = tab n (fun _ => nexp (nmul nzero a)).
Proof. unfold expw. now rewrite zeros_tab, vscale_tab, vexp_tab. Qed.
Lemma expwn_zero n a : expwn (zeros n) a = tab n (fun _ => nexp (nmul (nopp nzero) a)).
Proof. unfold expwn. now rewrite zeros_tab, vneg_tab, vscale_tab, vexp_tab. Qed.
Lemma nth_zeros k m : nth k (zeros m) nzero = @nzero T _.
Proof. apply nth_repeat. Qed.
Definition rows_ok (X : list (list T)) (n : nat) (w : list (list Z)) : Prop :=
  Forall (fun el => forall j, j < length el -> nth j el 0%Z <> 0%Z -> length (nth j X []) = n) w.
Lemma total_reals_fin X n m w : forall k len f res, rows_ok X n w -> w <> [] -> k + length w = len -> length res = 1 ->
  nth 0 (total_reals_loop X (zeros m) (zeros n) len 1 k w (tab n f) res) [] = tab n (finR X w f).
Proof.
  induction w as [|el w IH]; intros k len f res Hr Hne Hk Hres; [congruence|].
  cbn [total_reals_loop]. inversion Hr as [|? ? Hel Hw E1]; subst. rewrite apply_ext_tab by (intros j Hj Hn; apply Hel; assumption).
  rewrite expw_zero, vmul_tab, cumsum_tab, expwn_zero, vmul_tab, nth_zeros. fold e0 e0n.
  destruct w as [|el2 w].
  - cbn [total_reals_loop finR]. unfold save. replace (k + length [el] - k) with 1 by (cbn; lia). cbn [Nat.leb Nat.sub].
    destruct res as [|a res]; [discriminate|]. reflexivity.
  - assert (Q : (k <? k + length (el :: el2 :: w) - 1) = true) by (apply Nat.ltb_lt; cbn [length]; lia). rewrite Q.
    rewrite shift0_tab, vmul_tab. rewrite IH; [reflexivity|exact Hw|discriminate|cbn [length]; lia|].
    unfold save. destruct (_ <=? 1); [now rewrite upd_length|exact Hres].
Qed.

(** Arctic and Bayesian *)
Fixpoint aextF (X : list (list T)) (d : nat) (el : list Z) (f : nat -> T) : nat -> T :=
  match el with [] => f | e :: r => aextF X (S d) r (fun t => nadd (f t) (nmul (rowF X d t) (nofZ e))) end.
Definition z0 : T := nmul nzero nzero.
Fixpoint finA (X : list (list T)) (w : list (list Z)) (f : nat -> T) : nat -> T :=
  match w with
  | [] => f
  | el :: r => let c := accum nmax (fun t => nadd (aextF X 0 el f t) z0) in finA X r (fun t => nsub (c t) z0)
  end.
Fixpoint finB (X : list (list T)) (w : list (list Z)) (f : nat -> T) : nat -> T :=
  match w with
  | [] => f
  | el :: r => let c := accum nmax (fun t => nmul (extF X 0 el f t) e0) in finB X r (fun t => nmul (c t) e0n)
  end.
Definition all_rows (X : list (list T)) (n : nat) (w : list (list Z)) : Prop :=
  Forall (fun el => forall j, j < length el -> length (nth j X []) = n) w.
Lemma arctic_ext_tab n X el : forall d f, (forall j, j < length el -> length (nth (d + j) X []) = n) ->
  arctic_ext X d el (tab n f) = tab n (aextF X d el f).
Proof.
  induction el as [|o el IH]; intros d f L; [reflexivity|]. cbn [arctic_ext aextF].
  assert (L0 : length (nth d X []) = n) by (specialize (L 0 ltac:(cbn; lia)); now rewrite Nat.add_0_r in L).
  rewrite (tab_eta' nzero n (nth d X []) L0). rewrite vscale_tab, vadd_tab.
  apply IH. intros j Hj. replace (S d + j) with (d + S j) by lia. apply L. cbn; lia.
Qed.
Lemma vscale_zero n : vscale (zeros n) (@nzero T _) = tab n (fun _ => z0).
Proof. now rewrite zeros_tab, vscale_tab. Qed.
Lemma total_arctic_fin X n m w : forall k len f res, all_rows X n w -> w <> [] -> k + length w = len -> length res = 1 ->
  nth 0 (total_arctic_loop X (zeros m) (zeros n) len 1 k w (tab n f) res) [] = tab n (finA X w f).
Proof.
  induction w as [|el w IH]; intros k len f res Hr Hne Hk Hres; [congruence|].
  cbn [total_arctic_loop]. inversion Hr as [|? ? Hel Hw E1]; subst. rewrite arctic_ext_tab by exact Hel.
  rewrite nth_zeros, vscale_zero, vadd_tab, cummax_tab, vsub_tab.
  destruct w as [|el2 w].
  - cbn [total_arctic_loop finA]. unfold save. replace (k + length [el] - k) with 1 by (cbn; lia). cbn [Nat.leb Nat.sub].
    destruct res as [|a res]; [discriminate|]. reflexivity.
  - assert (Q : (k <? k + length (el :: el2 :: w) - 1) = true) by (apply Nat.ltb_lt; cbn [length]; lia). rewrite Q.
    rewrite IH; [reflexivity|exact Hw|discriminate|cbn [length]; lia|].
    unfold save. destruct (_ <=? 1); [now rewrite upd_length|exact Hres].
Qed.
Lemma total_bayesian_fin X n m w : forall k len f res, rows_ok X n w -> w <> [] -> k + length w = len -> length res = 1 ->
  nth 0 (total_bayesian_loop X (zeros m) (zeros n) len 1 k w (tab n f) res) [] = tab n (finB X w f).
Proof.
  induction w as [|el w IH]; intros k len f res Hr Hne Hk Hres; [congruence|].
  cbn [total_bayesian_loop]. inversion Hr as [|? ? Hel Hw E1]; subst. rewrite apply_ext_tab by (intros j Hj Hn; apply Hel; assumption).
  rewrite expw_zero, vmul_tab, cummax_tab, expwn_zero, vmul_tab, nth_zeros. fold e0 e0n.
  destruct w as [|el2 w].
  - cbn [total_bayesian_loop finB]. unfold save. replace (k + length [el] - k) with 1 by (cbn; lia). cbn [Nat.leb Nat.sub].
    destruct res as [|a res]; [discriminate|]. reflexivity.
  - assert (Q : (k <? k + length (el :: el2 :: w) - 1) = true) by (apply Nat.ltb_lt; cbn [length]; lia). rewrite Q.
    rewrite IH; [reflexivity|exact Hw|discriminate|cbn [length]; lia|].
    unfold save. destruct (_ <=? 1); [now rewrite upd_length|exact Hres].
Qed.
End Fun.
