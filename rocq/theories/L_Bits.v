(** Rows of the kernels for any numbers (no law of arithmetic is used): a row
    depends on its prefix of the word only, and not on letters with exponent 0. *)
From Coq Require Import Ascii String List Arith ZArith Bool Lia.
From Verif Require Import Num Arr L_Arr M_Str M_Semiring M_Words M_ISS S_Plan S_Words
  L_Str L_Plan L_Words L_Gen L_ISS L_API L_Single.
Import ListNotations.
Local Open Scope nat_scope.
Local Open Scope list_scope.

Section Loops.
Context {T : Type} `{N : Num T}.

(** All loops have this form. *)
Section One.
Variables (row next stay : nat -> list int -> list T -> list T).
Fixpoint gloop (len ext k : nat) (word : list (list int)) (tmp : list T) (result : list (list T)) :=
  match word with
  | [] => result
  | el :: word' => gloop len ext (S k) word' (if (k <? len - 1) then next k el tmp else stay k el tmp) (save len k ext (row k el tmp) result)
  end.
Fixpoint rowat (k : nat) (word : list (list int)) (tmp : list T) (i : nat) : list T :=
  match word with
  | [] => []
  | el :: word' => match i with O => row k el tmp | S i' => rowat (S k) word' (next k el tmp) i' end
  end.
Lemma save_nth len k ext (r0 : list T) result r : len - k <= ext -> ext <= length result -> k < len -> 
  nth r (save len k ext r0 result) [] = if r =? ext - (len - k) then r0 else nth r result [].
Proof.
  intros H1 H2 H3. unfold save. destruct (Nat.leb_spec (len - k) ext) as [L|L]; [|lia].
  destruct (Nat.eqb_spec r (ext - (len - k))) as [->|D]; [apply upd_nth_eq; lia|now apply upd_nth_neq; auto].
Qed.
Lemma save_len len k ext (r0 : list T) result : length (save len k ext r0 result) = length result.
Proof. unfold save. destruct (len - k <=? ext); [apply upd_length|reflexivity]. Qed.
Lemma gloop_row ext : forall word len k tmp result r, len = k + length word -> ext <= len -> ext = length result -> r < ext ->
  nth r (gloop len ext k word tmp result) [] = if len - ext + r <? k then nth r result [] else rowat k word tmp (len - ext + r - k).
Proof.
  induction word as [|el word IH]; intros len k tmp result r El He Er Hr; cbn [gloop rowat length] in *.
  - destruct (Nat.ltb_spec (len - ext + r) k); [reflexivity|lia].
  - rewrite (IH len (S k)) by (try lia; now rewrite save_len).
    destruct (Nat.ltb_spec (len - ext + r) (S k)) as [L|L].
    + destruct (Nat.ltb_spec (len - ext + r) k) as [L2|L2].
      * destruct (Nat.leb_spec (len - k) ext) as [L3|L3].
        -- rewrite save_nth by lia. destruct (Nat.eqb_spec r (ext - (len - k))); [lia|reflexivity].
        -- unfold save. destruct (Nat.leb_spec (len - k) ext); [lia|reflexivity].
      * replace (len - ext + r - k) with 0 by lia. rewrite save_nth by lia. destruct (Nat.eqb_spec r (ext - (len - k))); [reflexivity|lia].
    + destruct (Nat.ltb_spec (len - ext + r) k); [lia|]. replace (len - ext + r - k) with (S (len - ext + r - S k)) by lia. cbn iota.
      destruct (Nat.ltb_spec k (len - 1)); [reflexivity|]. destruct word; [cbn [length] in *; lia|cbn [length] in *; lia].
Qed.
End One.
Lemma rowat_congr row next row' next' : forall w w' k tmp i, length w' = S i -> S i <= length w ->
  (forall j el el', nth_error w j = Some el -> nth_error w' j = Some el' -> forall t, row (k + j) el t = row' (k + j) el' t /\ next (k + j) el t = next' (k + j) el' t) ->
  rowat row next k w tmp i = rowat row' next' k w' tmp i.
Proof.
  induction w as [|el w IH]; intros [|el' w'] k tmp i L1 L2 Hc; cbn [length] in *; try lia. cbn [rowat].
  pose proof (Hc 0 el el' eq_refl eq_refl) as Q. rewrite Nat.add_0_r in Q. destruct i as [|i]; [apply Q|].
  rewrite (proj2 (Q tmp)). apply IH; try lia. intros j a b Ea Eb t. replace (S k + j) with (k + S j) by lia. now apply Hc.
Qed.

Variable Z : mts T.
Definition rowR alpha g (k : nat) (el : list int) (tmp : list T) :=
  let tmp := if 0 <? k then shift0 tmp else tmp in let tmp := apply_ext Z 0 el tmp in
  if 0 <? k then vmul tmp (expwn g (nth (k - 1) alpha nzero)) else tmp.
Definition rowB alpha g (k : nat) (el : list int) (tmp : list T) :=
  let tmp := apply_ext Z 0 el tmp in if 0 <? k then vmul tmp (expwn g (nth (k - 1) alpha nzero)) else tmp.
Definition rowT (cum : list T -> list T) alpha g (k : nat) (el : list int) (tmp : list T) :=
  cum (vmul (apply_ext Z 0 el tmp) (expw g (nth k alpha nzero))).
Definition rows_of (s : semiring) (total : bool) (alpha g : list T) : (nat -> list int -> list T -> list T) * (nat -> list int -> list T -> list T) * (nat -> list int -> list T -> list T) :=
  match s, total with
  | Bayesian, false => (fun k el t => cummax (rowB alpha g k el t), fun k el t => cummax (vmul (rowB alpha g k el t) (expw g (nth k alpha nzero))), rowB alpha g)
  | Bayesian, true => (fun k el t => vmul (rowT cummax alpha g k el t) (expwn g (nth k alpha nzero)),
                       fun k el t => vmul (rowT cummax alpha g k el t) (expwn g (nth k alpha nzero)), rowT cummax alpha g)
  | _, false => (fun k el t => cumsum (rowR alpha g k el t), fun k el t => cumsum (vmul (rowR alpha g k el t) (expw g (nth k alpha nzero))), rowR alpha g)
  | _, true => (fun k el t => vmul (rowT cumsum alpha g k el t) (expwn g (nth k alpha nzero)),
                fun k el t => vmul (shift0 (rowT cumsum alpha g k el t)) (expwn g (nth k alpha nzero)), rowT cumsum alpha g)
  end.
Definition tensor (s : semiring) : Prop := match s with Arctic _ => False | _ => True end.
Lemma fast_gloop s w alpha g ext total : tensor s -> exists result, length result = ext /\
  fast_single s Z w alpha g ext total =
  gloop (fst (fst (rows_of s total alpha g))) (snd (fst (rows_of s total alpha g))) (snd (rows_of s total alpha g)) (length w) ext 0 w (ones (tlen Z)) result.
Proof.
  intros Ts. destruct s as [|b|]; [|destruct Ts|]; destruct total; cbn [fast_single rows_of fst snd];
    unfold reals_single, total_reals_single, bayesian_single, total_bayesian_single;
    match goal with |- context [ones (tlen Z)] => idtac end;
    match goal with |- exists _, _ /\ ?f = _ => match f with context [repeat ?x ext] => exists (repeat x ext) end end; (split; [apply repeat_length|]).
  all: match goal with |- context [repeat ?x ?e] => generalize (repeat x e) as res end.
  all: generalize (length w) as len, 0 as k, (ones (tlen Z)) as tmp.
  all: induction w as [|el w IH]; intros len k tmp res; [reflexivity|].
  all: cbn [gloop]; rewrite <- IH; reflexivity.
Qed.
Lemma fast_row s w alpha g ext total r : tensor s -> ext <= length w -> r < ext ->
  nth r (fast_single s Z w alpha g ext total) [] =
  rowat (fst (fst (rows_of s total alpha g))) (snd (fst (rows_of s total alpha g))) 0 w (ones (tlen Z)) (length w - ext + r).
Proof.
  intros Ts He Hr. destruct (fast_gloop s w alpha g ext total Ts) as (res & Lr & ->).
  rewrite gloop_row by (auto; lia). cbn [Nat.ltb Nat.leb]. now rewrite Nat.sub_0_r.
Qed.
(** Letters with exponent 0 are skipped. *)
Lemma apply_letter_0 x (t : list T) : apply_letter x 0 t = t.
Proof. reflexivity. Qed.
Lemma apply_ext_pad e : forall d j (t : list T), apply_ext Z d (e ++ repeat 0%Z j) t = apply_ext Z d e t.
Proof.
  induction e as [|o e IH]; intros d j t; cbn [app apply_ext]; [|apply IH].
  revert d t. induction j as [|j IH]; intros d t; cbn [repeat apply_ext]; [reflexivity|]. rewrite apply_letter_0. apply IH.
Qed.
Definition same_table (e e' : list int) : Prop := exists j, e = e' ++ repeat 0%Z j.
Lemma rows_congr s total alpha alpha' g k el el' t : same_table el el' ->
  (forall j, j <= k -> nth j alpha nzero = nth j alpha' nzero) ->
  fst (fst (rows_of s total alpha g)) k el t = fst (fst (rows_of s total alpha' g)) k el' t /\
  snd (fst (rows_of s total alpha g)) k el t = snd (fst (rows_of s total alpha' g)) k el' t.
Proof.
  intros (j & ->) Ha. assert (E1 := Ha k (le_n _)). assert (E2 := Ha (k - 1) ltac:(lia)).
  destruct s, total; cbn [rows_of fst snd]; unfold rowR, rowB, rowT; rewrite ?apply_ext_pad, ?E1, ?E2; split; reflexivity.
Qed.
(** Row r of the kernel on [w] is the only row of the kernel on the prefix. *)
Lemma fast_row_prefix s w w' alpha alpha' g ext total r d : tensor s -> ext <= length w -> r < ext -> d = length w - ext + r + 1 -> length w' = d ->
  (forall j el el', nth_error w j = Some el -> nth_error w' j = Some el' -> same_table el el') ->
  (forall j, j < d -> nth j alpha nzero = nth j alpha' nzero) ->
  nth r (fast_single s Z w alpha g ext total) [] = nth 0 (fast_single s Z w' alpha' g 1 total) [].
Proof.
  intros Ts He Hr Ed Lw Hw Ha. rewrite (fast_row s w) by (auto; lia). 
  assert (L1 : 1 <= length w') by (rewrite Lw, Ed; lia). rewrite (fast_row s w' alpha' g 1 total 0 Ts L1) by lia.
  replace (length w' - 1 + 0) with (length w - ext + r) by (rewrite Lw, Ed; lia).
  apply rowat_congr; try lia. cbn [plus]. intros j el el' E E' t. apply rows_congr; [eauto|]. intros i Hi. apply Ha.
  assert (j < length w') by (apply nth_error_Some; congruence). lia.
Qed.
End Loops.
