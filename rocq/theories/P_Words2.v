(** Properties C20, C21: alternate_sign, copies of words and alpha. *)
From Coq Require Import Ascii String List Arith ZArith Bool Lia Reals Lra Permutation.
From Verif Require Import Num Arr S_ISS S_Words M_Str M_Semiring M_Words M_ISS L_Alt L_Copy L_RComp.
Import ListNotations.
Local Open Scope nat_scope.
Local Open Scope list_scope.

Theorem C20_alternate_sign : forall {T} `{Num T} (ws : list (sword T)),
  Forall (fun w => sw_exts w <> [] /\
    Forall (fun e => length e <= 9 /\ Forall (fun z => (0 <= z)%Z) e /\ ~ Forall (fun z => z = 0%Z) e) (sw_exts w)) ws ->
  exists out, alternate_sign ws = Ok out /\ length out = 2 * length ws /\
    forall i w, nth_error ws i = Some w -> exists a b, nth_error out (2 * i) = Some a /\ nth_error out (2 * i + 1) = Some b /\
      alternated true (sw_exts w) (sw_exts a) /\ alternated false (sw_exts w) (sw_exts b).
Proof. intros T N ws. exact (alternate_spec ws). Qed.
Print Assumptions C20_alternate_sign.
(** Two-digit dimensions are read back digit by digit: (10) becomes -1 and 0
    (and -10 without sign becomes 1, 0); the results are not sign changes. *)
Theorem C20_two_digits_refuted : exists (w a b : sword R),
  simple_word (str "[(10)]") = Ok w /\ alternate_sign [w] = Ok [a; b] /\
  sw_name a = str "[-10]" /\ sw_name b = str "[10]" /\
  sw_exts a = [[-2]]%Z /\ sw_exts b = [[0]]%Z /\ ~ alternated true (sw_exts w) (sw_exts a).
Proof.
  exists {| sw_name := str "[(10)]"; sw_maxdim := 10; sw_exts := [[0;0;0;0;0;0;0;0;0;1]]%Z; sw_alpha := None |}.
  exists {| sw_name := str "[-10]"; sw_maxdim := 1; sw_exts := [[-2]]%Z; sw_alpha := None |}.
  exists {| sw_name := str "[10]"; sw_maxdim := 1; sw_exts := [[0]]%Z; sw_alpha := None |}.
  repeat (split; [reflexivity|]). cbn [sw_exts]. intros [_ HH]. specialize (HH 0 0). discriminate.
Qed.
Print Assumptions C20_two_digits_refuted.
(** A letter without positive counts disappears and the call raises. *)
Theorem C20_negative_letter_raises : exists w : sword R, simple_word (str "[-1]") = Ok w /\ alternate_sign [w] = Err ValueError.
Proof. eexists. split; reflexivity. Qed.
Print Assumptions C20_negative_letter_raises.
Example C20_nonvacuous : exists w a b : sword R, simple_word (str "[112][2]") = Ok w /\ alternate_sign [w] = Ok [a; b] /\
  sw_exts w = [[2; 1]; [0; 1]]%Z /\ sw_exts a = [[-2; -1]; [0; 1]]%Z /\ sw_exts b = [[2; 1]; [0; -1]]%Z.
Proof.
  eexists {| sw_exts := [[2; 1]; [0; 1]]%Z |}, {| sw_exts := [[-2; -1]; [0; 1]]%Z |}, {| sw_exts := [[2; 1]; [0; -1]]%Z |}.
  repeat split.
Qed.

(** C21. [built w]: [w] was made by any sequence of SimpleWord(...), multiply,
    alpha assignments and copy. *)
Theorem C21_copy : forall {T} `{Num T} (w : sword T), built w ->
  sw_copy w = Ok {| sw_name := sw_name w; sw_maxdim := sw_maxdim w; sw_exts := sw_exts w; sw_alpha := None |}.
Proof. intros T N w. exact (copy_spec w). Qed.
Print Assumptions C21_copy.
Theorem C21_copy_same_sums : forall {T} `{Num T} (c c' : iss_cfg T) words words' X,
  is_words c = map simple_iword words -> is_words c' = map simple_iword words' ->
  is_mode c' = is_mode c -> is_sr c' = is_sr c -> is_wt c = None -> is_wt c' = None ->
  Forall2 (fun w w' : sword T => built w /\ sw_copy w = Ok w') words words' ->
  iss_transform c' X = iss_transform c X.
Proof. intros T N c c' words words' X. exact (copies_transform c c' words words' X). Qed.
Print Assumptions C21_copy_same_sums.
Theorem C21_set_alpha : forall {T} `{Num T} (w : sword T) a,
  (length a = length (sw_exts w) -> exists w', set_alpha w a = Ok w' /\ get_alpha w' = a /\ sw_exts w' = sw_exts w /\ sw_name w' = sw_name w) /\
  (length a <> length (sw_exts w) -> set_alpha w a = Err ValueError).
Proof.
  intros T N w a. unfold set_alpha. destruct (Nat.eqb_spec (length a) (length (sw_exts w))) as [E|E]; split; intros HH; try congruence.
  eexists. repeat split.
Qed.
Print Assumptions C21_set_alpha.
Theorem C21_multiply_makes_alpha_stale : forall {T} `{Num T} (w w' w'' : sword T) a s,
  set_alpha w a = Ok w' -> multiply w' s = Ok w'' ->
  get_alpha w'' = a /\ length (get_alpha w'') < length (sw_exts w'').
Proof.
  intros T N w w' w'' a s Ha Hm. unfold set_alpha in Ha. destruct (Nat.eqb_spec (length a) (length (sw_exts w))) as [E|E]; [|discriminate].
  injection Ha as <-. destruct (multiply_exts _ _ _ Hm) as [Hl Eal]. cbn in Hl, Eal. unfold get_alpha. rewrite Eal. split; [reflexivity|lia].
Qed.
Print Assumptions C21_multiply_makes_alpha_stale.
(** The copy of a word with alpha gives other weighted sums. *)
Definition c21_cfg (w : sword R) : iss_cfg R :=
  {| is_words := [simple_iword w]; is_mode := SINGLE; is_sr := Arctic false;
     is_wt := Some {| wg_lookup := fun X => map (fun _ => [0; 1]%R) X; wg_total := true |}; is_wt_name := [] |}.
Theorem C21_weighted_copy_differs_refuted : exists w c : sword R, built w /\ sw_copy w = Ok c /\
  iss_transform (c21_cfg w) [[[10; 0]%R]] <> iss_transform (c21_cfg c) [[[10; 0]%R]].
Proof.
  set (w0 := {| sw_name := str "[1]"; sw_maxdim := 1; sw_exts := [[1]]%Z; sw_alpha := None |} : sword R).
  exists {| sw_name := str "[1]"; sw_maxdim := 1; sw_exts := [[1]]%Z; sw_alpha := Some [3%R] |}. exists w0.
  split; [|split].
  - eapply (built_alpha w0 [3%R]); [eapply (built_new (str "[1]") w0); reflexivity|]. reflexivity.
  - reflexivity.
  - intros E.
    assert (E1 : iss_transform (c21_cfg w0) [[[10; 0]%R]] = Ok [[[10; 9]%R]]) by rcompute.
    assert (E2 : iss_transform (c21_cfg {| sw_name := str "[1]"; sw_maxdim := 1; sw_exts := [[1]]%Z; sw_alpha := Some [3%R] |}) [[[10; 0]%R]]
                 = Ok [[[10; 7]%R]]) by rcompute.
    rewrite E1, E2 in E. injection E as E. lra.
Qed.
Print Assumptions C21_weighted_copy_differs_refuted.
Example C21_nonvacuous : exists w c : sword R, built w /\ sw_name w = str "[12][3]" /\ sw_alpha w = Some [1; 2]%R /\ sw_copy w = Ok c.
Proof.
  set (w0 := {| sw_name := str "[12]"; sw_maxdim := 2; sw_exts := [[1; 1]]%Z; sw_alpha := None |} : sword R).
  set (w1 := {| sw_name := str "[12][3]"; sw_maxdim := 3; sw_exts := [[1; 1; 0]; [0; 0; 1]]%Z; sw_alpha := None |} : sword R).
  exists {| sw_name := str "[12][3]"; sw_maxdim := 3; sw_exts := [[1; 1; 0]; [0; 0; 1]]%Z; sw_alpha := Some [1; 2]%R |}. exists w1.
  split; [|repeat split]. eapply (built_alpha w1 [1; 2]%R); [|reflexivity]. apply (built_multiply w0 (str "[3]")); [|reflexivity].
  apply (built_new (str "[12]")). reflexivity.
Qed.
