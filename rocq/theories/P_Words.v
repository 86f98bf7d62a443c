(** Properties C15, C16, C17, C19, C21: words. *)
From Coq Require Import Ascii String List Arith ZArith Bool Lia Reals Lra Permutation.
From Verif Require Import Num Arr S_ISS S_Plan S_Words M_Str M_Semiring M_Words M_ISS
  L_Words L_Gen L_Rows L_ISS L_Single L_Ext L_Word2 L_General L_RComp.
Import ListNotations.
Local Open Scope nat_scope.
Local Open Scope list_scope.

(** C15: what SimpleWord(s) does, for every string s. *)
Theorem C15_parse : forall {T} `{Num T} s els, spells s els ->
  simple_word (T := T) s =
  if top_dim els =? 0 then Err IndexError
  else Ok {| sw_name := s; sw_maxdim := top_dim els; sw_exts := map (table0 (top_dim els)) els; sw_alpha := None |}.
Proof. intros. eapply simple_word_spec; eauto. Qed.
Print Assumptions C15_parse.
Theorem C15_reject : forall {T} `{Num T} s, (~ exists els, spells s els) -> simple_word (T := T) s = Err ValueError.
Proof. intros. eapply simple_word_bad; eauto. Qed.
Print Assumptions C15_reject.
Theorem C15_counts : forall {T} `{Num T} s els, spells s els -> no_zero els ->
  simple_word (T := T) s =
  Ok {| sw_name := s; sw_maxdim := top_dim els; sw_exts := map (table (top_dim els)) els; sw_alpha := None |}.
Proof. intros. eapply simple_word_nz'; eauto. Qed.
Print Assumptions C15_counts.
Theorem C15_every_word_can_be_written : forall els, els <> [] -> Forall (fun el => el <> []) els -> exists s, spells s els.
Proof. exact spells_exists. Qed.
Print Assumptions C15_every_word_can_be_written.
(** Reading is unambiguous. *)
Lemma spells_fun_ s e1 e2 : spells s e1 -> spells s e2 -> e1 = e2.
Proof.
  intros (t1 & [H1 W1] & E1 & ->) (t2 & [H2 W2] & E2 & ->).
  assert (L1 := lex_all t1 W1). assert (L2 := lex_all t2 W2).
  assert (R1 := raw_letters_wstring (bodies t1) (bodies_wf t1 W1)). assert (R2 := raw_letters_wstring (bodies t2) (bodies_wf t2 W2)).
  rewrite <- tword_wstring in R1, R2. rewrite <- E1 in R1. rewrite <- E2 in R2. congruence.
Qed.
Theorem C15_unambiguous : forall s e1 e2, spells s e1 -> spells s e2 -> e1 = e2.
Proof. exact spells_fun_. Qed.
Print Assumptions C15_unambiguous.
(** The letter 0 is not an error and not ignored. *)
Theorem C15_letter_zero_refuted :
  simple_word (T := R) (str "[01]") = Ok {| sw_name := str "[01]"; sw_maxdim := 1; sw_exts := [[0%Z]]; sw_alpha := None |} /\
  simple_word (T := R) (str "[03]") = Ok {| sw_name := str "[03]"; sw_maxdim := 3; sw_exts := [[0; 0; 0]%Z]; sw_alpha := None |} /\
  simple_word (T := R) (str "[0]") = Err IndexError.
Proof. repeat split; reflexivity. Qed.
Print Assumptions C15_letter_zero_refuted.
Example C15_nonvacuous : spells (str "[122(10)][(-24)-5]") [[1; 2; 2; 10]; [-24; -5]]%Z.
Proof.
  exists [[TShort false "1"; TShort false "2"; TShort false "2"; TLong false (str "10")]; [TLong true (str "24"); TShort true "5"]]%char.
  split; [|split; reflexivity]. split; [discriminate|].
  repeat constructor; try discriminate.
Qed.

(** C16. *)
Theorem C16_multiply_is_concatenation : forall {T} `{Num T} s1 s2 e1 e2 (w1 : sword T),
  spells s1 e1 -> spells s2 e2 -> no_zero e1 -> no_zero e2 ->
  simple_word s1 = Ok w1 -> multiply w1 s2 = simple_word (s1 ++ s2).
Proof. intros. eapply multiply_concat; eassumption. Qed.
Print Assumptions C16_multiply_is_concatenation.
Theorem C16_padding_is_invisible : forall (c : iss_cfg R) words k X n,
  is_words c = map simple_iword words -> is_mode c = SINGLE -> is_argmax (is_sr c) = false ->
  words <> [] -> wf_dataset X n ->
  length (lookups (is_wt c) X) = length X ->
  (is_wt c <> None -> Forall (fun g => length g = n) (lookups (is_wt c) X)) ->
  Forall (fun w => ok_for (is_sr c) X n (pad_word k w)) words ->
  iss_transform c X = iss_transform {| is_words := map simple_iword (map (pad_word k) words); is_mode := SINGLE; is_sr := is_sr c;
                                       is_wt := is_wt c; is_wt_name := is_wt_name c |} X.
Proof. exact pad_transform. Qed.
Print Assumptions C16_padding_is_invisible.
(** With the letter 0 multiplication is not concatenation. *)
Theorem C16_letter_zero_refuted : exists w1 a b : sword R,
  simple_word (str "[01]") = Ok w1 /\ multiply w1 (str "[2]") = Ok a /\
  simple_word (str "[01][2]") = Ok b /\ sw_exts a <> sw_exts b.
Proof. eexists. eexists. eexists. split; [reflexivity|]. split; [reflexivity|]. split; [reflexivity|]. discriminate. Qed.
Print Assumptions C16_letter_zero_refuted.

(** C17. *)
Theorem C17_permuted_letters_equal : forall {T} `{Num T} s s' els els' (w w' : sword T),
  spells s els -> spells s' els' -> no_zero els -> Forall2 (@Permutation Z) els els' ->
  simple_word s = Ok w -> simple_word s' = Ok w' -> sw_eq w w' = true.
Proof. intros T N; intros. eapply words_equal_perm with (s := s) (s' := s'); eassumption. Qed.
Print Assumptions C17_permuted_letters_equal.
Theorem C17_equality_is_counting : forall {T} `{Num T} s s' els els' (w w' : sword T),
  spells s els -> spells s' els' -> no_zero els -> no_zero els' -> simple_word s = Ok w -> simple_word s' = Ok w' ->
  (sw_eq w w' = true <->
   top_dim els = top_dim els' /\ Forall2 (fun e e' => forall d, 1 <= d -> occurrences e d = occurrences e' d) els els').
Proof. intros T N; intros. eapply words_equal_iff with (s := s) (s' := s'); eassumption. Qed.
Print Assumptions C17_equality_is_counting.
Theorem C17_equal_words_equal_sums : forall (c : iss_cfg R) words words' X,
  is_words c = map simple_iword words -> is_mode c = SINGLE ->
  Forall2 (fun w w' : sword R => sw_eq w w' = true /\ (is_wt c <> None -> get_alpha w = get_alpha w')) words words' ->
  iss_transform c X = iss_transform {| is_words := map simple_iword words'; is_mode := SINGLE; is_sr := is_sr c;
                                       is_wt := is_wt c; is_wt_name := is_wt_name c |} X.
Proof. exact equal_words_transform. Qed.
Print Assumptions C17_equal_words_equal_sums.
(** Words over different numbers of dimensions are different even if all
    counts agree: letters that cancel still count for the dimension. *)
Example C17_cancelling_letters : exists a b : sword R, simple_word (str "[1]") = Ok a /\ simple_word (str "[12-2]") = Ok b /\
  sw_eq a b = false.
Proof. eexists. eexists. repeat split. Qed.

(** C19. [letter_dims el] are the dimensions of the letters in reading order. *)
Theorem C19_replace_letters : forall {T} `{Num T} (reg : registry T) w gen,
  let dims := map letter_dims w in
  let N := length (concat dims) in
  let names := firstn N (gen ++ repeat (str "DIM") N) in
  replace_letters reg w gen =
  if forallb (fun nm => match reg nm with Some _ => true | None => false end) names
  then Ok (map2 (fun nms ds => combine nms (map Z.of_nat ds)) (pieces (map (@length nat) dims) names) dims)
  else Err RuntimeError.
Proof. intros. eapply replace_letters_spec; eauto. Qed.
Print Assumptions C19_replace_letters.
Theorem C19_dim_generator : forall w gen, (exists k, gen = repeat (str "DIM") k) ->
  replace_letters (T := R) builtin w gen = Ok (dim_word w).
Proof. exact replace_dim_word. Qed.
Print Assumptions C19_dim_generator.
Example C19_nonvacuous : replace_letters (T := R) builtin [[1; -1; 2]; [0; 1; 0]]%Z [str "ABS"; str "DIM"]
  = Ok [[(str "ABS", 0); (str "DIM", 2); (str "DIM", 2)]; [(str "DIM", 1)]]%Z.
Proof. reflexivity. Qed.
