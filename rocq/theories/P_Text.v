(** C97: which texts [ExtendedLetter(s)] and [Word(s)] accept, what they read
    and which exception they raise otherwise. *)
From Coq Require Import Ascii String List Arith ZArith Bool Lia.
From Verif Require Import Num Arr M_Str M_Semiring M_Words M_WordObj S_Text L_Str L_Text.
Import ListNotations.

(** The number of a dimension: [int(d)]. *)
Theorem C97_integer s : (forall z, py_int_text s = Ok z <-> integer_text s z) /\
  (forall e, py_int_text s = Err e <-> e = ValueError /\ forall z, ~ integer_text s z).
Proof.
  split; [apply py_int_text_spec|]. intros e. split; [apply py_int_text_err|].
  intros (-> & N). destruct (py_int_text s) as [z|e] eqn:E.
  - exfalso. apply (N z). now apply py_int_text_spec.
  - now apply py_int_text_err in E as (-> & _).
Qed.
(** Every text is, in exactly one way, parts closed by a bracket and a rest. *)
Theorem C97_parts c s : exists ps rest, closed c ps rest s /\ forall ps' rest', closed c ps' rest' s -> ps' = ps /\ rest' = rest.
Proof. destruct (closed_ex c s) as (ps & rest & C). exists ps, rest. split; [exact C|]. intros ps' rest' C'. exact (closed_unique _ _ _ _ _ _ C' C). Qed.

Section Read.
Context {T : Type} `{Num T}.
Variable reg : registry T.
Local Notation known := (fun n => reg n <> None).
Definition read_piece (piece : pystr) : res (pystr * Z) :=
  match split_on "(" piece with
  | [name; d] => let! z := py_int_text d in match reg name with Some _ => Ok (name, (z - 1)%Z) | None => Err RuntimeError end
  | _ => Err ValueError
  end.
Lemma letter_split p n d : letter_text p n d -> exists dd, split_on "(" p = [n; dd] /\ integer_text dd (d + 1).
Proof. intros (dd & -> & N & D & I). exists dd. split; [|exact I]. rewrite split_on_sep by exact N. now rewrite (split_on_none _ _ D). Qed.
Lemma split_letter p n dd z : split_on "(" p = [n; dd] -> integer_text dd z -> letter_text p n (z - 1).
Proof.
  intros E I. destruct (closed_ex "(" p) as (ps & rest & C). pose proof (split_closed _ _ _ _ C) as S0. rewrite E in S0.
  destruct ps as [|a [|b ps]]; try discriminate.
  - injection S0 as -> ->. destruct C as (-> & F & R). inversion F; subst. exists rest. cbn. rewrite app_nil_r, <- app_assoc. split; [reflexivity|].
    split; [assumption|]. split; [assumption|]. now rewrite Z.sub_add.
  - injection S0 as _ _ E'. destruct ps; discriminate.
Qed.
Lemma read_piece_ok p nd : read_piece p = Ok nd <-> reads_letter known p nd.
Proof.
  unfold read_piece, reads_letter. split.
  - destruct (split_on "(" p) as [|n [|dd [|x y]]] eqn:E; try discriminate.
    destruct (py_int_text dd) as [z|e] eqn:I; cbn [bind]; [|discriminate]. apply py_int_text_spec in I.
    destruct (reg n) eqn:R; [|discriminate]. intros [= <-]. cbn. split; [exact (split_letter _ _ _ _ E I)|congruence].
  - destruct nd as [n d]. cbn. intros (L & K). destruct (letter_split _ _ _ L) as (dd & -> & I). apply py_int_text_spec in I. rewrite I. cbn [bind].
    destruct (reg n); [|congruence]. now rewrite Z.add_simpl_r.
Qed.
Lemma letter_dec p : (exists n d, letter_text p n d) \/ forall n d, ~ letter_text p n d.
Proof.
  destruct (split_on "(" p) as [|n [|dd [|x y]]] eqn:E; try (right; intros n' d' L; destruct (letter_split _ _ _ L) as (dd' & E' & _); congruence).
  destruct (py_int_text dd) as [z|e] eqn:I.
  - left. exists n, (z - 1)%Z. apply (split_letter _ _ _ _ E). now apply py_int_text_spec.
  - right. intros n' d' L. destruct (letter_split _ _ _ L) as (dd' & E' & I'). rewrite E in E'. injection E' as -> ->. apply py_int_text_spec in I'. congruence.
Qed.
Lemma letter_fun p n d n' d' : letter_text p n d -> letter_text p n' d' -> n = n' /\ d = d'.
Proof.
  intros A B. destruct (letter_split _ _ _ A) as (x & E & I). destruct (letter_split _ _ _ B) as (x' & E' & I'). rewrite E in E'. injection E' as -> ->.
  apply py_int_text_spec in I, I'. split; [reflexivity|]. rewrite I in I'. injection I' as I'. lia.
Qed.
Lemma read_piece_err p e : read_piece p = Err e <-> fails_letter known p e.
Proof.
  unfold fails_letter. destruct (letter_dec p) as [(n & d & L)|N].
  - pose proof L as (dd & E & I)%letter_split. apply py_int_text_spec in I. unfold read_piece. rewrite E, I. cbn [bind]. destruct (reg n) eqn:R; split.
    + discriminate.
    + intros [(_ & n' & d' & L' & K)|(_ & K)]; [|now destruct (K n d)]. destruct (letter_fun _ _ _ _ _ L L') as (-> & _). exfalso. apply K. congruence.
    + intros [= <-]. left. split; [reflexivity|]. exists n, d. split; [exact L|]. congruence.
    + intros [(-> & _)|(_ & K)]; [reflexivity|now destruct (K n d)].
  - split.
    + intros E. right. split; [|exact N]. unfold read_piece in E. destruct (split_on "(" p) as [|n [|dd [|x y]]] eqn:ES; try congruence.
      destruct (py_int_text dd) as [z|e'] eqn:I; cbn [bind] in E.
      * exfalso. apply (N n (z - 1)%Z), (split_letter _ _ _ _ ES). now apply py_int_text_spec.
      * apply py_int_text_err in I as (-> & _). congruence.
    + intros [(-> & n & d & L & _)|(-> & _)]; [now destruct (N n d)|]. destruct (read_piece p) as [nd|e] eqn:E.
      * apply read_piece_ok in E as (L & _). now destruct (N (fst nd) (snd nd)).
      * unfold read_piece in E. destruct (split_on "(" p) as [|n [|dd [|x y]]] eqn:ES; try congruence.
        destruct (py_int_text dd) as [z|e'] eqn:I; cbn [bind] in E.
        -- exfalso. apply (N n (z - 1)%Z), (split_letter _ _ _ _ ES). now apply py_int_text_spec.
        -- apply py_int_text_err in I as (-> & _). congruence.
Qed.

(** Reading a list of parts one after the other. *)
Section Seq.
Context {A B : Type}.
Variable f : A -> res B.
Fixpoint run (l : list A) : res (list B) := match l with [] => Ok [] | a :: r => let! b := f a in let! bs := run r in Ok (b :: bs) end.
Lemma run_ok l bs : run l = Ok bs <-> Forall2 (fun a b => f a = Ok b) l bs.
Proof.
  revert bs. induction l as [|a l IH]; intros bs; cbn.
  - split; [intros [= <-]; constructor|intros F; inversion F; reflexivity].
  - destruct (f a) as [b|e] eqn:E; cbn.
    + destruct (run l) as [bs'|e'] eqn:R; cbn; split.
      * intros [= <-]. constructor; [exact E|]. now apply IH.
      * intros F. inversion F as [|? b' ? bs0 E' F']; subst. apply IH in F'. congruence.
      * discriminate.
      * intros F. inversion F as [|? b' ? bs0 E' F']; subst. apply IH in F'. congruence.
    + split; [discriminate|]. intros F. inversion F; congruence.
Qed.
Lemma run_err l e : run l = Err e <-> exists l1 a l2 bs, l = l1 ++ a :: l2 /\ Forall2 (fun a b => f a = Ok b) l1 bs /\ f a = Err e.
Proof.
  induction l as [|a l IH]; cbn.
  - split; [discriminate|]. intros (l1 & a & l2 & bs & E & _). destruct l1; discriminate.
  - destruct (f a) as [b|e'] eqn:E; cbn.
    + transitivity (run l = Err e); [destruct (run l); cbn; split; congruence|]. rewrite IH. split.
      * intros (l1 & a' & l2 & bs & -> & F & R). exists (a :: l1), a', l2, (b :: bs). repeat split; [constructor; assumption|exact R].
      * intros (l1 & a' & l2 & bs & EE & F & R). destruct l1 as [|x l1]; cbn in EE; injection EE as -> ->; [congruence|].
        inversion F; subst. exists l1, a', l2. eauto.
    + split.
      * intros [= <-]. exists [], a, l, []. repeat split; [constructor|exact E].
      * intros (l1 & a' & l2 & bs & EE & F & R). destruct l1 as [|x l1]; cbn in EE; injection EE as -> ->; [congruence|]. inversion F; congruence.
Qed.
End Seq.
Lemma el_run s : el_of_string reg s = run read_piece (removelast (split_on ")" s)).
Proof.
  unfold el_of_string. generalize (removelast (split_on ")" s)). intros l.
  set (step := fun (acc : res eletter) (piece : pystr) => _).
  assert (BAD : forall k e, fold_left step k (Err e) = Err e) by (induction k as [|p l' IH]; intros e; [reflexivity|apply IH]).
  assert (G : forall l el, fold_left step l (Ok el) = let! r := run read_piece l in Ok (el ++ r)).
  { clear l. induction l as [|p l IH]; intros el; cbn [fold_left run]; [cbn; now rewrite app_nil_r|].
    assert (S1 : step (Ok el) p = let! nd := read_piece p in Ok (el ++ [nd])).
    { unfold step, read_piece. cbn [bind]. destruct (split_on "(" p) as [|n [|dd [|x y]]]; try reflexivity.
      destruct (py_int_text dd) as [z|e]; [|reflexivity]. cbn [bind]. unfold el_append. destruct (reg n); reflexivity. }
    rewrite S1. destruct (read_piece p) as [nd|e]; cbn [bind]; [|apply BAD]. rewrite IH. destruct (run read_piece l); cbn [bind]; [|reflexivity].
    now rewrite <- app_assoc. }
  rewrite G. destruct (run read_piece l); reflexivity.
Qed.
Lemma Forall2_iff {A B} (P Q : A -> B -> Prop) l m : (forall a b, P a b <-> Q a b) -> Forall2 P l m <-> Forall2 Q l m.
Proof. intros E. split; (induction 1; constructor; [now apply E|assumption]). Qed.

Lemma closed_split c s ps : removelast (split_on c s) = ps <-> exists rest, closed c ps rest s.
Proof.
  destruct (closed_ex c s) as (ps0 & rest0 & C). rewrite (pieces_closed _ _ _ _ C). split.
  - intros <-. eauto.
  - intros (rest & C'). exact (proj1 (closed_unique _ _ _ _ _ _ C C')).
Qed.
(** [ExtendedLetter(s)]. *)
Theorem C97_letter s :
  (forall el, el_of_string reg s = Ok el <-> reads_ext known s el) /\ (forall e, el_of_string reg s = Err e <-> fails_ext known s e).
Proof.
  destruct (closed_ex ")" s) as (ps & rest & C). split.
  - intros el. rewrite el_run, (pieces_closed _ _ _ _ C). etransitivity; [apply run_ok|]. rewrite (Forall2_iff _ _ _ _ read_piece_ok). split.
    + intros F. exists ps, rest. auto.
    + intros (ps' & rest' & C' & F). now destruct (closed_unique _ _ _ _ _ _ C C') as (-> & _).
  - intros e. rewrite el_run, (pieces_closed _ _ _ _ C). etransitivity; [apply run_err|]. split.
    + intros (l1 & p & l2 & el & -> & F & E). exists l1, p, l2, rest, el. split; [exact C|]. split; [now apply (Forall2_iff _ _ _ _ read_piece_ok)|now apply read_piece_err].
    + intros (l1 & p & l2 & rest' & el & C' & F & E). destruct (closed_unique _ _ _ _ _ _ C C') as (-> & _).
      exists l1, p, l2, el. split; [reflexivity|]. split; [now apply (Forall2_iff _ _ _ _ read_piece_ok)|now apply read_piece_err].
Qed.
Lemma mapM_run {A B} (f : A -> res B) l : mapM f l = run f l.
Proof. induction l as [|a l IH]; cbn; [reflexivity|]. now rewrite IH. Qed.
(** [Word(s)]. *)
Theorem C97_word s :
  (forall w, word_of_string reg s = Ok w <-> reads_word known s w) /\ (forall e, word_of_string reg s = Err e <-> fails_word known s e).
Proof.
  destruct (closed_ex "]" s) as (ps & rest & C). unfold word_of_string. rewrite (pieces_closed _ _ _ _ C), mapM_run.
  assert (K : forall raw el, el_of_string reg (tl raw) = Ok el <-> reads_ext known (tl raw) el) by (intros; apply C97_letter).
  split.
  - intros w. rewrite run_ok, (Forall2_iff _ _ _ _ K). split.
    + intros F. exists ps, rest. auto.
    + intros (ps' & rest' & C' & F). now destruct (closed_unique _ _ _ _ _ _ C C') as (-> & _).
  - intros e. rewrite run_err. split.
    + intros (l1 & p & l2 & w & -> & F & E). exists l1, p, l2, rest, w. split; [exact C|]. split; [now apply (Forall2_iff _ _ _ _ K)|now apply C97_letter].
    + intros (l1 & p & l2 & rest' & w & C' & F & E). destruct (closed_unique _ _ _ _ _ _ C C') as (-> & _).
      exists l1, p, l2, w. split; [reflexivity|]. split; [now apply (Forall2_iff _ _ _ _ K)|now apply C97_letter].
Qed.
End Read.

(** The ExtendedLetter object made from the text has these letters, these
    dimensions, and prints them. *)
Section Obj.
Context {T : Type} `{Num T}.
Variable r : list (pystr * fn T).
Definition printed (el : list (pystr * Z)) : pystr := concat (map (fun nd => fst nd ++ "("%char :: str_Z (snd nd + 1) ++ [")"%char]) el).
Theorem C97_object s :
  (forall o, eo_build r s = Ok o -> exists el, reads_ext (fun n => reg_get r n <> None) s el /\
     map Some (eo_fns o) = map (fun nd => reg_get r (fst nd)) el /\ eo_dims o = map snd el /\ eo_repr o = printed el /\ eo_iter o = 0) /\
  (forall e, eo_build r s = Err e <-> fails_ext (fun n => reg_get r n <> None) s e).
Proof.
  assert (G : match el_of_string (reg_get r) s with
              | Ok el => exists o, eo_build r s = Ok o /\ map Some (eo_fns o) = map (fun nd => reg_get r (fst nd)) el /\ eo_dims o = map snd el /\ eo_repr o = printed el /\ eo_iter o = 0
              | Err e => eo_build r s = Err e end).
  { unfold el_of_string, eo_build. generalize (removelast (split_on ")" s)). intros l.
    set (step := fun (acc : res eletter) (piece : pystr) => _). set (step' := fun (acc : res (elobj T)) (piece : pystr) => _).
    assert (B1 : forall k e, fold_left step k (Err e) = Err e) by (induction k as [|p l' IH]; intros e; [reflexivity|apply IH]).
    assert (B2 : forall k e, fold_left step' k (Err e) = Err e) by (induction k as [|p l' IH]; intros e; [reflexivity|apply IH]).
    assert (IND : forall l el (o : elobj T), map Some (eo_fns o) = map (fun nd => reg_get r (fst nd)) el -> eo_dims o = map snd el -> eo_repr o = printed el -> eo_iter o = 0 ->
      match fold_left step l (Ok el) with
      | Ok el => exists o', fold_left step' l (Ok o) = Ok o' /\ map Some (eo_fns o') = map (fun nd => reg_get r (fst nd)) el /\ eo_dims o' = map snd el /\ eo_repr o' = printed el /\ eo_iter o' = 0
      | Err e => fold_left step' l (Ok o) = Err e end).
    { clear l. induction l as [|p l IH]; intros el o E1 E2 E3 E4; [cbn; eauto 8|]. cbn [fold_left].
      unfold step at 2, step' at 2 4. cbn [bind]. destruct (split_on "(" p) as [|n [|dd [|x y]]]; try (rewrite B1; apply B2).
      destruct (py_int_text dd) as [z|e]; cbn [bind]; [|rewrite B1; apply B2]. unfold el_append, eo_append.
      destruct (reg_get r n) as [f|] eqn:R; [|rewrite B1; apply B2]. apply IH; cbn [eo_fns eo_dims eo_repr eo_iter].
      - rewrite !map_app, E1. cbn. now rewrite R.
      - rewrite map_app, E2. reflexivity.
      - rewrite E3. unfold printed. rewrite map_app, concat_app. cbn. now rewrite app_nil_r.
      - exact E4. }
    apply IND; reflexivity. }
  pose proof (C97_letter (reg_get r) s) as (L1 & L2). split.
  - intros o E. destruct (el_of_string (reg_get r) s) as [el|e] eqn:EE; [|congruence]. destruct G as (o' & E' & F). rewrite E in E'. injection E' as <-.
    exists el. split; [now apply L1|exact F].
  - intros e. rewrite <- L2. destruct (el_of_string (reg_get r) s) as [el|e'] eqn:EE.
    + destruct G as (o' & E' & _). rewrite E'. split; discriminate.
    + rewrite G. split; congruence.
Qed.
End Obj.

(** ** The cases occur *)
Definition reg1 : registry nat := fun n => if eqs n (str "DIM") then Some (fun _ _ => []) else None.
Example C97_case_number : py_int_text (str " +1_0 ") = Ok 10%Z /\ py_int_text (str "1__0") = Err ValueError /\ py_int_text (str "") = Err ValueError.
Proof. repeat split. Qed.
Example C97_case_word :
  word_of_string reg1 (str "[DIM(1)DIM( 1_2)x][DIM(-3)]yz") = Ok [[(str "DIM", 0%Z); (str "DIM", 11%Z)]; [(str "DIM", -4)%Z]] /\
  word_of_string reg1 (str "?DIM(2)]") = Ok [[(str "DIM", 1%Z)]] /\ word_of_string reg1 (str "[DIM(2)") = Ok [] /\
  word_of_string reg1 (str "[DIM(1)FOO(2)][DIM(x)]") = Err RuntimeError /\ word_of_string reg1 (str "[DIM(1)][DIM2)FOO(2)]") = Err ValueError /\
  word_of_string reg1 (str "[DIM((2)]") = Err ValueError.
Proof. repeat split. Qed.

Print Assumptions C97_integer.
Print Assumptions C97_parts.
Print Assumptions C97_letter.
Print Assumptions C97_word.
Print Assumptions C97_object.
