(** C91: the text of [summary()]. *)
From Coq Require Import Ascii String List Arith Bool Lia.
From Verif Require Import Num Arr M_Str M_Np M_Fruit M_Summary S_Fruit L_Str L_Fruit L_Fruit3.
Import ListNotations.

(** ** What the text says, line by line *)
Definition blank38 : pystr := rep 38 " ".
Definition iss_lines (i : iss_view) : list pystr :=
  [ ljust 38 (str "    + " ++ iv_str i ++ str " -> " ++ str_nat (iv_n i));
    ljust 38 (str "       | words: " ++ str_nat (iv_words i));
    ljust 38 (str "       | semiring: " ++ iv_semiring i);
    ljust 38 (str "       | weighting: " ++ match iv_weighting i with None => str "None" | Some w => w end) ].
Definition iss_header (v : slice_view) : pystr := ljust 38 (str "ISS Calculators (" ++ str_nat (length (v_iss v)) ++ str "):").
Definition slice_lines (v : slice_view) : list pystr :=
  [ center 38 (str "FruitSlice -> " ++ str_nat (view_nfeatures v));
    rep 38 "-";
    ljust 38 (str "Preparateurs (" ++ str_nat (length (v_preps v)) ++ str "):") ] ++
  match v_preps v with [] => [blank38] | ps => map (fun x => ljust 38 (str "    + " ++ x)) ps end ++
  match v_iss v with [] => [iss_header v ++ blank38; []] | is => iss_header v :: flat_map iss_lines is end ++
  ljust 38 (str "Sieves (" ++ str_nat (length (v_sieves v)) ++ str "):") ::
  match v_sieves v with [] => [blank38] | ss => map (fun s => ljust 38 (str "    + " ++ fst s ++ str " -> " ++ str_nat (snd s))) ss end.
(** Two columns: the shorter one is filled up with blank lines. *)
Definition filled (n : nat) (ls : list pystr) : list pystr := ls ++ repeat blank38 (n - length ls).
Definition two_columns (l r : list pystr) : list pystr :=
  let n := Nat.max (length l) (length r) in
  map (fun p => str "|" ++ fst p ++ str "||" ++ snd p ++ str "|") (combine (filled n l) (filled n r)).
Definition rule2 : pystr := str "|" ++ rep 38 "-" ++ str "||" ++ rep 38 "-" ++ str "|".
Definition rule1 : pystr := str "|" ++ rep 38 "-" ++ str "|".
Fixpoint blocks (vs : list slice_view) : list pystr :=
  match vs with
  | a :: b :: r => rule2 :: two_columns (slice_lines a) (slice_lines b) ++ rule2 :: blocks r
  | [a] => rule1 :: map (fun l => str "|" ++ l ++ str "|") (slice_lines a) ++ [rule1]
  | [] => []
  end.
Definition fruit_lines (name : option pystr) (vs : list slice_view) : list pystr :=
  [ rep 80 "=";
    str "<" ++ center 78 (str "Fruit" ++ match name with None => [] | Some r => str " " ++ r end ++
                          str " -> Features: " ++ str_nat (list_sum (map view_nfeatures vs))) ++ str ">";
    rep 80 "=" ] ++ blocks vs ++ [rep 80 "="].
(** The texts of the seeds have no line breaks. *)
Definition one_line (s : pystr) : Prop := ~ In nl s.
Definition plain (v : slice_view) : Prop :=
  Forall one_line (v_preps v) /\ Forall one_line (map fst (v_sieves v)) /\
  Forall (fun i => one_line (iv_str i) /\ one_line (iv_semiring i) /\ forall w, iv_weighting i = Some w -> one_line w) (v_iss v).

(** ** Proofs *)
Lemma join_lines h t : join [nl] (h :: t) = h ++ flat_map (cons nl) t.
Proof. revert h. induction t as [|x t IH]; intros h; [cbn; now rewrite app_nil_r|]. change (join [nl] (h :: x :: t)) with (h ++ [nl] ++ join [nl] (x :: t)). now rewrite IH. Qed.
Lemma join_ended ls last : join [nl] (ls ++ [last]) = flat_map (fun l => l ++ [nl]) ls ++ last.
Proof.
  induction ls as [|x ls IH]; [reflexivity|]. cbn [app flat_map]. rewrite <- !app_assoc. cbn [app]. rewrite <- IH.
  destruct (ls ++ [last]) eqn:E; [now destruct ls|]. reflexivity.
Qed.
Lemma split_join ls : ls <> [] -> Forall one_line ls -> split_on nl (join [nl] ls) = ls.
Proof.
  destruct ls as [|h t]; [congruence|]. intros _. revert h. induction t as [|x t IH]; intros h F.
  - cbn [join]. apply split_on_none. exact (Forall_inv F).
  - change (join [nl] (h :: x :: t)) with (h ++ nl :: join [nl] (x :: t)). rewrite split_on_sep by exact (Forall_inv F).
    f_equal. apply IH. exact (Forall_inv_tail F).
Qed.
Lemma slice_summary_lines v : slice_summary v = join [nl] (slice_lines v).
Proof.
  assert (J : forall (a b : list pystr), flat_map (cons nl) (a ++ b) = flat_map (cons nl) a ++ flat_map (cons nl) b) by (intros; apply flat_map_app).
  unfold slice_lines. cbn [app]. rewrite join_lines. cbn [flat_map]. rewrite !J. cbn [flat_map].
  assert (EP : join [nl] (map (fun x => ljust 38 (str "    + " ++ x)) (v_preps v)) ++ (if length (v_preps v) =? 0 then rep 38 " " else []) =
    tl (flat_map (cons nl) (match v_preps v with [] => [blank38] | ps => map (fun x => ljust 38 (str "    + " ++ x)) ps end))).
  { destruct (v_preps v) as [|p ps]; [reflexivity|]. cbn [map length Nat.eqb]. rewrite join_lines. cbn [flat_map]. now rewrite app_nil_r. }
  assert (EQ : forall r, [nl] ++ join [nl] (map (fun x => ljust 38 (str "    + " ++ x)) (v_preps v)) ++ (if length (v_preps v) =? 0 then rep 38 " " else []) ++ r =
    flat_map (cons nl) (match v_preps v with [] => [blank38] | ps => map (fun x => ljust 38 (str "    + " ++ x)) ps end) ++ r).
  { intros r. rewrite (app_assoc (join _ _)), EP. destruct (v_preps v) as [|p ps]; reflexivity. }
  assert (EI : forall r, [nl] ++ iss_header v ++ (if length (v_iss v) =? 0 then rep 38 " " else []) ++ flat_map iss_text (v_iss v) ++ (if length (v_iss v) =? 0 then [nl] else []) ++ r =
    flat_map (cons nl) (match v_iss v with [] => [iss_header v ++ blank38; []] | is => iss_header v :: flat_map iss_lines is end) ++ r).
  { intros r. destruct (v_iss v) as [|i is]; [cbn [length Nat.eqb flat_map app]; unfold blank38; rewrite <- !app_assoc; reflexivity|].
    assert (E2 : forall is, flat_map iss_text is = flat_map (cons nl) (flat_map iss_lines is)).
    { clear. intros is. induction is as [|i is IH]; [reflexivity|]. cbn [flat_map]. rewrite flat_map_app. apply (f_equal2 (@app ascii)); [|exact IH].
      unfold iss_text, iss_lines. cbn [flat_map app]. now rewrite app_nil_r. }
    pose proof (E2 (i :: is)) as E3. change (flat_map (cons nl) (iss_header v :: flat_map iss_lines (i :: is))) with
      (nl :: iss_header v ++ flat_map (cons nl) (flat_map iss_lines (i :: is))).
    rewrite E3. cbn [length Nat.eqb app]. rewrite <- app_assoc. reflexivity. }
  assert (ES : (if length (v_sieves v) =? 0 then nl :: rep 38 " " else []) ++
      flat_map (fun s => nl :: ljust 38 (str "    + " ++ fst s ++ str " -> " ++ str_nat (snd s))) (v_sieves v) =
    flat_map (cons nl) (match v_sieves v with [] => [blank38] | ss => map (fun s => ljust 38 (str "    + " ++ fst s ++ str " -> " ++ str_nat (snd s))) ss end)).
  { destruct (v_sieves v) as [|s ss]; [reflexivity|]. cbn [length Nat.eqb]. cbn [app]. generalize (s :: ss). clear. intros l.
    induction l as [|s l IH]; [reflexivity|]. cbn [flat_map map]. now rewrite IH. }
  unfold slice_summary. fold (iss_header v). rewrite ES. f_equal. cbn [app]. f_equal. f_equal. f_equal. f_equal. 
  refine (eq_trans (EQ _) _). apply (f_equal2 (@app ascii)); [reflexivity|]. exact (EI _).
Qed.
Lemma one_line_app a b : one_line a -> one_line b -> one_line (a ++ b).
Proof. unfold one_line. intros Ha Hb H. apply in_app_or in H. tauto. Qed.
Lemma one_line_rep n c : c <> nl -> one_line (rep n c).
Proof. unfold one_line, rep. intros Hc H. apply repeat_spec in H. congruence. Qed.
Lemma one_line_nat n : one_line (str_nat n).
Proof. intros H. pose proof (str_nat_digits n) as F. rewrite Forall_forall in F. specialize (F _ H). discriminate. Qed.
Lemma one_line_ljust n s : one_line s -> one_line (ljust n s).
Proof. intros Hs. apply one_line_app; [exact Hs|]. apply one_line_rep. discriminate. Qed.
Lemma one_line_center n s : one_line s -> one_line (center n s).
Proof. intros Hs. unfold center. apply one_line_app; [apply one_line_rep; discriminate|]. apply one_line_app; [exact Hs|apply one_line_rep; discriminate]. Qed.
Ltac ol := repeat first [ assumption | apply one_line_ljust | apply one_line_center | apply one_line_nat | apply one_line_app | apply one_line_rep; discriminate
  | (match goal with |- one_line (str ?s) => unfold one_line, nl; cbn; intuition discriminate end) ].
Lemma slice_lines_one_line v : plain v -> Forall one_line (slice_lines v).
Proof.
  intros (Hp & Hs & Hi). unfold slice_lines. repeat (constructor; [ol|]). apply Forall_app. split.
  - destruct (v_preps v) as [|p ps]; [constructor; [unfold blank38; ol|constructor]|]. rewrite Forall_forall in *. intros x Hx. apply in_map_iff in Hx.
    destruct Hx as (y & <- & Hy). specialize (Hp y Hy). ol.
  - apply Forall_app. split.
    + assert (Hh : one_line (iss_header v)) by (unfold iss_header; ol). destruct (v_iss v) as [|i is].
      * constructor; [unfold blank38; ol|]. constructor; [intros []|constructor].
      * constructor; [exact Hh|]. rewrite Forall_forall in *. intros x Hx. apply in_flat_map in Hx. destruct Hx as (y & Hy & Hx).
        destruct (Hi y Hy) as (H1 & H2 & H3). unfold iss_lines in Hx. destruct Hx as [<- | [<- | [<- | [<- | []]]]]; ol.
        destruct (iv_weighting y) as [w|]; [now apply H3|ol].
    + constructor; [ol|]. destruct (v_sieves v) as [|s ss]; [constructor; [unfold blank38; ol|constructor]|]. rewrite Forall_forall in *. intros x Hx. apply in_map_iff in Hx.
      destruct Hx as (y & <- & Hy). assert (one_line (fst y)) by (apply Hs; now apply in_map). ol.
Qed.
(** The summary of a slice, line by line. *)
Theorem C91_slice_lines : forall v, plain v -> split_on nl (slice_summary v) = slice_lines v.
Proof. intros v Hv. rewrite slice_summary_lines. apply split_join; [discriminate|now apply slice_lines_one_line]. Qed.

(** Every line is 38 columns wide when the texts are short enough, unless there
    is no ISS: then one line has 76 columns and the next one is empty. *)
Definition fits (v : slice_view) : Prop :=
  Forall (fun p => length p <= 32) (v_preps v) /\
  Forall (fun s => length (fst s) + length (str_nat (snd s)) <= 28) (v_sieves v) /\
  Forall (fun i => length (iv_str i) + length (str_nat (iv_n i)) <= 28 /\ length (str_nat (iv_words i)) <= 22 /\ length (iv_semiring i) <= 19 /\
                   forall w, iv_weighting i = Some w -> length w <= 18) (v_iss v) /\
  length (str_nat (view_nfeatures v)) <= 24 /\ length (str_nat (length (v_preps v))) <= 22 /\
  length (str_nat (length (v_iss v))) <= 19 /\ length (str_nat (length (v_sieves v))) <= 28.
Lemma ljust_length n s : length s <= n -> length (ljust n s) = n.
Proof. intros L. unfold ljust, rep. rewrite app_length, repeat_length. lia. Qed.
Lemma center_length n s : length s <= n -> length (center n s) = n.
Proof.
  intros L. unfold center, rep. rewrite !app_length, !repeat_length. pose proof (Nat.div_le_upper_bound (n - length s) 2 (n - length s)). lia.
Qed.
Lemma str_length s : length (str s) = String.length s.
Proof. induction s as [|c s IH]; cbn; [reflexivity|]. now rewrite <- IH. Qed.
Ltac len := rewrite ?app_length, ?str_length; cbn [String.length]; lia.
Theorem C91_slice_width : forall v, fits v -> v_iss v <> [] -> Forall (fun l => length l = 38) (slice_lines v).
Proof.
  intros v (Hp & Hs & Hi & H1 & H2 & H3 & H4) Hne. unfold slice_lines.
  constructor; [apply center_length; len|]. constructor; [apply repeat_length|]. constructor; [apply ljust_length; len|].
  apply Forall_app. split; [|apply Forall_app; split].
  - destruct (v_preps v) as [|p ps]; [constructor; [apply repeat_length|constructor]|]. rewrite Forall_forall in *. intros x Hx. apply in_map_iff in Hx.
    destruct Hx as (y & <- & Hy). specialize (Hp y Hy). apply ljust_length. len.
  - assert (Hh : length (iss_header v) = 38) by (apply ljust_length; len). destruct (v_iss v) as [|i is]; [congruence|].
    constructor; [exact Hh|]. rewrite Forall_forall in *. intros x Hx. apply in_flat_map in Hx. destruct Hx as (y & Hy & Hx).
    destruct (Hi y Hy) as (G1 & G2 & G3 & G4). unfold iss_lines in Hx. destruct Hx as [<- | [<- | [<- | [<- | []]]]]; apply ljust_length; [len|len|len|].
    destruct (iv_weighting y) as [w|]; [specialize (G4 w eq_refl); len|len].
  - constructor; [apply ljust_length; len|]. destruct (v_sieves v) as [|s ss]; [constructor; [apply repeat_length|constructor]|].
    rewrite Forall_forall in *. intros x Hx. apply in_map_iff in Hx. destruct Hx as (y & <- & Hy). specialize (Hs y Hy). apply ljust_length. len.
Qed.
Lemma replace_join r s : replace_char nl r s = join r (split_on nl s).
Proof.
  unfold replace_char. induction s as [|a s IH]; [reflexivity|]. cbn [flat_map split_on].
  destruct (Ascii.eqb a nl); rewrite IH; clear IH.
  - pose proof (split_on_ne nl s) as Hn. destruct (split_on nl s) as [|h t]; [congruence|]. reflexivity.
  - pose proof (split_on_ne nl s) as Hn. destruct (split_on nl s) as [|h [|h2 t]]; [congruence|reflexivity|reflexivity].
Qed.
Lemma barred ls : ls <> [] -> "|"%char :: join ("|"%char :: nl :: ["|"%char]) ls ++ "|"%char :: [nl] = flat_map (fun l => (str "|" ++ l ++ str "|") ++ [nl]) ls.
Proof.
  destruct ls as [|h t]; [congruence|]. intros _. revert h. induction t as [|x t IH]; intros h.
  - cbn [join flat_map]. cbn. now rewrite app_nil_r, <- app_assoc.
  - change (join ("|"%char :: nl :: ["|"%char]) (h :: x :: t)) with (h ++ ("|"%char :: nl :: ["|"%char]) ++ join ("|"%char :: nl :: ["|"%char]) (x :: t)).
    specialize (IH x). cbn [flat_map] in IH |- *. rewrite <- IH. cbn. rewrite <- !app_assoc. reflexivity.
Qed.
Lemma slices_text_lines vs : Forall plain vs -> slices_text vs = flat_map (fun l => l ++ [nl]) (blocks vs).
Proof.
  enough (Q : forall n vs, length vs <= n -> Forall plain vs -> slices_text vs = flat_map (fun l => l ++ [nl]) (blocks vs)) by (intros F; exact (Q _ vs (le_n _) F)).
  clear vs. intros n. induction n as [|n IH]; intros vs Ln F; [destruct vs; [reflexivity|cbn in Ln; lia]|].
  destruct vs as [|a [|b vs]]; [reflexivity| |].
  - cbn [slices_text blocks]. pose proof (C91_slice_lines a (Forall_inv F)) as Ea. rewrite replace_join, Ea.
    assert (Hne : slice_lines a <> []) by discriminate. pose proof (barred _ Hne) as Eb.
    cbn [flat_map]. rewrite flat_map_app. cbn [flat_map].
    assert (Em : flat_map (fun l => l ++ [nl]) (map (fun l => str "|" ++ l ++ str "|") (slice_lines a)) = flat_map (fun l => (str "|" ++ l ++ str "|") ++ [nl]) (slice_lines a)).
    { clear. induction (slice_lines a) as [|x l IH]; [reflexivity|]. cbn [map flat_map]. now rewrite IH. }
    rewrite Em, <- Eb. unfold rule1. cbn [str list_ascii_of_string]. cbn [app]. rewrite <- !app_assoc. cbn [app]. repeat f_equal.
  - cbn [slices_text blocks]. rewrite (IH vs); [|cbn in Ln; lia|exact (Forall_inv_tail (Forall_inv_tail F))].
    unfold pair_text. rewrite (C91_slice_lines a (Forall_inv F)), (C91_slice_lines b (Forall_inv (Forall_inv_tail F))).
    set (L := slice_lines a). set (R := slice_lines b).
    assert (EL : L ++ repeat (rep 38 " ") (length R - length L) = filled (Nat.max (length L) (length R)) L) by (unfold filled; replace (Nat.max (length L) (length R) - length L) with (length R - length L) by lia; reflexivity).
    rewrite EL. assert (LL : length (filled (Nat.max (length L) (length R)) L) = Nat.max (length L) (length R)) by (unfold filled; rewrite app_length, repeat_length; lia).
    rewrite LL. fold (filled (Nat.max (length L) (length R)) R). change (R ++ repeat (rep 38 " ") (Nat.max (length L) (length R) - length R)) with (filled (Nat.max (length L) (length R)) R).
    change (map (fun p : list ascii * list ascii => "|"%char :: fst p ++ str "||" ++ snd p ++ str "|") (combine (filled (Nat.max (length L) (length R)) L) (filled (Nat.max (length L) (length R)) R))) with (two_columns L R).
    cbn [flat_map]. rewrite flat_map_app. cbn [flat_map]. rewrite app_assoc. cbn zeta.
    assert (HT : two_columns L R <> []) by (unfold L, R; discriminate).
    assert (EJ : join [nl] (two_columns L R) ++ [nl] = flat_map (fun l => l ++ [nl]) (two_columns L R)).
    { destruct (two_columns L R) as [|h t] eqn:E; [congruence|]. clear. revert h. induction t as [|x t IH]; intros h; [cbn; now rewrite app_nil_r|].
      change (join [nl] (h :: x :: t)) with (h ++ [nl] ++ join [nl] (x :: t)). 
      change (flat_map (fun l => l ++ [nl]) (h :: x :: t)) with ((h ++ [nl]) ++ flat_map (fun l => l ++ [nl]) (x :: t)). rewrite <- IH. now rewrite <- !app_assoc. }
    assert (Fin : forall A B C, A ++ join [nl] (two_columns L R) ++ [nl] ++ B ++ C = A ++ flat_map (fun l => l ++ [nl]) (two_columns L R) ++ B ++ C).
    { intros A B C. rewrite <- EJ. now rewrite <- !app_assoc. }
    transitivity ((rule2 ++ [nl]) ++ (join [nl] (two_columns L R) ++ (nl :: rule2 ++ [nl])) ++ flat_map (fun l => l ++ [nl]) (blocks vs)); [reflexivity|].
    rewrite <- (app_assoc (join _ _)). exact (Fin (rule2 ++ [nl]) (rule2 ++ [nl]) (flat_map (fun l => l ++ [nl]) (blocks vs))).
Qed.
(** The summary of a fruit, line by line. *)
Theorem C91_fruit_lines : forall name vs, Forall plain vs -> (forall r, name = Some r -> one_line r) ->
  split_on nl (fruit_summary name vs) = fruit_lines name vs.
Proof.
  intros name vs F Hn.
  assert (E : fruit_summary name vs = join [nl] (fruit_lines name vs)).
  { unfold fruit_lines. rewrite app_assoc. rewrite join_ended. rewrite flat_map_app. rewrite <- slices_text_lines by exact F.
    unfold fruit_summary. cbn [flat_map]. rewrite <- !app_assoc. destruct name; reflexivity. }
  rewrite E. apply split_join; [discriminate|]. unfold fruit_lines.
  constructor; [ol|]. constructor.
  { apply one_line_app; [ol|]. apply one_line_app; [|ol]. apply one_line_center. apply one_line_app; [ol|]. apply one_line_app; [|ol].
    destruct name as [r|]; [|intros []]. apply one_line_app; [ol|]. now apply Hn. }
  constructor; [ol|]. apply Forall_app. split; [|constructor; [ol|constructor]].
  enough (Q : forall n vs, length vs <= n -> Forall plain vs -> Forall one_line (blocks vs)) by exact (Q _ vs (le_n _) F).
  clear. intros n. induction n as [|n IH]; intros vs Ln F; [destruct vs; [constructor|cbn in Ln; lia]|].
  destruct vs as [|a [|b vs]]; [constructor| |].
  - cbn [blocks]. constructor; [unfold rule1; ol|]. apply Forall_app. split; [|constructor; [unfold rule1; ol|constructor]].
    pose proof (slice_lines_one_line a (Forall_inv F)) as Fa. rewrite Forall_forall in *. intros x Hx. apply in_map_iff in Hx. destruct Hx as (y & <- & Hy).
    specialize (Fa y Hy). ol.
  - cbn [blocks]. constructor; [unfold rule2; ol|]. apply Forall_app. split.
    + pose proof (slice_lines_one_line a (Forall_inv F)) as Fa. pose proof (slice_lines_one_line b (Forall_inv (Forall_inv_tail F))) as Fb.
      assert (Ff : forall k ls, Forall one_line ls -> forall x, In x (filled k ls) -> one_line x).
      { intros k ls Fl x Hx. unfold filled in Hx. apply in_app_or in Hx. destruct Hx as [Hx|Hx]; [rewrite Forall_forall in Fl; now apply Fl|].
        apply repeat_spec in Hx. subst x. unfold blank38. ol. }
      unfold two_columns. apply Forall_forall. intros x Hx. apply in_map_iff in Hx. destruct Hx as ([l r] & <- & Hy). cbn [fst snd].
      pose proof (in_combine_l _ _ _ _ Hy) as Hl. pose proof (in_combine_r _ _ _ _ Hy) as Hr. apply Ff in Hl; [|exact Fa]. apply Ff in Hr; [|exact Fb]. ol.
    + constructor; [unfold rule2; ol|]. apply IH; [cbn in Ln; lia|]. exact (Forall_inv_tail (Forall_inv_tail F)).
Qed.

(** Widths: all lines of a fruit whose slices fit and have an ISS are 80 columns
    wide, those of the last one of an odd number of slices 40. *)
Lemma two_columns_width l r : Forall (fun x => length x = 38) l -> Forall (fun x => length x = 38) r -> Forall (fun x => length x = 80) (two_columns l r).
Proof.
  intros Fl Fr. unfold two_columns. apply Forall_forall. intros x Hx. apply in_map_iff in Hx. destruct Hx as ([a b] & <- & Hy). cbn [fst snd].
  assert (Ff : forall k ls, Forall (fun x : pystr => length x = 38) ls -> forall x, In x (filled k ls) -> length x = 38).
  { intros k ls F y Hi. unfold filled in Hi. apply in_app_or in Hi. destruct Hi as [Hi|Hi]; [rewrite Forall_forall in F; now apply F|].
    apply repeat_spec in Hi. subst y. apply repeat_length. }
  pose proof (Ff _ _ Fl _ (in_combine_l _ _ _ _ Hy)) as La. pose proof (Ff _ _ Fr _ (in_combine_r _ _ _ _ Hy)) as Lb. len.
Qed.
Theorem C91_fruit_width : forall name vs,
  Forall (fun v => fits v /\ v_iss v <> []) vs ->
  length (match name with None => [] | Some r => str " " ++ r end) + length (str_nat (list_sum (map view_nfeatures vs))) <= 59 ->
  Forall (fun l => length l = 80 \/ length l = 40) (fruit_lines name vs) /\
  (Nat.even (length vs) = true -> Forall (fun l => length l = 80) (fruit_lines name vs)).
Proof.
  intros name vs F Hn.
  assert (B : forall n vs, length vs <= n -> Forall (fun v => fits v /\ v_iss v <> []) vs ->
     Forall (fun l => length l = 80 \/ length l = 40) (blocks vs) /\ (Nat.even (length vs) = true -> Forall (fun l => length l = 80) (blocks vs))).
  { clear. intros n. induction n as [|n IH]; intros vs Ln F; [destruct vs; [split; constructor|cbn in Ln; lia]|].
    destruct vs as [|a [|b vs]]; [split; constructor| |].
    - split; [|discriminate]. cbn [blocks]. destruct (Forall_inv F) as [Fa Na]. pose proof (C91_slice_width a Fa Na) as W.
      constructor; [right; reflexivity|]. apply Forall_app. split; [|constructor; [right; reflexivity|constructor]].
      rewrite Forall_forall in *. intros x Hx. apply in_map_iff in Hx. destruct Hx as (y & <- & Hy). right. specialize (W y Hy). cbn beta in W. len.
    - destruct (IH vs) as [I1 I2]; [cbn in Ln; lia|exact (Forall_inv_tail (Forall_inv_tail F))|].
      destruct (Forall_inv F) as [Fa Na]. destruct (Forall_inv (Forall_inv_tail F)) as [Fb Nb].
      pose proof (two_columns_width _ _ (C91_slice_width a Fa Na) (C91_slice_width b Fb Nb)) as W. cbn [blocks]. split.
      + constructor; [left; reflexivity|]. apply Forall_app. split; [|constructor; [left; reflexivity|exact I1]].
        revert W. apply Forall_impl. auto.
      + intros Ev. constructor; [reflexivity|]. apply Forall_app. split; [exact W|]. constructor; [reflexivity|]. apply I2. exact Ev. }
  destruct (B _ vs (le_n _) F) as [B1 B2].
  assert (Hh : length (str "<" ++ center 78 (str "Fruit" ++ match name with None => [] | Some r => str " " ++ r end ++
                          str " -> Features: " ++ str_nat (list_sum (map view_nfeatures vs))) ++ str ">") = 80).
  { rewrite !app_length, center_length; [cbn; lia|]. len. }
  unfold fruit_lines. split.
  - constructor; [left; reflexivity|]. constructor; [left; exact Hh|]. constructor; [left; reflexivity|]. apply Forall_app. split; [exact B1|].
    constructor; [left; reflexivity|constructor].
  - intros Ev. constructor; [reflexivity|]. constructor; [exact Hh|]. constructor; [reflexivity|]. apply Forall_app. split; [now apply B2|].
    constructor; [reflexivity|constructor].
Qed.
(** A slice without ISS breaks the layout, in its own summary and in the fruit's:
    a line of 76 columns (114 in the fruit) and a line without text (42). *)
Theorem C91_no_iss_refuted :
  ~ (forall v, fits v -> Forall (fun l => length l = 38) (slice_lines v)) /\
  forall v, plain v -> v_iss v = [] ->
    exists i, length (nth i (split_on nl (slice_summary v)) []) = 76 /\ nth_error (split_on nl (slice_summary v)) (S i) = Some [].
Proof.
  assert (G : forall v, plain v -> v_iss v = [] ->
    exists i, length (nth i (split_on nl (slice_summary v)) []) = 76 /\ nth_error (split_on nl (slice_summary v)) (S i) = Some []).
  { intros v Hv Ei. rewrite C91_slice_lines by exact Hv. unfold slice_lines. rewrite Ei.
    set (P := match v_preps v with [] => [blank38] | ps => map (fun x => ljust 38 (str "    + " ++ x)) ps end).
    exists (3 + length P). cbn [app]. split.
    - cbn [Nat.add nth]. rewrite app_nth2, Nat.sub_diag by lia. cbn [nth]. unfold iss_header. rewrite Ei. reflexivity.
    - match goal with |- nth_error (_ :: _ :: _ :: ?l) _ = _ => change (nth_error l (S (length P)) = Some []) end.
      rewrite nth_error_app2 by lia. replace (S (length P) - length P) with 1 by lia. reflexivity. }
  split; [|exact G]. intros Q. set (v := {| v_preps := []; v_iss := []; v_sieves := [(str "NPI", 1)] |}).
  assert (Pv : plain v) by (repeat split; repeat constructor; unfold one_line, nl; cbn; intuition discriminate).
  assert (Fv : fits v) by (repeat split; cbn; repeat constructor; cbn; lia).
  specialize (Q v Fv). unfold slice_lines in Q. cbn in Q. do 5 apply Forall_inv_tail in Q. apply Forall_inv in Q. discriminate.
Qed.

(** The numbers shown: if the view shows the number of iterated sums of every ISS
    and the number of features of every sieve of a slice, the number in the
    header is what [nfeatures()] returns. *)
Theorem C91_features : forall {T} `{Num T} (K : kit T) (W : lawful K) h sl s is svs v,
  nth_error (h_sl K h) sl = Some s -> objs (h_i K h) (sl_i s) is -> objs (h_s K h) (sl_s s) svs ->
  Forall2 (fun i iv => i_n K i = Ok (iv_n iv)) is (v_iss v) -> map (s_nf K) svs = map snd (v_sieves v) ->
  slice_nfeatures K sl h = (Ok (view_nfeatures v), h).
Proof.
  intros T HN K W h sl s is svs v Es Ri Rs Fi Fs.
  assert (Ri' : refs (eqI K W) (h_i K h) (sl_i s) is) by exact (@objs_refs _ _ (eqI_equiv K W) _ _ _ Ri).
  assert (Rs' : refs (eqS K W) (h_s K h) (sl_s s) svs) by exact (@objs_refs _ _ (eqS_equiv K W) _ _ _ Rs).
  rewrite (slice_nfeatures_eval K W h sl s is svs Es Ri' Rs'). unfold nsieves, view_nfeatures. rewrite Fs.
  assert (En : ev_ns K is = Ok (map iv_n (v_iss v))).
  { clear - Fi. unfold ev_ns. induction Fi as [|i iv is ivs E F IH]; [reflexivity|]. cbn. now rewrite E, IH. }
  now rewrite En.
Qed.
(** What a view says of a slice in the heap. *)
Definition shows {T} `{Num T} (K : kit T) (h : heap K) (sl : nat) (v : slice_view) : Prop :=
  exists s is svs, nth_error (h_sl K h) sl = Some s /\ objs (h_i K h) (sl_i s) is /\ objs (h_s K h) (sl_s s) svs /\
    Forall2 (fun i iv => i_n K i = Ok (iv_n iv)) is (v_iss v) /\ map (s_nf K) svs = map snd (v_sieves v).
(** The number in the header of the fruit is what [nfeatures()] of the fruit returns. *)
Theorem C91_fruit_features : forall {T} `{Num T} (K : kit T) (W : lawful K) h f x vs,
  nth_error (h_fr K h) f = Some x -> Forall2 (shows K h) (f_slices x) vs ->
  fruit_nfeatures K f h = (Ok (list_sum (map view_nfeatures vs)), h).
Proof.
  intros T HN K W h f x vs Ex F. unfold fruit_nfeatures. rewrite (bind_ok K _ _ h x h) by (unfold look; now rewrite Ex). clear Ex.
  assert (E : collect K (f_slices x) (slice_nfeatures K) h = (Ok (map view_nfeatures vs), h)).
  { induction F as [|sl v sls vs (s & is & svs & Es & Ri & Rs & Fi & Fs) F IH]; [reflexivity|]. cbn [collect map].
    rewrite (bind_ok K _ _ h _ h (C91_features K W h sl s is svs v Es Ri Rs Fi Fs)). now rewrite (bind_ok K _ _ h _ h IH). }
  now rewrite (bind_ok K _ _ h _ h E).
Qed.

(** A fruit named "t" with three slices of different sizes. *)
Definition ex_v1 : slice_view := {| v_preps := [str "INC"; str "STD"];
  v_iss := [ {| iv_str := str "ISS"; iv_n := 3; iv_words := 2; iv_semiring := str "Reals"; iv_weighting := Some (str "L1") |};
             {| iv_str := str "CosWISS"; iv_n := 2; iv_words := 1; iv_semiring := str "Reals"; iv_weighting := None |} ];
  v_sieves := [(str "NPI", 2); (str "END", 1)] |}.
Definition ex_v2 : slice_view := {| v_preps := []; v_iss := [ {| iv_str := str "ISS"; iv_n := 5; iv_words := 5; iv_semiring := str "Arctic"; iv_weighting := None |} ];
  v_sieves := [] |}.
Definition ex_v3 : slice_view := {| v_preps := [str "LAG"]; v_iss := v_iss ex_v2; v_sieves := [(str "MAX", 1)] |}.
Ltac nonl := unfold one_line, nl; cbn; intuition discriminate.
Example ex_plain : Forall plain [ex_v1; ex_v2; ex_v3].
Proof.
  repeat constructor; cbn; try nonl; intros w E; try discriminate. injection E as <-. nonl.
Qed.
Example ex_fits : Forall fits [ex_v1; ex_v2; ex_v3] /\ Forall (fun v => v_iss v <> []) [ex_v1; ex_v2; ex_v3].
Proof.
  split; [|repeat constructor; discriminate].
  assert (B : forall a b, (a <=? b) = true -> a <= b) by (intros a b; apply Nat.leb_le).
  assert (I : forall is, forallb (fun i => (length (iv_str i) + length (str_nat (iv_n i)) <=? 28) && (length (str_nat (iv_words i)) <=? 22) &&
      (length (iv_semiring i) <=? 19) && match iv_weighting i with None => true | Some w => length w <=? 18 end) is = true ->
    Forall (fun i => length (iv_str i) + length (str_nat (iv_n i)) <= 28 /\ length (str_nat (iv_words i)) <= 22 /\ length (iv_semiring i) <= 19 /\
                   forall w, iv_weighting i = Some w -> length w <= 18) is).
  { intros is E. apply Forall_forall. intros i Hi. rewrite forallb_forall in E. specialize (E i Hi). rewrite !andb_true_iff in E.
    destruct E as (((E1 & E2) & E3) & E4). repeat split; [now apply B ..|]. intros w Ew. rewrite Ew in E4. now apply B. }
  assert (P : forall l, forallb (fun p : pystr => length p <=? 32) l = true -> Forall (fun p => length p <= 32) l).
  { intros l E. apply Forall_forall. intros p Hp. rewrite forallb_forall in E. apply B, E, Hp. }
  assert (S : forall l, forallb (fun s : pystr * nat => length (fst s) + length (str_nat (snd s)) <=? 28) l = true ->
    Forall (fun s => length (fst s) + length (str_nat (snd s)) <= 28) l).
  { intros l E. apply Forall_forall. intros p Hp. rewrite forallb_forall in E. apply B, (E p Hp). }
  constructor; [|constructor; [|constructor; [|constructor]]];
    (split; [apply P; reflexivity|split; [apply S; reflexivity|split; [apply I; reflexivity|]]]; repeat split; apply B; reflexivity).
Qed.
Example ex_text : nth 1 (split_on nl (fruit_summary (Some (str "'t'")) [ex_v1; ex_v2; ex_v3])) [] = str "<                          Fruit 't' -> Features: 23                           >" /\
  nth 4 (split_on nl (fruit_summary (Some (str "'t'")) [ex_v1; ex_v2; ex_v3])) [] = str "|           FruitSlice -> 18           ||           FruitSlice -> 0            |" /\
  length (split_on nl (fruit_summary (Some (str "'t'")) [ex_v1; ex_v2; ex_v3])) = 36.
Proof. vm_compute. repeat split. Qed.

Print Assumptions C91_slice_lines.
Print Assumptions C91_slice_width.
Print Assumptions C91_fruit_lines.
Print Assumptions C91_fruit_width.
Print Assumptions C91_no_iss_refuted.
Print Assumptions C91_features.
Print Assumptions C91_fruit_features.
