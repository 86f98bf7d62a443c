(** C26: labels of features. *)
From Coq Require Import Ascii String List Arith ZArith Bool RelationClasses Lia.
From Verif Require Import Num Arr M_Str M_Words M_Np M_Prep M_Fruit S_Fruit L_Arr L_Str L_Fruit L_Fruit2 L_Fruit3 L_Fruit4 L_Fruit5 L_Fruit6 L_Fruit7 L_Fruit8 P_Fruit2.
Import ListNotations.

Section C26.
Context {T : Type} `{Num T}.
Variable K : kit T.
Variable W : lawful K.
Notation heap := (heap K).
Local Instance eP7 : Equivalence (eqP K W) := eqP_equiv K W.
Local Instance eI7 : Equivalence (eqI K W) := eqI_equiv K W.
Local Instance eS7 : Equivalence (eqS K W) := eqS_equiv K W.

(** ** The text of a label *)
(** "p1 -> p2 | i1 -> i2 | f": the labels of the preparateurs, the labels of
    the iterated sums and the label of the sieve's feature.  With verbosity 1,
    the label of a preparateur ends before the first "(" and the label of an
    iterated sum before the first " : ". *)
Definition path (l : list pystr) : pystr := join (str " -> ") l.
Definition part (l : list pystr) : list pystr := match l with [] => [] | _ => [path l] end.
Definition label_text (v1 : bool) (ps is : list pystr) (f : list pystr) : pystr :=
  join (str " | ") (part (map (short v1 (str "(")) ps) ++ part (map (short v1 (str " : ")) is) ++ f).
(** The labels of the iterated sums number js of the ISS is. *)
Definition sum_labels (is : list (issT K)) (js : list nat) : res (list pystr) :=
  mapM (fun ij => i_label K (fst ij) (snd ij)) (combine is js).

(** ** Strings *)
Lemma drop4_arrow s : drop4 (s ++ str " -> ") = s.
Proof. unfold drop4. rewrite app_length. change (length (str " -> ")) with 4. replace (length s + 4 - 4) with (length s) by lia. rewrite firstn_app, Nat.sub_diag, firstn_all. cbn. apply app_nil_r. Qed.
Lemma arrows l : l <> [] -> concat (map (fun s => s ++ str " -> ") l) = path l ++ str " -> ".
Proof.
  induction l as [|a [|b l] IH]; intros N; [contradiction|cbn; now rewrite app_nil_r|].
  cbn [map concat]. cbn [map concat] in IH. rewrite IH by discriminate. unfold path. rewrite join_cons2. now rewrite <- !app_assoc.
Qed.
Lemma arrows_ne l : l <> [] -> concat (map (fun s => s ++ str " -> ") l) <> [].
Proof. intros N E. rewrite arrows in E by exact N. destruct (path l); discriminate. Qed.
Lemma match_ne {A B} (l : list A) (a : B) (b : list A -> B) : l <> [] -> match l with [] => a | _ => b l end = b l.
Proof. destruct l; [contradiction|reflexivity]. Qed.

(** ** The parts *)
Lemma label_preps_eval h ids ps v1 : objs (h_p K h) ids ps ->
  label_preps K v1 ids h = (Ok (concat (map (fun s => s ++ str " -> ") (map (short v1 (str "(")) (map (p_label K) ps)))), h).
Proof.
  intros O. unfold label_preps.
  assert (E : collect K ids (fun id => bindM K (look K (h_p K) id) (fun p => ret K (short v1 (str "(") (p_label K p) ++ str " -> "))) h = (Ok (map (fun s => s ++ str " -> ") (map (short v1 (str "(")) (map (p_label K) ps))), h)).
  { induction O as [|id p ids ps Hp O IH]; [reflexivity|]. cbn [collect map]. unfold bindM at 1 2. unfold look at 1. rewrite Hp. unfold ret at 1.
    unfold bindM at 1. rewrite IH. reflexivity. }
  now rewrite (bind_ok K _ _ _ _ _ E).
Qed.
Lemma label_iss_eval h v1 ids is ns js index : objs (h_i K h) ids is -> Forall2 (fun i n => i_n K i = Ok n) is ns -> Forall2 lt js ns ->
  index mod (fold_right Nat.mul 1 ns) = radix ns js ->
  label_iss K v1 ids index (fold_right Nat.mul 1 ns) h =
  (let! ls := sum_labels is js in Ok (concat (map (fun s => s ++ str " -> ") (map (short v1 (str " : ")) ls))), h).
Proof.
  intros O Fn Fj. revert ids O js Fj. induction Fn as [|i n is ns Hn Fn IH]; intros ids O js Fj E.
  - inversion O; subst. inversion Fj; subst. reflexivity.
  - inversion O as [|id ? ids' ? Hi O']; subst. inversion Fj as [|j ? js' ? Hj Fj']; subst. cbn [label_iss].
    rewrite (bind_ok K _ _ h i h) by (unfold look; now rewrite Hi). rewrite (bind_ok K _ _ h n h) by (unfold liftR; now rewrite Hn).
    pose proof (prod_pos js' ns Fj') as Pp. cbn [fold_right] in *. set (P := fold_right Nat.mul 1 ns) in *.
    assert (N1 : (n * P =? 0) = false) by (apply Nat.eqb_neq; nia). assert (N2 : (n =? 0) = false) by (apply Nat.eqb_neq; lia). rewrite N1, N2. cbn [orb].
    assert (Q : n * P / n = P) by (rewrite Nat.mul_comm; apply Nat.div_mul; lia). rewrite Q, E. cbn [radix]. fold P.
    pose proof (radix_lt ns js' Fj') as Lr. fold P in Lr.
    assert (D : (j * P + radix ns js') / P = j). { rewrite Nat.add_comm, Nat.div_add by lia. rewrite Nat.div_small by exact Lr. lia. }
    rewrite D. unfold sum_labels. cbn [combine mapM fst snd]. destruct (i_label K i j) as [l|e]; [|reflexivity].
    rewrite (bind_ok K _ _ h l h) by reflexivity. cbn [bind].
    assert (E' : index mod P = radix ns js').
    { rewrite (Nat.mul_comm n P) in E. pose proof (Nat.mod_mul_r index P n ltac:(lia) ltac:(lia)) as M1. rewrite M1 in E. cbn [radix] in E. fold P in E.
      assert (index mod P < P) by (apply Nat.mod_upper_bound; lia). 
      assert (M2 : (index mod P + P * ((index / P) mod n)) mod P = (j * P + radix ns js') mod P) by (now rewrite E).
      rewrite (Nat.mul_comm P), Nat.mod_add in M2 by lia. rewrite Nat.mod_mod in M2 by lia. rewrite (Nat.add_comm (j * P)), Nat.mod_add in M2 by lia. rewrite M2. now apply Nat.mod_small. }
    specialize (IH ids' O' js' Fj' E'). unfold sum_labels in IH. destruct (mapM _ (combine is js')) as [ls|e]; cbn [bind] in *.
    + rewrite (bind_ok K _ _ _ _ _ IH). unfold ret. cbn [map concat]. now rewrite <- app_assoc.
    + now rewrite (bind_err K _ _ _ _ _ IH).
Qed.
Lemma label_sieves_eval h ids svs j v r : objs (h_s K h) ids svs -> nth_error svs j = Some v -> r < s_nf K v ->
  label_sieves K ids (list_sum (firstn j (map (s_nf K) svs)) + r) h = (s_label K v r, h).
Proof.
  intros O. revert j. induction O as [|id s ids svs Hs O IH]; intros j Ej Hr; [destruct j; discriminate|]. cbn [label_sieves].
  rewrite (bind_ok K _ _ h s h) by (unfold look; now rewrite Hs). destruct j as [|j].
  - injection Ej as ->. cbn [firstn map list_sum fold_right Nat.add]. apply Nat.ltb_lt in Hr. change (list_sum []) with 0. cbn [Nat.add]. rewrite Hr. reflexivity.
  - cbn [map firstn]. change (list_sum (s_nf K s :: firstn j (map (s_nf K) svs))) with (s_nf K s + list_sum (firstn j (map (s_nf K) svs))).
    destruct (Nat.ltb_spec (s_nf K s + list_sum (firstn j (map (s_nf K) svs)) + r) (s_nf K s)) as [L|L]; [lia|].
    replace (s_nf K s + list_sum (firstn j (map (s_nf K) svs)) + r - s_nf K s) with (list_sum (firstn j (map (s_nf K) svs)) + r) by lia. now apply IH.
Qed.
Lemma mapM_len {A B} (f : A -> res B) l r : mapM f l = Ok r -> length r = length l.
Proof. intros E. apply mapM_Forall2 in E. symmetry. eapply Forall2_len, E. Qed.
Lemma label_text_one v1 ps is f : is <> [] -> 
  let p := concat (map (fun s => s ++ str " -> ") (map (short v1 (str "(")) ps)) in
  (match p with [] => [] | _ => drop4 p ++ str " | " end) ++ path (map (short v1 (str " : ")) is) ++ concat (map (fun x => str " | " ++ x) f) = label_text v1 ps is f.
Proof.
  intros N p. unfold label_text. assert (Ei : part (map (short v1 (str " : ")) is) = [path (map (short v1 (str " : ")) is)]) by (destruct is; [contradiction|reflexivity]). rewrite Ei.
  assert (J : forall a l, join (str " | ") (a :: l) = a ++ concat (map (fun x => str " | " ++ x) l)).
  { clear. intros a l. revert a. induction l as [|b l IH]; intros a; [cbn; now rewrite app_nil_r|]. rewrite join_cons2, IH. cbn [map concat]. now rewrite <- !app_assoc. }
  destruct ps as [|p0 ps].
  - cbn [map part app]. rewrite J. reflexivity.
  - subst p. set (l := map (short v1 (str "(")) (p0 :: ps)). assert (Nl : l <> []) by discriminate.
    assert (Ep : part l = [path l]) by reflexivity. rewrite Ep.
    rewrite (match_ne (concat (map (fun s => s ++ str " -> ") l)) [] (fun x => drop4 x ++ str " | ")) by (now apply arrows_ne).
    rewrite arrows by exact Nl. rewrite drop4_arrow. cbn [app]. rewrite J. cbn [map concat]. now rewrite <- !app_assoc.
Qed.

(** ** Slices *)
Section Slice.
Variables (h : heap) (sl : nat) (s : slice) (ps : list (prepT K)) (is : list (issT K)) (svs : list (sieveT K)) (ns js : list nat).
Hypothesis Es : nth_error (h_sl K h) sl = Some s.
Hypothesis Op : objs (h_p K h) (sl_p s) ps.
Hypothesis Oi : objs (h_i K h) (sl_i s) is.
Hypothesis Os : objs (h_s K h) (sl_s s) svs.
Hypothesis Ni : is <> [].
Hypothesis Fn : Forall2 (fun i n => i_n K i = Ok n) is ns.
Hypothesis Fj : Forall2 lt js ns.

Lemma labels_ne ls : sum_labels is js = Ok ls -> ls <> [].
Proof.
  intros E Nl. apply mapM_len in E. subst ls. rewrite combine_length in E. rewrite (Forall2_len _ _ _ Fj), <- (Forall2_len _ _ _ Fn), Nat.min_id in E. destruct is; [contradiction|discriminate].
Qed.
Lemma n_eval : niteratedsums K sl h = (Ok (fold_right Nat.mul 1 ns), h).
Proof.
  rewrite (niteratedsums_eval K W h sl s is Es (objs_refs (eqI K W) _ _ _ Oi)). apply ev_ns_ok in Fn. now rewrite Fn.
Qed.
Lemma tot_eval : sum_nf K (sl_s s) h = (Ok (list_sum (map (s_nf K) svs)), h).
Proof. apply (sum_nf_eval K W). exact (objs_refs (eqS K W) _ _ _ Os). Qed.
(** Label of a feature. *)
Lemma slice_label_features v1 j v r : nth_error svs j = Some v -> r < s_nf K v ->
  let nfs := map (s_nf K) svs in
  slice_label K sl (radix ns js * list_sum nfs + list_sum (firstn j nfs) + r) LvFeatures v1 h =
  (let! ls := sum_labels is js in let! f := s_label K v r in Ok (label_text v1 (map (p_label K) ps) ls [f]), h).
Proof.
  intros Ej Hr nfs. unfold slice_label. rewrite (bind_ok K _ _ h s h) by (unfold look; now rewrite Es).
  rewrite (bind_ok K _ _ _ _ _ (label_preps_eval h (sl_p s) ps v1 Op)). rewrite (bind_ok K _ _ _ _ _ tot_eval). fold nfs.
  assert (Hj : nth j nfs 0 = s_nf K v) by (unfold nfs; erewrite nth_error_nth; [reflexivity|]; now apply map_nth_error).
  assert (Lo : list_sum (firstn j nfs) + r < list_sum nfs) by (apply offset_lt; rewrite Hj; exact Hr).
  assert (Di : (radix ns js * list_sum nfs + list_sum (firstn j nfs) + r) / list_sum nfs = radix ns js).
  { rewrite <- Nat.add_assoc, Nat.add_comm, Nat.div_add by lia. rewrite Nat.div_small by exact Lo. lia. }
  assert (Mo : (radix ns js * list_sum nfs + list_sum (firstn j nfs) + r) mod list_sum nfs = list_sum (firstn j nfs) + r).
  { rewrite <- Nat.add_assoc, Nat.add_comm, Nat.mod_add by lia. now apply Nat.mod_small. }
  cbv zeta. rewrite Di, Mo. assert (N0 : (list_sum nfs =? 0) = false) by (apply Nat.eqb_neq; lia). rewrite N0.
  rewrite (bind_ok K _ _ _ _ _ n_eval).
  pose proof (label_iss_eval h v1 (sl_i s) is ns js (radix ns js) Oi Fn Fj (Nat.mod_small _ _ (radix_lt ns js Fj))) as El.
  destruct (sum_labels is js) as [ls|e] eqn:Esl; cbn [bind] in El |- *; [|now rewrite (bind_err K _ _ _ _ _ El)].
  rewrite (bind_ok K _ _ _ _ _ El). pose proof (label_sieves_eval h (sl_s s) svs j v r Os Ej Hr) as Ef. fold nfs in Ef.
  destruct (s_label K v r) as [f|e]; [|now rewrite (bind_err K _ _ _ _ _ Ef)]. rewrite (bind_ok K _ _ _ _ _ Ef). unfold ret. cbn [bind]. do 2 f_equal.
  pose proof (labels_ne ls Esl) as Nl. assert (Nl' : map (short v1 (str " : ")) ls <> []) by (destruct ls; [contradiction|discriminate]).
  rewrite <- (label_text_one v1 (map (p_label K) ps) ls [f] Nl). cbv zeta. cbn [map concat]. rewrite app_nil_r.
  set (pre := match concat _ with [] => [] | _ => _ end). rewrite arrows by exact Nl'.
  assert (Nst : pre ++ path (map (short v1 (str " : ")) ls) ++ str " -> " <> []).
  { intros E. apply app_eq_nil in E as (_ & E). apply app_eq_nil in E as (_ & E). discriminate. }
  rewrite (match_ne _ [] (fun x => drop4 x ++ str " | ") Nst). rewrite app_assoc, drop4_arrow. now rewrite <- !app_assoc.
Qed.
(** Label of an iterated sum. *)
Lemma slice_label_sums v1 :
  slice_label K sl (radix ns js) LvSums v1 h = (let! ls := sum_labels is js in Ok (label_text v1 (map (p_label K) ps) ls []), h).
Proof.
  unfold slice_label. rewrite (bind_ok K _ _ h s h) by (unfold look; now rewrite Es).
  rewrite (bind_ok K _ _ _ _ _ (label_preps_eval h (sl_p s) ps v1 Op)). rewrite (bind_ok K _ _ _ _ _ tot_eval). cbv zeta beta iota.
  rewrite (bind_ok K _ _ _ _ _ n_eval).
  pose proof (label_iss_eval h v1 (sl_i s) is ns js (radix ns js) Oi Fn Fj (Nat.mod_small _ _ (radix_lt ns js Fj))) as El.
  destruct (sum_labels is js) as [ls|e] eqn:Esl; cbn [bind] in El |- *; [|now rewrite (bind_err K _ _ _ _ _ El)].
  rewrite (bind_ok K _ _ _ _ _ El). unfold ret. do 2 f_equal.
  pose proof (labels_ne ls Esl) as Nl. assert (Nl' : map (short v1 (str " : ")) ls <> []) by (destruct ls; [contradiction|discriminate]).
  etransitivity; [|exact (label_text_one v1 (map (p_label K) ps) ls [] Nl)]. cbv zeta. cbn [map concat]. rewrite app_nil_r.
  set (pre := match concat _ with [] => [] | _ => _ end). rewrite arrows by exact Nl'. unfold or_input.
  assert (Nst : pre ++ path (map (short v1 (str " : ")) ls) ++ str " -> " <> []).
  { intros E. apply app_eq_nil in E as (_ & E). apply app_eq_nil in E as (_ & E). discriminate. }
  rewrite (match_ne _ (str "input") drop4 Nst). rewrite app_assoc, drop4_arrow. reflexivity.
Qed.
End Slice.
(** Label of prepared data: the first [index + 1] preparateurs. *)
Theorem slice_label_prepared h sl s ps index v1 :
  nth_error (h_sl K h) sl = Some s -> objs (h_p K h) (sl_p s) ps ->
  slice_label K sl index LvPrepared v1 h =
  (if index <? length ps then Ok (path (map (short v1 (str "(")) (map (p_label K) (firstn (index + 1) ps)))) else Err IndexError, h).
Proof.
  intros Es Op. unfold slice_label. rewrite (bind_ok K _ _ h s h) by (unfold look; now rewrite Es). rewrite (Forall2_len _ _ _ Op).
  destruct (Nat.ltb_spec index (length ps)) as [L|L]; destruct (Nat.leb_spec (length ps) index) as [L'|L']; try lia; [|reflexivity].
  assert (Of : objs (h_p K h) (firstn (index + 1) (sl_p s)) (firstn (index + 1) ps)).
  { clear - Op. revert Op. generalize (index + 1). generalize (sl_p s). intros l n F. revert n. induction F as [|x y l ps Hxy F IH]; intros [|n]; cbn; constructor; auto. apply IH. }
  rewrite (bind_ok K _ _ _ _ _ (label_preps_eval h _ _ v1 Of)). unfold ret. do 2 f_equal.
  set (l := map (short v1 (str "(")) (map (p_label K) (firstn (index + 1) ps))). assert (Nl : l <> []).
  { unfold l. destruct ps as [|p ps]; [cbn in L; lia|]. rewrite Nat.add_1_r. discriminate. }
  unfold or_input. rewrite (match_ne _ (str "input") drop4 (arrows_ne l Nl)). now rewrite arrows, drop4_arrow.
Qed.

(** ** C26 for slices *)
(** For every column of a slice's feature matrix there is exactly one choice
    of iterated sum js and feature r of sieve j; the column contains this
    feature and the label of the column's number is composed of the labels of
    the preparateurs, of the iterated sum js and of this feature. *)
Theorem slice_label_names_column h sl s X cbs cache A h' ps is svs v1 :
  reachable K h -> nth_error (h_sl K h) sl = Some s -> shaped K h s -> cache_rows cache X ->
  objs (h_p K h) (sl_p s) ps -> objs (h_i K h) (sl_i s) is -> objs (h_s K h) (sl_s s) svs ->
  slice_transform K sl X cbs cache h = (Ok A, h') ->
  let c := match cache with Some c => c | None => X end in
  exists N, slice_nfeatures K sl h = (Ok N, h) /\ forall k, k < N ->
  exists Y ns js Z svk j v r R, prepared K c ps X Y /\ Forall2 (fun i n => i_n K i = Ok n) is ns /\ Forall2 lt js ns /\
    itsum K (map (i_attach K c) is) js Y Z /\ objs (h_s K h) (sieves_for s (radix ns js)) svk /\ nth_error svk j = Some v /\ r < s_nf K v /\
    fst (s_transform K Z (s_attach K c v)) = Ok R /\ column A k = column R r /\
    slice_label K sl k LvFeatures v1 h = (let! ls := sum_labels is js in let! f := s_label K v r in Ok (label_text v1 (map (p_label K) ps) ls [f]), h).
Proof.
  intros Re Es Sh Cf Op Oi Os E c.
  destruct (slice_features K W h sl s X cbs cache A h' ps is svs Re Es Sh Cf Op Oi Os E) as (Y & ns & A1 & A2 & A3 & A4 & A5 & A6). fold c in A1, A6.
  exists (fold_right Nat.mul 1 ns * list_sum (map (s_nf K) svs)). split; [exact A3|]. intros k Hk.
  destruct (feature_numbers_unique ns (map (s_nf K) svs) k Hk) as (js & j & r & (Fj & Hr & Ek) & _).
  destruct (A6 js Fj) as (Z & svk & B1 & B2 & B3 & B4 & B5).
  assert (Lj : j < length svs). { destruct (le_lt_dec (length svs) j) as [L|L]; [|exact L]. rewrite nth_overflow in Hr by (rewrite map_length; exact L). lia. }
  assert (Lk : length svk = length svs) by (apply (f_equal (@length nat)) in B3; now rewrite !map_length in B3).
  destruct (nth_error svk j) as [v|] eqn:Ev; [|apply nth_error_None in Ev; lia]. destruct (nth_error svs j) as [v'|] eqn:Ev'; [|apply nth_error_None in Ev'; lia].
  assert (Nf : s_nf K v = s_nf K v').
  { apply (f_equal (fun l => nth_error l j)) in B3. rewrite !nth_error_map, Ev, Ev' in B3. now injection B3. }
  assert (Lb : s_label K v = s_label K v').
  { apply (f_equal (fun l => nth_error l j)) in B4. rewrite !nth_error_map, Ev, Ev' in B4. now injection B4. }
  assert (Hr' : r < s_nf K v'). { erewrite nth_error_nth in Hr; [exact Hr|]. now apply map_nth_error. }
  rewrite <- Nf in Hr'. destruct (B5 j v r Ev Hr') as (R & E1 & E2). rewrite <- Ek in E2.
  assert (Ni : is <> []).
  { pose proof (reachable_wf K W h Re) as Wf. assert (Fs : sl_fitted s = true).
    { unfold slice_transform in E. rewrite (bind_ok K _ _ h s h) in E by (unfold look; now rewrite Es). destruct (sl_fitted s); [reflexivity|discriminate]. }
    destruct (proj1 Wf sl s Es) as (_ & _ & Rr). destruct (Rr Fs) as (Ne & _). intros ->. inversion Oi. congruence. }
  exists Y, ns, js, Z, svk, j, v, r, R. do 9 (split; [assumption|]). rewrite Lb, Ek.
  apply (slice_label_features h sl s ps is svs ns js); try assumption. congruence.
Qed.
(** C26 for iterated sums. *)
Theorem slice_label_names_sum h sl s ps is svs ns v1 :
  nth_error (h_sl K h) sl = Some s ->
  objs (h_p K h) (sl_p s) ps -> objs (h_i K h) (sl_i s) is -> objs (h_s K h) (sl_s s) svs -> is <> [] ->
  Forall2 (fun i n => i_n K i = Ok n) is ns ->
  niteratedsums K sl h = (Ok (fold_right Nat.mul 1 ns), h) /\
  forall k, k < fold_right Nat.mul 1 ns -> exists js, Forall2 lt js ns /\ radix ns js = k /\
    slice_label K sl k LvSums v1 h = (let! ls := sum_labels is js in Ok (label_text v1 (map (p_label K) ps) ls []), h).
Proof.
  intros Es Op Oi Os Ni Fn. split; [eapply n_eval; eassumption|]. intros k Hk. destruct (radix_ex ns k Hk) as (js & Fj & Er).
  exists js. split; [exact Fj|]. split; [exact Er|]. rewrite <- Er. eapply slice_label_sums; eassumption.
Qed.

(** ** C26 for fruits *)
Definition level_size (h : heap) (lv : level) (sl : nat) (n : nat) : Prop :=
  match lv with
  | LvPrepared => exists s, nth_error (h_sl K h) sl = Some s /\ n = length (sl_p s)
  | LvSums => niteratedsums K sl h = (Ok n, h)
  | LvFeatures => slice_nfeatures K sl h = (Ok n, h)
  end.
(** Number k of a fruit is number q of the slice it falls into; negative
    numbers raise RuntimeError, numbers that are too large IndexError. *)
Theorem fruit_label_slices h f x lv v1 ws :
  nth_error (h_fr K h) f = Some x -> Forall2 (level_size h lv) (f_slices x) ws ->
  (forall m sl w q, nth_error (f_slices x) m = Some sl -> nth_error ws m = Some w -> q < w ->
     fruit_label K f (Z.of_nat (list_sum (firstn m ws) + q)) lv v1 h = slice_label K sl q lv v1 h) /\
  (forall z, (z < 0)%Z -> fruit_label K f z lv v1 h = (Err RuntimeError, h)) /\
  (forall k, list_sum ws <= k -> fruit_label K f (Z.of_nat k) lv v1 h = (Err IndexError, h)).
Proof.
  intros Ex F.
  assert (Tot : forall sl w, level_size h lv sl w -> (match lv with LvPrepared => bindM K (look K (h_sl K) sl) (fun s => ret K (length (sl_p s))) | LvSums => niteratedsums K sl | LvFeatures => slice_nfeatures K sl end) h = (Ok w, h)).
  { intros sl w. unfold level_size. destruct lv; [|auto|auto]. intros (s & Hs & ->). unfold bindM, look. now rewrite Hs. }
  assert (St : forall z, (0 <= z)%Z -> fruit_label K f z lv v1 h = fruit_label_from K (f_slices x) (Z.to_nat z) lv v1 h).
  { intros z Hz. unfold fruit_label. rewrite (bind_ok K _ _ h x h) by (unfold look; now rewrite Ex). destruct (Z.ltb_spec z 0); [lia|reflexivity]. }
  split; [|split].
  - intros m sl w q Em Ew Hq. rewrite St by lia. rewrite Nat2Z.id. clear St Ex. revert m Em Ew. induction F as [|sl0 w0 l ws H0 F IH]; intros m Em Ew; [destruct m; discriminate|].
    cbn [fruit_label_from]. rewrite (bind_ok K _ _ _ _ _ (Tot sl0 w0 H0)). destruct m as [|m].
    + injection Em as ->. injection Ew as ->. cbn [firstn]. change (list_sum []) with 0. cbn [Nat.add]. apply Nat.ltb_lt in Hq. now rewrite Hq.
    + cbn [firstn]. change (list_sum (w0 :: firstn m ws)) with (w0 + list_sum (firstn m ws)).
      destruct (Nat.ltb_spec (w0 + list_sum (firstn m ws) + q) w0); [lia|]. replace (w0 + list_sum (firstn m ws) + q - w0) with (list_sum (firstn m ws) + q) by lia. now apply IH.
  - intros z Hz. unfold fruit_label. rewrite (bind_ok K _ _ h x h) by (unfold look; now rewrite Ex). destruct (Z.ltb_spec z 0); [reflexivity|lia].
  - intros k Hk. rewrite St by lia. rewrite Nat2Z.id. clear St Ex. revert k Hk. induction F as [|sl0 w0 l ws H0 F IH]; intros k Hk; [reflexivity|].
    cbn [fruit_label_from]. rewrite (bind_ok K _ _ _ _ _ (Tot sl0 w0 H0)). change (list_sum (w0 :: ws)) with (w0 + list_sum ws) in Hk.
    destruct (Nat.ltb_spec k w0); [lia|]. apply IH. lia.
Qed.
End C26.
Print Assumptions slice_label_names_column.
Print Assumptions slice_label_names_sum.
Print Assumptions slice_label_prepared.
Print Assumptions fruit_label_slices.
