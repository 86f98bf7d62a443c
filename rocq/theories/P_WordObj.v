(** C61-C65: general words and extended letters as objects. *)
From Coq Require Import Ascii String List Arith ZArith Bool Lia.
From Verif Require Import Num Arr M_Str M_Semiring M_Words M_Fruit M_WordObj L_Arr L_Str L_Fruit L_Fruit3 L_Tuples L_WordObj.
Import ListNotations.

Lemma f2_length {A B} (R : A -> B -> Prop) l m : Forall2 R l m -> length l = length m.
Proof. induction 1; cbn; congruence. Qed.

Section Words.
Context {T : Type} `{Num T}.

(** [whist h]: [h] is the state after some finite series of calls (each of
    which returned or raised) on a fresh import of the library. *)

(** ** C61: the printed word *)

(** The letters of a word are a list of (name, dimension) pairs, all names are
    registered, and string and computed letters both come from that list. *)
Theorem C61_string_tells_letters h w : whist h ->
  exists ws : list eletter,
    (forall el nd, In el ws -> In nd el -> reg_get (w_reg h) (fst nd) <> None)
    /\ word_str h w = str_word ws
    /\ word_val h w = bind_word (reg_get (w_reg h)) ws.
Proof.
  intros Hh. apply whist_inv in Hh as Hi. unfold word_str, word_val. rewrite word_els_ids.
  pose proof (inv_ids h w Hi) as F. induction F as [|e l Le F (ws & I1 & I2 & I3)].
  - exists []. split; [intros ? ? []|split; reflexivity].
  - destruct Hi as (A & _). rewrite Forall_forall in A.
    destruct (A (nth e (w_els h) el_fresh)) as (nds & R & D & G); [now apply nth_In|].
    exists (nds :: ws). split; [|split].
    + intros el nd [<-|Iel] Ind; [|eauto]. clear - G Ind. induction G as [|a b la lb E G IH]; [destruct Ind|].
      destruct Ind as [<-|Ind]; [congruence|auto].
    + cbn. rewrite I2. f_equal. unfold eo_str, str_el. now rewrite R.
    + cbn. rewrite I3. f_equal. unfold eo_bound, bind_el. rewrite D. clear - G.
      induction G as [|a b la lb E G IH]; [reflexivity|]. cbn. rewrite E. f_equal. exact IH.
Qed.

(** Reading back what a word prints gives a new word with the same letters and
    the same string; nothing else changes. *)
Theorem C61_parse_print h w fuel : whist h -> plain (w_reg h) -> w < length (w_words h) ->
  exists h', wexec fuel (WNewWord (Some (word_str h w))) h = Some (Ok tt, h')
    /\ length (w_words h') = S (length (w_words h))
    /\ word_str h' (length (w_words h)) = word_str h w
    /\ word_val h' (length (w_words h)) = word_val h w
    /\ (forall v, v < length (w_words h) -> word_str h' v = word_str h v /\ word_val h' v = word_val h v).
Proof.
  intros Hh P Lw. apply whist_inv in Hh as Hi.
  set (os := word_els h w).
  assert (Fo : Forall (honest (w_reg h)) os).
  { unfold os. rewrite word_els_ids. apply Forall_map. pose proof (inv_ids h w Hi) as F.
    eapply Forall_impl; [|exact F]. cbn. intros e Le. destruct Hi as (A & _). rewrite Forall_forall in A. apply A. now apply nth_In. }
  set (h1 := with_words (w_words h ++ [wfresh]) h).
  assert (M : mul_raws (length (w_words h)) (raws_of (word_str h w)) h1
     = (Ok tt, mul_ids (length (w_words h)) (seq (length (w_els h)) (length os)) (with_els (w_els h ++ map eo_copy os) h1))).
  { unfold word_str. fold os. rewrite (raws_print (w_reg h) os P Fo).
    rewrite (mul_raws_ok (length (w_words h)) h1 _ (map eo_copy os)).
    - rewrite map_length. reflexivity.
    - cbn [w_reg h1 with_words]. clear - Fo P. induction Fo; constructor; [|assumption]. cbn. now apply build_honest. }
  eexists. split; [|split; [|split; [|split]]].
  - cbn [wexec]. fold (@wfresh T). fold h1. rewrite M. reflexivity.
  - rewrite mul_ids_len. cbn. rewrite app_length. cbn. lia.
  - unfold word_str. rewrite word_els_ids, mul_ids_els, ids_mul_same by (cbn; rewrite app_length; cbn; lia).
    replace (ids (with_els (w_els h ++ map eo_copy os) h1) (length (w_words h))) with (@nil nat)
      by (unfold ids; cbn; rewrite nth_error_app2, Nat.sub_diag by lia; reflexivity).
    cbn [app w_els with_els]. fold os. clear.
    rewrite flat_map_concat_map, map_map, (flat_map_concat_map _ os). f_equal.
    enough (G : forall (pre l : list (elobj T)), map (fun e => eo_str (nth e (pre ++ map eo_copy l) el_fresh)) (seq (length pre) (length l)) = map eo_str l)
      by apply (G (w_els h) os).
    intros pre l. revert pre. induction l as [|o l IH]; intros pre; [reflexivity|]. cbn [length seq map].
    rewrite app_nth2, Nat.sub_diag by lia. f_equal. specialize (IH (pre ++ [eo_copy o])).
    rewrite app_length, <- app_assoc in IH. cbn in IH. rewrite Nat.add_1_r in IH. exact IH.
  - unfold word_val. rewrite word_els_ids, mul_ids_els, ids_mul_same by (cbn; rewrite app_length; cbn; lia).
    replace (ids (with_els (w_els h ++ map eo_copy os) h1) (length (w_words h))) with (@nil nat)
      by (unfold ids; cbn; rewrite nth_error_app2, Nat.sub_diag by lia; reflexivity).
    cbn [app w_els with_els]. fold os. clear. rewrite map_map.
    enough (G : forall (pre l : list (elobj T)), map (fun e => eo_bound (nth e (pre ++ map eo_copy l) el_fresh)) (seq (length pre) (length l)) = map eo_bound l)
      by apply (G (w_els h) os).
    intros pre l. revert pre. induction l as [|o l IH]; intros pre; [reflexivity|]. cbn [length seq map].
    rewrite app_nth2, Nat.sub_diag by lia. f_equal. specialize (IH (pre ++ [eo_copy o])).
    rewrite app_length, <- app_assoc in IH. cbn in IH. rewrite Nat.add_1_r in IH. exact IH.
  - intros v Lv. unfold word_str, word_val. rewrite !word_els_ids, mul_ids_els, ids_mul_other by lia.
    replace (ids (with_els (w_els h ++ map eo_copy os) h1) v) with (ids h v)
      by (unfold ids; cbn; now rewrite nth_error_app1).
    cbn [w_els with_els].
    replace (map (fun e => nth e (w_els h ++ map eo_copy os) el_fresh) (ids h v)) with (map (fun e => nth e (w_els h) el_fresh) (ids h v)); [auto|].
    apply map_ext_in. intros e Ie. pose proof (inv_ids h v Hi) as F. rewrite Forall_forall in F. now rewrite app_nth1 by auto.
Qed.

(** Two words (of two moments of one history) with the same string have the
    same letters: the string is a key for what a word computes. *)
Inductive later : wheap T -> wheap T -> Prop :=
| later0 h : later h h
| laterS h1 h2 fuel op x h3 : later h1 h2 -> wexec fuel op h2 = Some (x, h3) -> later h1 h3.

Lemma later_whist h h' : later h h' -> whist h -> whist h'.
Proof. induction 1 as [|h1 h2 fuel op x h3 _ IH E]; intros Hh; [exact Hh|]. exact (whS h2 fuel op x h3 (IH Hh) E). Qed.
Lemma later_reg h h' : later h h' -> exists l, w_reg h' = w_reg h ++ l.
Proof.
  induction 1 as [|h1 h2 fuel op x h3 _ (l & IH) E]; [exists []; now rewrite app_nil_r|].
  apply step_reg in E as [R|(n & f & _ & _ & _ & R)]; rewrite R, IH; [eauto|]. exists (l ++ [(n, f)]). now rewrite app_assoc.
Qed.

Theorem C61_string_is_a_key h h' w w' : whist h -> later h h' -> plain (w_reg h') ->
  word_str h w = word_str h' w' -> word_val h w = word_val h' w'.
Proof.
  intros Hh Hl P E. pose proof (later_whist _ _ Hl Hh) as Hh'.
  assert (Hi := whist_inv _ Hh). assert (Hi' := whist_inv _ Hh').
  destruct (later_reg _ _ Hl) as (l & R).
  assert (Fo : Forall (honest (w_reg h')) (word_els h w)).
  { rewrite word_els_ids. apply Forall_map. eapply Forall_impl; [|exact (inv_ids h w Hi)]. cbn. intros e Le.
    rewrite R. apply honest_mono. destruct Hi as (A & _). rewrite Forall_forall in A. apply A. now apply nth_In. }
  assert (Fo' : Forall (honest (w_reg h')) (word_els h' w')).
  { rewrite word_els_ids. apply Forall_map. eapply Forall_impl; [|exact (inv_ids h' w' Hi')]. cbn. intros e Le.
    destruct Hi' as (A & _). rewrite Forall_forall in A. apply A. now apply nth_In. }
  unfold word_str in E. apply (f_equal raws_of) in E. rewrite (raws_print _ _ P Fo), (raws_print _ _ P Fo') in E.
  unfold word_val. clear - E Fo Fo' P. revert Fo' E. generalize (word_els h' w') as os'.
  induction Fo as [|o os Ho Fo IH]; intros [|o' os'] Fo' E; try discriminate; [reflexivity|].
  inversion Fo' as [|? ? Ho' Fo'']; subst. cbn [map] in E. injection E as E1 E2. cbn [map].
  f_equal; [|now apply IH].
  pose proof (build_honest _ o P Ho) as B. pose proof (build_honest _ o' P Ho') as B'.
  rewrite E1, B' in B. injection B as B1 B2 _. unfold eo_bound. now rewrite B1, B2.
Qed.

(** Where the reader is lenient: text after the last "]" is ignored, and the
    first character of every group is skipped, whatever it is. *)
Lemma split_on_cut c p t : split_on c (p ++ c :: t) = split_on c p ++ split_on c t.
Proof.
  induction p as [|a p IH]; cbn.
  - now rewrite ascii_eqb_refl.
  - rewrite IH. destruct (Ascii.eqb a c); [reflexivity|].
    destruct (split_on c p) as [|x l] eqn:E; [now apply split_on_ne in E|reflexivity].
Qed.
Lemma raws_cut p t : raws_of (p ++ "]"%char :: t) = split_on "]" p ++ raws_of t.
Proof. unfold raws_of. rewrite split_on_cut. apply removelast_app, split_on_ne. Qed.

Theorem C61_parser_leniency (h : wheap T) w p t fuel : ~ In "]"%char t ->
  wexec fuel (WMulStr w (p ++ "]"%char :: t)) h = wexec fuel (WMulStr w (p ++ ["]"%char])) h
  /\ wexec fuel (WMulStr w t) h = wexec fuel (WMulStr w []) h
  /\ (forall c d g, ~ In "]"%char (c :: g) -> ~ In "]"%char (d :: g) ->
       wexec fuel (WMulStr w (c :: g ++ ["]"%char])) h = wexec fuel (WMulStr w (d :: g ++ ["]"%char])) h).
Proof.
  intros Nt. assert (E : raws_of t = raws_of []) by (unfold raws_of; now rewrite split_on_none).
  split; [|split].
  - cbn [wexec]. now rewrite !raws_cut, E.
  - cbn [wexec]. now rewrite E.
  - intros c d g Nc Nd. cbn [wexec].
    assert (R : forall a, ~ In "]"%char (a :: g) -> raws_of (a :: g ++ ["]"%char]) = [a :: g]).
    { intros a Na. unfold raws_of. change (a :: g ++ ["]"%char]) with ((a :: g) ++ "]"%char :: []). now rewrite split_on_sep. }
    rewrite !R by assumption. cbn [mul_raws tl]. reflexivity.
Qed.

(** ** C62: who shares letters with whom *)

(** A call changes string and letters of a word only if it multiplies that
    word or appends to one of its letters. *)
Theorem C62_frame h fuel op x h' v : whist h -> wexec fuel op h = Some (x, h') -> v < length (w_words h) ->
  ~ multiplies op v -> (forall e, appends op e -> ~ In e (ids h v)) ->
  word_str h' v = word_str h v /\ word_val h' v = word_val h v /\ ids h' v = ids h v.
Proof.
  intros Hh E Lv Nm Na. assert (Hi := whist_inv _ Hh).
  destruct (step_els _ _ _ _ _ E) as (_ & F). destruct (step_ids _ _ _ _ _ E) as (_ & G).
  specialize (G v Lv Nm). unfold word_str, word_val. rewrite !word_els_ids, G.
  pose proof (inv_ids h v Hi) as Fi. rewrite Forall_forall in Fi.
  assert (D : forall e, In e (ids h v) -> edata (nth e (w_els h') el_fresh) = edata (nth e (w_els h) el_fresh)).
  { intros e Ie. apply F; [auto|]. intros Ha. exact (Na e Ha Ie). }
  rewrite !flat_map_concat_map, !map_map. split; [f_equal|split; [|reflexivity]]; apply map_ext_in; intros e Ie;
    specialize (D e Ie); unfold edata in D; injection D as D1 D2 D3; unfold eo_str, eo_bound; congruence.
Qed.

(** [copy()]: the same letters as the original, none of them shared with any
    word, and no alpha. *)
Theorem C62_copy_is_fresh h fuel w : whist h -> w < length (w_words h) ->
  exists h', wexec fuel (WCopyWord w) h = Some (Ok tt, h')
    /\ let c := length (w_words h) in
       length (w_words h') = S c
       /\ word_str h' c = word_str h w /\ word_val h' c = word_val h w
       /\ (forall v, v < c -> word_str h' v = word_str h v /\ word_val h' v = word_val h v
                              /\ forall e, In e (ids h' v) -> ~ In e (ids h' c))
       /\ option_map wo_alpha (nth_error (w_words h') c) = Some None.
Proof.
  intros Hh Lw. assert (Hi := whist_inv _ Hh).
  destruct (nth_error (w_words h) w) as [o|] eqn:Ew; [|apply nth_error_None in Ew; lia].
  eexists. assert (E : wexec fuel (WCopyWord w) h = Some (Ok tt, _)) by (cbn; rewrite Ew; reflexivity).
  split; [exact E|]. intros c. set (h' := {| w_reg := _ |}) in E |- *.
  assert (Ew' : nth_error (w_words h') c = Some {| wo_els := seq (length (w_els h)) (length (wo_els o)); wo_iter := 0; wo_alpha := None |})
    by (unfold h', c; cbn; rewrite nth_error_app2, Nat.sub_diag by lia; reflexivity).
  assert (Ic : ids h' c = seq (length (w_els h)) (length (wo_els o))) by (unfold ids; now rewrite Ew').
  assert (Io : ids h w = wo_els o) by (unfold ids; now rewrite Ew).
  split; [unfold h', c; cbn; rewrite app_length; cbn; lia|].
  assert (G : forall (pre l : list (elobj T)), map (fun e => nth e (pre ++ map eo_copy l) el_fresh) (seq (length pre) (length l)) = map eo_copy l).
  { intros pre l. revert pre. induction l as [|a l IH]; intros pre; [reflexivity|]. cbn [length seq map].
    rewrite app_nth2, Nat.sub_diag by lia. f_equal. specialize (IH (pre ++ [eo_copy a])).
    rewrite app_length, <- app_assoc in IH. cbn in IH. rewrite Nat.add_1_r in IH. exact IH. }
  assert (Els : word_els h' c = map eo_copy (word_els h w)).
  { rewrite !word_els_ids, Ic, Io. unfold h'. cbn [w_els].
    rewrite <- (map_map (fun e => nth e (w_els h) el_fresh) eo_copy).
    pose proof (G (w_els h) (map (fun e => nth e (w_els h) el_fresh) (wo_els o))) as Q. rewrite map_length in Q. exact Q. }
  split; [unfold word_str; rewrite Els, !flat_map_concat_map, map_map; reflexivity|].
  split; [unfold word_val; rewrite Els, map_map; reflexivity|].
  split; [|now rewrite Ew'].
  intros v Lv. destruct (C62_frame h fuel (WCopyWord w) _ h' v Hh E Lv) as (A & B & C); [intros []|intros e []|].
  split; [exact A|split; [exact B|]]. intros e Ie Ic'. rewrite C in Ie. rewrite Ic in Ic'. apply in_seq in Ic'.
  pose proof (inv_ids h v Hi) as F. rewrite Forall_forall in F. specialize (F _ Ie). lia.
Qed.

(** From then on the copy is independent: as long as nobody multiplies it or
    appends to one of ITS letters, nothing that happens changes it. *)
Inductive later_without (bad : wop T -> Prop) : wheap T -> wheap T -> Prop :=
| lw0 h : later_without bad h h
| lwS h1 h2 fuel op x h3 : later_without bad h1 h2 -> ~ bad op -> wexec fuel op h2 = Some (x, h3) -> later_without bad h1 h3.

Lemma lw_later bad h h' : later_without bad h h' -> later h h'.
Proof. induction 1; econstructor; eauto. Qed.
Lemma later_words (h h' : wheap T) : later h h' -> length (w_words h) <= length (w_words h').
Proof. induction 1 as [|? ? ? ? ? ? _ IH E]; [lia|]. apply step_ids in E as (E & _). lia. Qed.

Theorem C62_independence h h' v : whist h -> v < length (w_words h) ->
  later_without (fun op => multiplies op v \/ exists e, appends op e /\ In e (ids h v)) h h' ->
  word_str h' v = word_str h v /\ word_val h' v = word_val h v.
Proof.
  intros Hh Lv L. enough (word_str h' v = word_str h v /\ word_val h' v = word_val h v /\ ids h' v = ids h v) by tauto.
  remember (fun op => _) as bad eqn:Eb. induction L as [|h1 h2 fuel op x h3 L IH Nb E]; [auto|]. subst bad.
  specialize (IH Hh Lv eq_refl) as (A & B & C).
  destruct (C62_frame h2 fuel op x h3 v) as (A' & B' & C').
  - eapply later_whist; [|exact Hh]. eapply lw_later; eauto.
  - exact E.
  - apply lw_later, later_words in L. lia.
  - tauto.
  - intros e Ha Ie. rewrite C in Ie. eauto.
  - rewrite A', B', C'. auto.
Qed.

(** [multiply(Word)] appends the letters themselves, not copies: from then on,
    whatever is done to letters (of either word), the second part of [w] reads
    the same as [other]. *)
Theorem C62_multiply_shares h fuel w other h1 h2 : whist h -> w <> other ->
  w < length (w_words h) -> other < length (w_words h) ->
  wexec fuel (WMulWord w other) h = Some (Ok tt, h1) ->
  later_without (fun op => multiplies op w \/ multiplies op other) h1 h2 ->
  word_str h1 w = word_str h w ++ word_str h other
  /\ word_val h1 w = word_val h w ++ word_val h other
  /\ ids h2 w = ids h w ++ ids h2 other
  /\ exists s v, word_str h2 w = s ++ word_str h2 other /\ word_val h2 w = v ++ word_val h2 other
                 /\ length v = length (word_val h w).
Proof.
  intros Hh Hn Lw Lo E L. cbn in E.
  destruct (nth_error (w_words h) w) as [o|] eqn:Ew; [|apply nth_error_None in Ew; lia].
  destruct (nth_error (w_words h) other) as [o2|] eqn:Eo; [|apply nth_error_None in Eo; lia].
  destruct (mul_loop fuel w other 0 h) as [h1'|] eqn:M; [|discriminate]. injection E as <-.
  apply mul_loop_some in M as (-> & _); [|exact Lw]. cbn [skipn] in *.
  assert (I2 : ids h2 w = ids h w ++ ids h2 other /\ length (w_words h) <= length (w_words h2)).
  { remember (mul_ids w (ids h other) h) as h1 eqn:E1. remember (fun op => _) as bad eqn:Eb.
    induction L as [|h1' h2 fuel' op x h3 L IH Nb E].
    - subst. rewrite ids_mul_same, ids_mul_other by assumption. split; [reflexivity|]. now rewrite mul_ids_len.
    - specialize (IH E1) as (A & B). subst bad. apply step_ids in E as (E & F).
      rewrite (F w), (F other) by (tauto || lia). split; [exact A|lia]. }
  destruct I2 as (I2 & _).
  split; [|split; [|split; [exact I2|]]].
  - unfold word_str. rewrite !word_els_ids, mul_ids_els, ids_mul_same, map_app, flat_map_app by exact Lw. reflexivity.
  - unfold word_val. rewrite !word_els_ids, mul_ids_els, ids_mul_same, !map_app by exact Lw. reflexivity.
  - unfold word_str, word_val. rewrite !(word_els_ids h2), I2, !map_app, flat_map_app. do 2 eexists.
    split; [reflexivity|split; [reflexivity|]]. rewrite word_els_ids, !map_length. reflexivity.
Qed.

(** [w.multiply(w)] never returns, unless [w] is empty; multiplication with
    another word always returns. *)
Theorem C62_self_multiplication (h : wheap T) w : whist h -> w < length (w_words h) ->
  (word_val h w <> [] -> forall fuel, wexec fuel (WMulWord w w) h = None)
  /\ (word_val h w = [] -> forall fuel, wexec fuel (WMulWord w w) h = Some (Ok tt, h))
  /\ (forall other, other < length (w_words h) -> w <> other ->
        exists h', wexec (length (word_val h other)) (WMulWord w other) h = Some (Ok tt, h')).
Proof.
  intros _ Lw. destruct (nth_error (w_words h) w) as [o|] eqn:Ew; [|apply nth_error_None in Ew; lia].
  unfold word_val. rewrite !word_els_ids, map_map. split; [|split].
  - intros Ne fuel. cbn [wexec]. rewrite Ew, mul_loop_self; [reflexivity|exact Lw|].
    destruct (ids h w); [now elim Ne|cbn; lia].
  - intros Ne fuel. cbn [wexec]. rewrite Ew. replace (mul_loop fuel w w 0 h) with (Some h); [reflexivity|].
    unfold ids in Ne. rewrite Ew in Ne. destruct (wo_els o) eqn:Eo; [|discriminate].
    destruct fuel; cbn; rewrite Ew, Eo; reflexivity.
  - intros other Lo Hn. cbn [wexec]. rewrite Ew.
    destruct (nth_error (w_words h) other) as [o2|] eqn:Eo; [|apply nth_error_None in Eo; lia].
    rewrite word_els_ids, !map_length, mul_loop_ends; [eexists; reflexivity|exact Hn|lia].
Qed.

(** ** C63: a failing [multiply(str)] *)
Theorem C63_failing_multiply (h : wheap T) fuel w s e h' : w < length (w_words h) ->
  wexec fuel (WMulStr w s) h = Some (Err e, h') ->
  exists p g rest, s = p ++ g ++ rest
    /\ (exists body, g = body ++ ["]"%char] /\ ~ In "]"%char body)
    /\ wexec fuel (WMulStr w p) h = Some (Ok tt, h')
    /\ wexec fuel (WMulStr w g) h' = Some (Err e, h').
Proof.
  intros Lw E. cbn [wexec] in *.
  destruct (nth_error (w_words h) w) as [o|] eqn:Ew; [|apply nth_error_None in Ew; lia]. injection E as E.
  apply mul_raws_inv in E as (good & rest & os & A1 & A2 & A3 & [(_ & ?)|(raw & r & e' & -> & B & [= <-])]); [discriminate|].
  (* the string, rebuilt from its groups *)
  assert (Hs : forall s l, raws_of s = l -> exists t, s = flat_map (fun r => r ++ ["]"%char]) l ++ t /\ Forall (fun b : pystr => ~ In "]"%char b) l).
  { clear. unfold raws_of. induction s as [|c s IH]; intros l E.
    - cbn in E. subst. exists []. split; [reflexivity|constructor].
    - cbn [split_on] in E. specialize (IH _ eq_refl) as (t & Et & F). destruct (Ascii.eqb_spec c "]") as [->|Hc].
      + destruct (split_on "]" s) as [|h0 t0] eqn:Sp; [now apply split_on_ne in Sp|].
        change (removelast ([] :: h0 :: t0)) with ([] :: removelast (h0 :: t0)) in E. subst l.
        exists t. split; [cbn [flat_map app]; f_equal; exact Et|]. constructor; [intros []|exact F].
      + destruct (split_on "]" s) as [|h0 t0] eqn:Sp; [now apply split_on_ne in Sp|].
        destruct t0 as [|h1 t0].
        * cbn in E. subst l. exists (c :: s). split; [reflexivity|constructor].
        * change (removelast ((c :: h0) :: h1 :: t0)) with ((c :: h0) :: removelast (h1 :: t0)) in E. subst l.
          change (removelast (h0 :: h1 :: t0)) with (h0 :: removelast (h1 :: t0)) in Et, F.
          exists t. split; [cbn [flat_map app] in *; f_equal; exact Et|]. inversion F; subst. constructor; [|assumption].
          intros [Q|Q]; [congruence|contradiction]. }
  assert (Hr : forall l : list pystr, Forall (fun b : pystr => ~ In "]"%char b) l -> raws_of (flat_map (fun r => r ++ ["]"%char]) l) = l).
  { clear. induction l as [|b l IH]; intros F; [reflexivity|]. inversion F as [|? ? Nb F2]; subst. specialize (IH F2). cbn [flat_map]. rewrite <- app_assoc. cbn [app].
    rewrite raws_cut, split_on_none, IH by exact Nb. reflexivity. }
  destruct (Hs s _ A1) as (t & Es & F). apply Forall_app in F as (F1 & F2). inversion F2 as [|? ? Fb F3]; subst.
  exists (flat_map (fun r => r ++ ["]"%char]) good), (raw ++ ["]"%char]), (flat_map (fun r => r ++ ["]"%char]) r ++ t).
  split; [|split; [|split]].
  - rewrite flat_map_app. cbn [flat_map]. now rewrite <- !app_assoc.
  - eauto.
  - rewrite (Hr good F1). f_equal. now apply mul_raws_ok.
  - set (h1 := mul_ids _ _ _). destruct (nth_error (w_words h1) w) as [o1|] eqn:E1.
    + specialize (Hr [raw]). cbn [flat_map] in Hr. rewrite app_nil_r in Hr. rewrite Hr by (constructor; auto).
      cbn [mul_raws]. unfold h1 at 1. rewrite mul_ids_reg. cbn [w_reg with_els]. now rewrite B.
    + apply nth_error_None in E1. unfold h1 in E1. rewrite mul_ids_len in E1. cbn in E1. lia.
Qed.
(** A failing constructor leaves no word and changes none. *)
Theorem C63_failing_constructor (h : wheap T) fuel s e h' : whist h -> wexec fuel (WNewWord (Some s)) h = Some (Err e, h') ->
  length (w_words h') = length (w_words h)
  /\ forall v, v < length (w_words h) -> word_str h' v = word_str h v /\ word_val h' v = word_val h v.
Proof.
  intros Hh E. split.
  - apply new_word_case in E as (h2 & _ & ->). reflexivity.
  - intros v Lv. destruct (C62_frame h fuel _ _ h' v Hh E Lv) as (A & B & _); [intros []|intros ? []|auto].
Qed.

(** ** C64: the registry of letters *)
Theorem C64_names_are_final (h h' : wheap T) n f : whist h -> later h h' -> reg_get (w_reg h) n = Some f ->
  reg_get (w_reg h') n = Some f
  /\ NoDup (map fst (w_reg h'))
  /\ firstn 2 (map fst (w_reg h')) = [str "DIM"; str "ABS"].
Proof.
  intros Hh Hl G. assert (Hh' := later_whist _ _ Hl Hh). destruct (later_reg _ _ Hl) as (l & R).
  split; [rewrite R; now apply reg_get_app|].
  clear - Hh'. induction Hh' as [|h fuel op x h' Hh (I1 & I2) E].
  - split; [|reflexivity]. cbn. repeat constructor; cbn; intuition discriminate.
  - apply step_reg in E as [->|(n & f & _ & _ & G & ->)]; [auto|]. rewrite map_app. split.
    + apply reg_get_none in G. apply NoDup_app'; [exact I1|repeat constructor; intros []|].
      cbn. intros a Ia [<-|[]]. contradiction.
    + rewrite firstn_app, I2. assert (L2 : 2 <= length (map fst (w_reg h))).
      { apply (f_equal (@length _)) in I2. rewrite firstn_length in I2. cbn [length] in I2. lia. }
      replace (2 - length (map fst (w_reg h))) with 0 by lia. cbn. reflexivity.
Qed.
Theorem C64_register (h : wheap T) fuel n f : 
  (reg_get (w_reg h) n <> None -> wexec fuel (WLetter n f) h = Some (Err RuntimeError, h))
  /\ (reg_get (w_reg h) n = None -> exists h', wexec fuel (WLetter n f) h = Some (Ok tt, h') /\ reg_get (w_reg h') n = Some f
        /\ map fst (w_reg h') = map fst (w_reg h) ++ [n]
        /\ forall v, word_str h' v = word_str h v /\ word_val h' v = word_val h v).
Proof.
  cbn. split; destruct (reg_get (w_reg h) n) eqn:G; try congruence; intros _.
  eexists. split; [reflexivity|]. cbn. rewrite reg_get_app_none by exact G.
  rewrite (proj2 (eqs_true n n) eq_refl), map_app. repeat split.
Qed.
(** [append] with an unknown name raises and changes nothing; with a known one
    the letter is added at the end. *)
Theorem C64_append (h : wheap T) fuel e o n d : nth_error (w_els h) e = Some o ->
  (reg_get (w_reg h) n = None -> wexec fuel (WAppend e n d) h = Some (Err RuntimeError, h))
  /\ (forall f, reg_get (w_reg h) n = Some f -> exists h' o', wexec fuel (WAppend e n d) h = Some (Ok tt, h')
       /\ nth_error (w_els h') e = Some o'
       /\ (whist h -> eo_bound o' = eo_bound o ++ [f d])
       /\ eo_str o' = removelast (eo_str o) ++ n ++ str "(" ++ str_Z (d + 1) ++ str ")]"
       /\ forall e', e' <> e -> nth_error (w_els h') e' = nth_error (w_els h) e').
Proof.
  intros Eo. cbn [wexec]. unfold on_el. rewrite Eo. unfold eo_append. split.
  - intros ->. rewrite upd_id by exact Eo. now destruct h.
  - intros f ->. do 2 eexists. split; [reflexivity|]. cbn [w_els with_els].
    rewrite upd_nth_error_eq by (apply nth_error_Some; congruence). split; [reflexivity|]. split; [|split].
    + intros Hh. apply whist_inv in Hh as (A & _). rewrite Forall_forall in A.
      destruct (A o (nth_error_In _ _ Eo)) as (nds & _ & D & G). unfold eo_bound. cbn [eo_fns eo_dims].
      assert (L : length (eo_fns o) = length (eo_dims o)) by (rewrite D, map_length; symmetry; exact (f2_length _ _ _ G)).
      clear - L. revert L. generalize (eo_fns o) (eo_dims o). induction l as [|a l IH]; intros [|b m] L; try discriminate; [reflexivity|].
      cbn. f_equal. apply IH. now injection L.
    + assert (Rl : removelast (eo_str o) = "["%char :: eo_repr o) by (unfold eo_str; apply removelast_last).
      rewrite Rl. unfold eo_str. cbn. f_equal. rewrite <- !app_assoc. f_equal. f_equal. cbn. f_equal. now rewrite <- app_assoc.
    + intros e' Hn. now apply upd_nth_error_neq, not_eq_sym.
Qed.

(** ** C65: iteration *)

(** [for x in o: body]: [iter(o)], then [next(o)] before every round, until it
    raises StopIteration; at most [n] rounds.  The result: the items seen,
    whether the loop has ended, the final object. *)
Fixpoint rounds {O A} (next : O -> res A * O) (body : A -> O -> O) (n : nat) (o : O) : list A * bool * O :=
  match n with
  | O => ([], false, o)
  | S n => match next o with
           | (Ok x, o') => let '(l, b, o'') := rounds next body n (body x o') in (x :: l, b, o'')
           | (Err _, o') => ([], true, o')
           end
  end.
Definition for_word (body : nat -> wobj T -> wobj T) n o := rounds word_next body n (set_w_iter 0 o).
Definition for_el (body : bletter T -> elobj T -> elobj T) n o := rounds el_next body n (set_el_iter 0 o).

Lemma skipn_nth_error {A} i (l : list A) x : nth_error l i = Some x -> skipn i l = x :: skipn (S i) l.
Proof. revert i. induction l as [|a l IH]; intros [|i] E; cbn in *; try discriminate; [congruence|now apply IH]. Qed.

Lemma rounds_word (body : nat -> wobj T -> wobj T) (Hb : forall e o, wo_els (body e o) = wo_els o /\ wo_iter (body e o) = wo_iter o) n : forall o,
  wo_iter o <= length (wo_els o) -> length (wo_els o) < n + wo_iter o ->
  exists o', rounds word_next body n o = (skipn (wo_iter o) (wo_els o), true, o')
             /\ wo_els o' = wo_els o /\ wo_iter o' = length (wo_els o).
Proof.
  induction n as [|n IH]; intros o L1 L2; [cbn in L2; lia|]. cbn [rounds].
  destruct (word_next o) as [x1 o1] eqn:W. unfold word_next in W.
  destruct (Nat.ltb_spec (wo_iter o) (length (wo_els o))) as [L|L].
  - destruct (nth_error (wo_els o) (wo_iter o)) as [e|] eqn:E; [|apply nth_error_None in E; lia]. injection W as <- <-.
    destruct (Hb e (set_w_iter (S (wo_iter o)) o)) as (B1 & B2). cbn in B1, B2.
    destruct (IH (body e (set_w_iter (S (wo_iter o)) o))) as (o' & Q & R1 & R2); rewrite ?B1, ?B2; [lia|lia|].
    rewrite Q. exists o'. rewrite B1 in *. rewrite B2. now rewrite (skipn_nth_error _ _ _ E).
  - injection W as <- <-. exists o. rewrite skipn_all2 by lia. repeat split. lia.
Qed.
Lemma bound_length (o : elobj T) : length (eo_fns o) = length (eo_dims o) -> length (eo_bound o) = length (eo_fns o).
Proof.
  unfold eo_bound. generalize (eo_fns o) (eo_dims o). induction l as [|a l IH]; intros [|b m] L; try discriminate; [reflexivity|].
  cbn. f_equal. apply IH. now injection L.
Qed.
Lemma rounds_el (body : bletter T -> elobj T -> elobj T) (Hb : forall b o, edata (body b o) = edata o /\ eo_iter (body b o) = eo_iter o) n : forall o,
  length (eo_fns o) = length (eo_dims o) ->
  eo_iter o <= length (eo_fns o) -> length (eo_fns o) < n + eo_iter o ->
  exists o', rounds el_next body n o = (skipn (eo_iter o) (eo_bound o), true, o')
             /\ edata o' = edata o /\ eo_iter o' = length (eo_fns o).
Proof.
  induction n as [|n IH]; intros o L0 L1 L2; [cbn in L2; lia|]. cbn [rounds].
  destruct (el_next o) as [x1 o1] eqn:W. unfold el_next in W.
  destruct (Nat.ltb_spec (eo_iter o) (length (eo_fns o))) as [L|L].
  - destruct (nth_error (eo_bound o) (eo_iter o)) as [e|] eqn:E; [|apply nth_error_None in E; rewrite bound_length in E by exact L0; lia]. injection W as <- <-.
    destruct (Hb e (set_el_iter (S (eo_iter o)) o)) as (B1 & B2). cbn in B2. unfold edata in B1. cbn in B1. injection B1 as C1 C2 C3.
    destruct (IH (body e (set_el_iter (S (eo_iter o)) o))) as (o' & Q & R1 & R2); rewrite ?C1, ?C2, ?B2; [exact L0|lia|lia|].
    rewrite Q. exists o'. rewrite R1, R2, B2, (skipn_nth_error _ _ _ E). unfold edata, eo_bound. now rewrite C1, C2, C3.
  - injection W as <- <-. exists o. rewrite skipn_all2 by (rewrite bound_length by exact L0; lia). repeat split. lia.
Qed.

(** A loop whose body leaves the word (letter) alone sees every item once, in
    order, whatever iterations happened before. *)
Theorem C65_loop_sees_all :
  (forall (body : nat -> wobj T -> wobj T) o n, (forall e o, wo_els (body e o) = wo_els o /\ wo_iter (body e o) = wo_iter o) -> length (wo_els o) < n ->
     exists o', for_word body n o = (wo_els o, true, o') /\ wo_els o' = wo_els o)
  /\ (forall (h : wheap T) e o (body : bletter T -> elobj T -> elobj T) n, whist h -> nth_error (w_els h) e = Some o ->
     (forall b o, edata (body b o) = edata o /\ eo_iter (body b o) = eo_iter o) -> length (eo_fns o) < n ->
     exists o', for_el body n o = (eo_bound o, true, o') /\ edata o' = edata o).
Proof.
  split.
  - intros body o n Hb L. destruct (rounds_word body Hb n (set_w_iter 0 o)) as (o' & Q & R & _); cbn; [lia|lia|].
    exists o'. split; [exact Q|exact R].
  - intros h e o body n Hh Eo Hb L. apply whist_inv in Hh as (A & _). rewrite Forall_forall in A.
    destruct (A o (nth_error_In _ _ Eo)) as (nds & _ & D & G).
    assert (L0 : length (eo_fns o) = length (eo_dims o)) by (rewrite D, map_length; symmetry; exact (f2_length _ _ _ G)).
    destruct (rounds_el body Hb n (set_el_iter 0 o)) as (o' & Q & R & _); cbn; [exact L0|lia|lia|].
    exists o'. split; [exact Q|exact R].
Qed.
(** A loop inside a loop over the same object: the index is an attribute of
    the object, so the outer loop ends after its first round. *)
Theorem C65_nested_loops_stop :
  (forall (o : wobj T) n k, length (wo_els o) < k ->
     exists o', for_word (fun _ o => snd (for_word (fun _ o => o) k o)) (S (S n)) o = (firstn 1 (wo_els o), true, o'))
  /\ (forall (h : wheap T) e o n k, whist h -> nth_error (w_els h) e = Some o -> length (eo_fns o) < k ->
     exists o', for_el (fun _ o => snd (for_el (fun _ o => o) k o)) (S (S n)) o = (firstn 1 (eo_bound o), true, o')).
Proof.
  split.
  - intros o n k Lk. set (inner := fun (_ : nat) (o : wobj T) => snd (for_word (fun _ o => o) k o)). unfold for_word. cbn [rounds].
    destruct (word_next (set_w_iter 0 o)) as [x1 o1] eqn:W. unfold word_next in W. cbn [wo_iter wo_els set_w_iter] in W.
    destruct (wo_els o) as [|e l] eqn:E; [injection W as <- <-; eexists; reflexivity|]. cbn [length nth_error] in W.
    change (0 <? S (length l)) with true in W. injection W as <- <-. cbn iota.
    match goal with |- context [inner e ?x] => set (o1 := x) end.
    destruct (rounds_word (fun _ o => o) (fun _ _ => conj eq_refl eq_refl) k (set_w_iter 0 o1)) as (o' & Q & R1 & R2);
      [cbn; lia|unfold o1; cbn; rewrite ?E; cbn in *; lia|].
    assert (Q' : inner e o1 = o') by (unfold inner, for_word; rewrite Q; reflexivity).
    rewrite Q'. cbn [rounds]. assert (W : word_next o' = (Err StopIteration, o')) by (unfold word_next; rewrite R1, R2, Nat.ltb_irrefl; reflexivity).
    rewrite W. eexists. reflexivity.
  - intros h e o n k Hh Eo Lk. apply whist_inv in Hh as (A & _). rewrite Forall_forall in A.
    destruct (A o (nth_error_In _ _ Eo)) as (nds & _ & D & G).
    assert (L0 : length (eo_fns o) = length (eo_dims o)) by (rewrite D, map_length; symmetry; exact (f2_length _ _ _ G)).
    clear - Lk L0. set (inner := fun (_ : bletter T) (o : elobj T) => snd (for_el (fun _ o => o) k o)). unfold for_el. cbn [rounds].
    destruct (el_next (set_el_iter 0 o)) as [x1 o1] eqn:W. unfold el_next in W. cbn [eo_iter eo_fns set_el_iter] in W.
    change (eo_bound (set_el_iter 0 o)) with (eo_bound o) in W.
    pose proof (bound_length o L0) as Lb.
    destruct (eo_bound o) as [|b l] eqn:E.
    + cbn in Lb. rewrite <- Lb in W. injection W as <- <-. eexists. reflexivity.
    + rewrite <- Lb in W. cbn [length nth_error] in W. change (0 <? S (length l)) with true in W. injection W as <- <-. cbn iota.
      match goal with |- context [inner b ?x] => set (o1 := x) end.
      destruct (rounds_el (fun _ o => o) (fun _ _ => conj eq_refl eq_refl) k (set_el_iter 0 o1)) as (o' & Q & R1 & R2);
        [exact L0|cbn; lia|cbn; lia|].
      assert (Q' : inner b o1 = o') by (unfold inner, for_el; rewrite Q; reflexivity).
      rewrite Q'. cbn [rounds]. unfold edata in R1. injection R1 as R1 _ _.
      assert (W : el_next o' = (Err StopIteration, o')) by (unfold el_next; rewrite R1, R2, Nat.ltb_irrefl; reflexivity).
      rewrite W. eexists. reflexivity.
Qed.
(** Multiplying a non-empty word inside a loop over it: the loop never ends. *)
Theorem C65_growing_loop (o : wobj T) n : wo_els o <> [] ->
  snd (fst (for_word (fun e o => add_letters [e] o) n o)) = false.
Proof.
  intros Ne. unfold for_word.
  enough (G : forall o : wobj T, wo_iter o < length (wo_els o) -> snd (fst (rounds word_next (fun e o => add_letters [e] o) n o)) = false)
    by (apply G; cbn; destruct (wo_els o); [congruence|cbn; lia]).
  clear. induction n as [|n IH]; intros o L; [reflexivity|]. cbn [rounds]. unfold word_next at 1.
  rewrite (proj2 (Nat.ltb_lt _ _) L). destruct (nth_error (wo_els o) (wo_iter o)) as [e|] eqn:E; [|apply nth_error_None in E; lia].
  specialize (IH (add_letters [e] (set_w_iter (S (wo_iter o)) o))).
  destruct (rounds _ _ n _) as [[l b] o'] eqn:Q. cbn in *. rewrite app_length in IH. cbn in IH.
  apply IH. lia.
Qed.
End Words.

Print Assumptions C61_string_tells_letters.
Print Assumptions C61_parse_print.
Print Assumptions C61_string_is_a_key.
Print Assumptions C61_parser_leniency.
Print Assumptions C62_frame.
Print Assumptions C62_copy_is_fresh.
Print Assumptions C62_independence.
Print Assumptions C62_multiply_shares.
Print Assumptions C62_self_multiplication.
Print Assumptions C63_failing_multiply.
Print Assumptions C63_failing_constructor.
Print Assumptions C64_names_are_final.
Print Assumptions C64_register.
Print Assumptions C64_append.
Print Assumptions C65_loop_sees_all.
Print Assumptions C65_nested_loops_stop.
Print Assumptions C65_growing_loop.

(** A run that meets the hypotheses: a letter of one's own, a word from a
    string, a letter appended to a letter it shares with a second word. *)
Section Run.
Context {T : Type} `{Num T}.
Definition relu : fn T := fun i X => map (fun x => nmax x nzero) (py_row X i).
Definition prog : list (wop T) :=
  [WLetter (str "ReLU") relu; WNewWord (Some (str "[DIM(1)ABS(12)][ReLU(-3)]")); WNewWord None; WMulWord 1 0;
   WNewEl (str "DIM(2)"); WMulEl 1 2; WAppend 1 (str "DIM") 4; WCopyWord 1; WAppend 0 (str "ABS") 0].
Fixpoint wrun (ops : list (wop T)) (h : wheap T) : option (wheap T) :=
  match ops with [] => Some h | op :: r => match wexec 9 op h with Some (_, h') => wrun r h' | None => None end end.
Lemma wrun_whist ops : forall h h', whist h -> wrun ops h = Some h' -> whist h'.
Proof.
  induction ops as [|op ops IH]; intros h h' Hh E; cbn in E; [congruence|].
  destruct (wexec 9 op h) as [[x h1]|] eqn:Ex; [|discriminate]. apply (IH h1); [|exact E]. exact (whS h 9 op x h1 Hh Ex).
Qed.
Definition hrun : wheap T := match wrun prog wheap0 with Some h => h | None => wheap0 end.
Example C61_nonvacuous :
  whist hrun /\ plain (w_reg hrun) /\ length (w_words hrun) = 3
  /\ word_str hrun 0 = str "[DIM(1)ABS(12)ABS(1)][ReLU(-3)DIM(5)]"
  /\ word_str hrun 1 = str "[DIM(1)ABS(12)ABS(1)][ReLU(-3)DIM(5)][DIM(2)]"
  /\ word_str hrun 2 = str "[DIM(1)ABS(12)][ReLU(-3)DIM(5)][DIM(2)]"
  /\ word_val hrun 2 = [[letter_DIM 0; letter_ABS 11]; [relu (-4)%Z; letter_DIM 4]; [letter_DIM 1]].
Proof.
  split; [apply (wrun_whist prog wheap0); [constructor|reflexivity]|].
  split; [|repeat split; reflexivity].
  intros n f G. apply reg_get_in in G. cbn in G.
  destruct G as [[= <- _]|[[= <- _]|[[= <- _]|[]]]]; repeat split; cbn; intuition discriminate.
Qed.
Example C61_unclosed_word_is_empty :
  exists h, wexec 0 (WNewWord (Some (str "[DIM(1)"))) wheap0 = Some (Ok tt, h) /\ word_val h 0 = [] /\ word_str (T:=T) h 0 = [].
Proof. eexists. repeat split. Qed.
Example C61_first_character_is_skipped :
  exists h, wexec 0 (WNewWord (Some (str "xDIM(1)]"))) wheap0 = Some (Ok tt, h) /\ word_str (T:=T) h 0 = str "[DIM(1)]".
Proof. eexists. repeat split. Qed.
Example C63_nonvacuous :
  exists h, wexec 0 (WMulStr 0 (str "[ABS(1)][DIM(2)DIV(1)][DIM(1)]")) hrun = Some (Err RuntimeError, h)
    /\ word_str h 0 = str "[DIM(1)ABS(12)ABS(1)][ReLU(-3)DIM(5)][ABS(1)]".
Proof. eexists. repeat split. Qed.
Example C62_self_nonvacuous : forall fuel, wexec fuel (WMulWord 1 1) hrun = None.
Proof. apply (C62_self_multiplication hrun 1); [apply C61_nonvacuous|apply Nat.ltb_lt; reflexivity|discriminate]. Qed.
End Run.
