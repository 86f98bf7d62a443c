(** Sieves treat every iterated sum on its own (C76). *)
From Coq Require Import Ascii String List Arith ZArith Bool RelationClasses Lia.
From Verif Require Import Num Arr M_Str M_Semiring M_Words M_ISS M_Np M_Prep M_Cache M_Sieve M_PrepObj M_Cos M_Fruit M_Seeds
  L_API L_Gen S_Fruit S_Rowwise S_Rowwise2 L_Arr L_Np L_Fruit L_Fruit10 P_Copy L_Seeds L_Seeds2 P_Seeds L_Seeds3 L_Rowwise L_Rowwise2 L_Rowwise3 L_Rowwise4.
Import ListNotations.

Section Sieves.
Context {T : Type} `{N : Num T}.
Variable parse : pystr -> res T.
Notation dset := (list (list (list T))).

Lemma nth_pick {A} (d d' : A) sel l i : i < length sel -> nth i (pick d sel l) d' = nth (nth i sel 0) l d.
Proof.
  intros Hi. unfold pick. rewrite (nth_indep _ d' ((fun j => nth j l d) 0)) by now rewrite map_length. now rewrite (map_nth (fun j => nth j l d)).
Qed.
Lemma list_tab {A} (d : A) (l : list A) : l = map (fun i => nth i l d) (seq 0 (length l)).
Proof. apply (nth_ext _ _ d d); [now rewrite map_length, seq_length|]. intros i Hi. rewrite (nth_indep (map _ _) d ((fun i => nth i l d) 0)) by now rewrite map_length, seq_length. rewrite (map_nth (fun i => nth i l d)), seq_nth by exact Hi. reflexivity. Qed.
Lemma set_all (v : list int) n : length v = n -> py_set_slice None None v (repeat 0%Z n) = Ok v.
Proof.
  intros L. unfold py_set_slice, lo_bound, hi_bound. rewrite repeat_length, Nat.sub_0_r, L, Nat.eqb_refl. cbn [firstn app Nat.max]. rewrite skipn_all2 by (rewrite repeat_length; lia). now rewrite app_nil_r.
Qed.
Lemma column_rows (get get' : pystr -> res (cval T)) norm n l sel c col : (forall i, In i sel -> i < n) ->
  (no_key c \/ forall key, (exists e, get key = Err e) \/ exists v, length v = n /\ get key = Ok (VCoq v) /\ get' key = Ok (VCoq (T := T) (pick 0 sel v))) ->
  cut_column get norm n l c = Ok col -> length col = n /\ cut_column get' norm (length sel) l c = Ok (pick 0%Z sel col).
Proof.
  intros P Hg E. destruct c as [z|r]; cbn [cut_column] in *.
  - injection E as <-. rewrite repeat_length. split; [reflexivity|]. now rewrite pick_repeat.
  - destruct Hg as [[]|Hg]. destruct (Hg (r ++ [colon] ++ norm)) as [(e & Eg)|(v & Lv & Eg & Eg')]; rewrite Eg in E; [discriminate|]. rewrite Eg'. cbn [bind] in *.
    rewrite set_all in E by now rewrite map_length. injection E as <-. split; [now rewrite map_length|]. rewrite set_all by now rewrite map_length, pick_length. f_equal. symmetry. apply pick_map. now rewrite Lv.
Qed.
Lemma cuts_rows (get get' : pystr -> res (cval T)) norm n l sel cut cs : (forall i, In i sel -> i < n) ->
  (Forall no_key cut \/ forall key, (exists e, get key = Err e) \/ exists v, length v = n /\ get key = Ok (VCoq v) /\ get' key = Ok (VCoq (T := T) (pick 0 sel v))) ->
  cuts_of get norm n l cut = Ok cs -> length cs = n /\ cuts_of get' norm (length sel) l cut = Ok (pick [] sel cs).
Proof.
  intros P Hg E. unfold cuts_of in *. destruct (mapM (cut_column get norm n l) cut) as [cols|e] eqn:Ec; [|discriminate]. cbn [bind] in E.
  assert (Q : mapM (cut_column get' norm (length sel) l) cut = Ok (map (pick 0%Z sel) cols) /\ Forall (fun col => length col = n) cols).
  { clear E. revert cols Ec. induction cut as [|c cut IH]; intros cols Ec; cbn [mapM] in *; [injection Ec as <-; split; [reflexivity|constructor]|].
    destruct (cut_column get norm n l c) as [col|e] eqn:E1; [|discriminate]. cbn [bind] in Ec. destruct (mapM (cut_column get norm n l) cut) as [cols0|e]; [|discriminate]. injection Ec as <-.
    destruct (column_rows get get' norm n l sel c col P) with (2 := E1) as (A & B); [destruct Hg as [Hg|Hg]; [left; now inversion Hg|now right]|]. rewrite B. cbn [bind].
    destruct (IH) with (cols := cols0) as (-> & F); [destruct Hg as [Hg|Hg]; [left; now inversion Hg|now right]|reflexivity|]. split; [reflexivity|]. now constructor. }
  destruct Q as (-> & F). cbn [bind]. injection E as <-. split; [now rewrite map_length, seq_length|]. f_equal.
  apply (nth_ext _ _ [] []); [now rewrite map_length, seq_length, pick_length|]. intros i Hi. rewrite map_length, seq_length in Hi.
  rewrite nth_pick by exact Hi. assert (Hj : nth i sel 0 < n) by (apply P, nth_In; exact Hi).
  rewrite (nth_indep (map _ _) [] ((fun i => zsort (0%Z :: map (fun col => nth i col 0%Z) (map (pick 0%Z sel) cols))) 0)) by now rewrite map_length, seq_length.
  rewrite (map_nth (fun i => zsort (0%Z :: map (fun col => nth i col 0%Z) (map (pick 0%Z sel) cols)))), seq_nth by exact Hi. cbn [Nat.add].
  rewrite (nth_indep (map _ _) [] ((fun i => zsort (0%Z :: map (fun col => nth i col 0%Z) cols)) 0)) by now rewrite map_length, seq_length.
  rewrite (map_nth (fun i => zsort (0%Z :: map (fun col => nth i col 0%Z) cols))), seq_nth by exact Hj. cbn [Nat.add]. do 2 f_equal.
  rewrite map_map. apply map_ext. intros col. now apply nth_pick.
Qed.
Lemma tlen_pick sel (Y : mts T) : same_lengths Y -> picks (length Y) sel -> tlen (pick [] sel Y) = tlen Y.
Proof.
  intros S (P1 & P2). destruct sel as [|i sel]; [congruence|]. destruct Y as [|y Y]; [specialize (P2 i (or_introl eq_refl)); cbn in P2; lia|].
  cbn [pick map tlen]. apply S; [apply nth_In, P2; now left|now left].
Qed.
Lemma pre_lengths k (Y : mts T) : same_lengths Y -> same_lengths (pre_transform k Y).
Proof.
  intros S. unfold pre_transform. destruct (is_inc_kind k) as [i|]; [|exact S]. intros a b Ha Hb. apply in_map_iff in Ha as (x & <- & Hx). apply in_map_iff in Hb as (y & <- & Hy).
  pose proof (S x y Hx Hy) as E. unfold pre1. assert (I1 : forall x y : list T, length x = length y -> length (inc1 x) = length (inc1 y)).
  { intros u v Q. assert (G := inc_first_len [u] [v]). unfold inc_first in G. cbn [nth map] in G. specialize (G (f_equal (fun n => [n]) Q)). unfold inc1. destruct (increments1 1 u), (increments1 1 v); exact G. }
  destruct (0 <? i)%Z; [|destruct (i <? 0)%Z; [|exact E]].
  - generalize (Z.to_nat i). intros m. revert x y E Hx Hy. induction m as [|m IH]; intros x y E _ _; cbn [times]; [exact E|]. revert E. generalize x y. clear - I1 IH.
    assert (G : forall m (x y : list T), length x = length y -> length (times m inc1 x) = length (times m inc1 y)) by (induction m0 as [|m0 IHm]; intros; cbn; auto). intros. now apply G, I1.
  - assert (G : forall m (x y : list T), length x = length y -> length (times m cumsum x) = length (times m cumsum y)) by (induction m as [|m IHm]; intros; cbn; auto; apply IHm; now rewrite !cumsum_len). now apply G.
Qed.
Lemma pre_pick k sel (Y : mts T) : (forall i, In i sel -> i < length Y) -> pre_transform k (pick [] sel Y) = pick [] sel (pre_transform k Y).
Proof. intros P. unfold pre_transform. destruct (is_inc_kind k) as [i|]; [|reflexivity]. symmetry. now apply pick_map. Qed.
Lemma pre_length k (Y : mts T) : length (pre_transform k Y) = length Y.
Proof. unfold pre_transform. destruct (is_inc_kind k); [apply map_length|reflexivity]. Qed.
Lemma map2M_row {A B C} (f : A -> B -> res C) l m r a b c sel n : length l = n -> length m = n -> (forall i, In i sel -> i < n) -> map2M f l m = Ok r ->
  length r = n /\ map2M f (pick a sel l) (pick b sel m) = Ok (pick c sel r).
Proof. intros L1 L2 P E. split; [rewrite (map2M_length _ _ _ _ E); lia|]. apply map2M_pick with (1 := E). intros i Hi. specialize (P i Hi). lia. Qed.
Lemma seg_rows cf (get get' : pystr -> res (cval T)) st (Y R : mts T) sel : same_lengths Y -> picks (length Y) sel ->
  (Forall no_key (sg_cut cf) \/ forall key, (exists e, get key = Err e) \/ exists v, length v = length Y /\ get key = Ok (VCoq v) /\ get' key = Ok (VCoq (T := T) (pick 0 sel v))) ->
  fst (seg_transform cf get st Y) = Ok R -> length R = length Y /\ fst (seg_transform cf get' st (pick [] sel Y)) = Ok (pick [] sel R).
Proof.
  intros S (P1 & P2) Hg. unfold seg_transform. rewrite (pre_pick _ sel Y P2). set (Z := pre_transform (sg_kind cf) Y).
  assert (LZ : length Z = length Y) by apply pre_length. assert (SZ : same_lengths Z) by now apply pre_lengths.
  rewrite (tlen_pick sel Z SZ) by (split; [exact P1|now rewrite LZ]). rewrite pick_length. rewrite LZ.
  assert (Hc : forall cs, cuts_of get (sg_norm cf) (length Y) (tlen Z) (sg_cut cf) = Ok cs -> length cs = length Y /\ cuts_of get' (sg_norm cf) (length sel) (tlen Z) (sg_cut cf) = Ok (pick [] sel cs)) by (intros cs; now apply cuts_rows).
  assert (B : forall k, fst (match (if seg_requires cf then Ok st else let! e := mapM edge_plain (sg_q cf) in Ok (Some e)) with
      | Err e => (Err e, st)
      | Ok st' => ((let! cs := cuts_of get (sg_norm cf) (length Y) (tlen Z) (sg_cut cf) in
            match st' with None => Err AttributeError | Some [] => Err ValueError | Some edges => map2M (backend_row k edges) (backend_input k Z) cs end), st') end) = Ok R ->
     length R = length Y /\ fst (match (if seg_requires cf then Ok st else let! e := mapM edge_plain (sg_q cf) in Ok (Some e)) with
      | Err e => (Err e, st)
      | Ok st' => ((let! cs := cuts_of get' (sg_norm cf) (length sel) (tlen Z) (sg_cut cf) in
            match st' with None => Err AttributeError | Some [] => Err ValueError | Some edges => map2M (backend_row k edges) (backend_input k (pick [] sel Z)) cs end), st') end) = Ok (pick [] sel R)).
  { intros k. destruct (if seg_requires cf then Ok st else let! e := mapM edge_plain (sg_q cf) in Ok (Some e)) as [st'|e]; cbn [fst]; [|discriminate].
    destruct (cuts_of get (sg_norm cf) (length Y) (tlen Z) (sg_cut cf)) as [cs|e] eqn:Ecs; [|discriminate]. destruct (Hc cs eq_refl) as (Lc & ->). cbn [bind].
    destruct st' as [[|e0 es]|]; try discriminate. intros E.
    assert (Q : backend_input k (pick [] sel Z) = pick [] sel (backend_input k Z) /\ length (backend_input k Z) = length Y).
    { unfold backend_input. destruct k; try (split; [reflexivity|exact LZ]); rewrite map_length; (split; [symmetry; apply pick_map; now rewrite LZ|exact LZ]). }
    destruct Q as (-> & Lb). exact (map2M_row _ _ _ _ [] [] [] sel (length Y) Lb Lc P2 E). }
  destruct (sg_kind cf) eqn:Ek; try exact (B _). cbn [fst].
  destruct (cuts_of get (sg_norm cf) (length Y) (tlen Z) (sg_cut cf)) as [cs|e] eqn:Ecs; [|discriminate]. destruct (Hc cs eq_refl) as (Lc & ->). cbn [bind]. intros E. exact (map2M_row _ _ _ _ [] [] [] sel (length Y) LZ Lc P2 E).
Qed.
Lemma ppv_rows cf st (Y R : mts T) sel : picks (length Y) sel -> ppv_transform cf st Y = Ok R -> length R = length Y /\ ppv_transform cf st (pick [] sel Y) = Ok (pick [] sel R).
Proof.
  intros (P1 & P2). unfold ppv_transform. destruct st as [q|]; [|discriminate]. intros E. injection E as <-. split; [apply map_length|]. f_equal. symmetry. now apply pick_map.
Qed.
(** Inside INC and INT the sieves have caches of their own (which may be stale
    after an exception): there, only integer cuts. *)
Definition rowsv (F : mts T -> res (mts T)) : Prop := forall Y sel R, same_lengths Y -> picks (length Y) sel -> F Y = Ok R -> length R = length Y /\ F (pick [] sel Y) = Ok (pick [] sel R).
Lemma wrap_rows d k (X Z : mts T) sel : same_lengths X -> picks (length X) sel -> forall acc, same_lengths acc -> length acc = length X -> wrap_inc d k X acc = Ok Z ->
  length Z = length X /\ same_lengths Z /\ wrap_inc d k (pick [] sel X) (pick [] sel acc) = Ok (pick [] sel Z).
Proof.
  intros SX P. induction d as [|d IH]; intros acc Sa La E; cbn [wrap_inc] in *; [injection E as <-; auto|].
  destruct (mapM (increments1 k) X) as [W|e] eqn:Em; [|discriminate]. cbn [bind] in E.
  rewrite (mapM_pick (increments1 k) X W [] [] sel Em (proj2 P)). cbn [bind]. apply IH; [|exact (mapM_length _ _ _ Em)|exact E].
  intros a b Ha Hb. destruct (mapM_In _ _ _ _ Em Ha) as (x & Hx & Ex). destruct (mapM_In _ _ _ _ Em Hb) as (y & Hy & Ey). rewrite (increments1_len _ _ _ Ex), (increments1_len _ _ _ Ey). now apply SX.
Qed.
Lemma cumsum_lengths (X : mts T) : same_lengths X -> same_lengths (map cumsum X).
Proof. intros S a b Ha Hb. apply in_map_iff in Ha as (x & <- & Hx). apply in_map_iff in Hb as (y & <- & Hy). rewrite !cumsum_len. now apply S. Qed.
Lemma own_rowsv s : own_sieve s -> rowsv (fun Y => fst (sv_transform parse s Y)).
Proof.
  induction s as [c st ca|c st ca|i IH d k ca|i IH ca]; intros Hs Y sel R SY P E; cbn [own_sieve sv_transform sv_cache] in *.
  - match type of E with fst (match seg_transform c ?g st Y with _ => _ end) = _ => set (get := g) in * end.
    match goal with |- _ /\ fst (match seg_transform c ?g st _ with _ => _ end) = _ => set (get' := g) end.
    assert (Q := seg_rows c get get' st Y R sel SY P (or_introl Hs)).
    destruct (seg_transform c get st Y) as [[r|e] st']; cbn [fst] in *; [|discriminate]. destruct (Q E) as (A & B). split; [exact A|].
    destruct (seg_transform c get' st (pick [] sel Y)) as [[r'|e'] st'']; cbn [fst] in *; congruence.
  - assert (Q := ppv_rows c st Y R sel P). destruct (ppv_transform c st Y) as [r|e]; cbn [fst] in *; [|discriminate]. destruct (Q E) as (A & B). split; [exact A|]. rewrite B. reflexivity.
  - destruct (wrap_inc d k Y Y) as [Z|e] eqn:Ew; [|discriminate]. destruct (wrap_rows d k Y Z sel SY P Y SY eq_refl Ew) as (LZ & SZ & ->).
    assert (Q := IH Hs Z sel R SZ). rewrite LZ in Q. specialize (Q P). cbv beta in Q. destruct (sv_transform parse i Z) as [[r|e] i']; cbn [fst] in *; [|discriminate]. destruct (Q E) as (A & B). split; [exact A|].
    destruct (sv_transform parse i (pick [] sel Z)) as [[r'|e'] i'']; cbn [fst] in *; congruence.
  - assert (Q := IH Hs (map cumsum Y) sel R (cumsum_lengths Y SY)). rewrite map_length in Q. specialize (Q P). cbv beta in Q. rewrite (pick_map [] [] cumsum sel Y (proj2 P)) in Q.
    destruct (sv_transform parse i (map cumsum Y)) as [[r|e] i']; cbn [fst] in *; [|discriminate]. destruct (Q E) as (A & B). split; [exact A|].
    destruct (sv_transform parse i (map cumsum (pick [] sel Y))) as [[r'|e'] i'']; cbn [fst] in *; congruence.
Qed.
Lemma own_set_cache_sv s ca Y : own_sieve s -> fst (sv_transform parse (sv_set_cache s ca) Y) = fst (sv_transform parse s Y).
Proof.
  destruct s as [c st ca'|c st ca'|i d k ca'|i ca']; intros Hs; cbn [sv_set_cache sv_transform sv_cache own_sieve] in *.
  - assert (Q : forall g g' : pystr -> res (cval T), seg_transform c g st Y = seg_transform c g' st Y).
    { intros g g'. unfold seg_transform. assert (E : forall n l, cuts_of g (sg_norm c) n l (sg_cut c) = cuts_of g' (sg_norm c) n l (sg_cut c)).
      { intros n l. unfold cuts_of. assert (M : mapM (cut_column g (sg_norm c) n l) (sg_cut c) = mapM (cut_column g' (sg_norm c) n l) (sg_cut c)); [|now rewrite M].
        induction Hs as [|x cut Hx F IH]; [reflexivity|]. cbn [mapM]. rewrite IH. now destruct x. }
      now rewrite !E. }
    rewrite (Q _ (get_on parse match ca' with Some inp => inp | None => map (fun x => [x]) Y end)). now destruct (seg_transform c _ st Y) as [[r|e] st'].
  - now destruct (ppv_transform c st Y).
  - destruct (wrap_inc d k Y Y) as [l|e]; [|reflexivity]. now destruct (sv_transform parse i l) as [[r|e] i'].
  - now destruct (sv_transform parse i (map cumsum Y)) as [[r|e] i'].
Qed.
Lemma sv_rows s (c : dset) (Y R : mts T) sel : row_sieve s -> same_lengths Y -> length c = length Y -> picks (length Y) sel ->
  fst (sv_transform parse (sv_set_cache s (Some c)) Y) = Ok R ->
  length R = length Y /\ fst (sv_transform parse (sv_set_cache s (Some (pick [] sel c))) (pick [] sel Y)) = Ok (pick [] sel R).
Proof.
  intros Hs SY L P.
  assert (O : own_sieve s -> fst (sv_transform parse (sv_set_cache s (Some c)) Y) = Ok R ->
    length R = length Y /\ fst (sv_transform parse (sv_set_cache s (Some (pick [] sel c))) (pick [] sel Y)) = Ok (pick [] sel R)).
  { intros Ho. rewrite !(own_set_cache_sv s) by exact Ho. now apply own_rowsv. }
  destruct s as [cf st ca|cf st ca|i d k ca|i ca]; try exact (O Hs). clear O. cbn [sv_set_cache sv_transform sv_cache].
  assert (Q := seg_rows cf (get_on parse c) (get_on parse (pick [] sel c)) st Y R sel SY P). intros E.
  assert (E1 : fst (seg_transform cf (get_on parse c) st Y) = Ok R) by (destruct (seg_transform cf (get_on parse c) st Y) as [[r|e] st']; cbn [fst] in *; congruence).
  destruct (Q) as (A & B); [|exact E1|].
  - right. intros key. destruct (fresh_coquantile parse key) as [(e & Ea)|(f & Ea)]; [left; exists e; apply Ea|]. right. exists (map f c). split; [now rewrite map_length|]. split; [apply Ea|].
    unfold get_on. rewrite Ea. do 2 f_equal. symmetry. apply pick_map. rewrite L. apply P.
  - split; [exact A|]. destruct (seg_transform cf (get_on parse (pick [] sel c)) st (pick [] sel Y)) as [[r|e] st']; cbn [fst] in *; congruence.
Qed.

(** ** Kept by fitting, transforming and copying *)
Variable qf : T -> list T -> T.
Variable order : list T -> list T.
Lemma own_sv_fit r s : forall X, own_sieve s -> own_sieve (snd (sv_fit qf r s X)).
Proof.
  induction s as [c st ca|c st ca|i IH d k ca|i IH ca]; intros X Hs; cbn [own_sieve sv_fit] in *; auto.
  - now destruct (ppv_fit qf c r X) as [[|] ?].
  - destruct (wrap_inc d k X X) as [Y|e]; [|exact Hs]. specialize (IH Y Hs). now destruct (sv_fit qf r i Y) as [[|] ?].
  - specialize (IH (map cumsum X) Hs). now destruct (sv_fit qf r i (map cumsum X)) as [[|] ?].
Qed.
Lemma own_sv_transform s : forall X, own_sieve s -> own_sieve (snd (sv_transform parse s X)).
Proof.
  induction s as [c st ca|c st ca|i IH d k ca|i IH ca]; intros X Hs; cbn [own_sieve sv_transform] in *; auto.
  - now destruct (seg_transform c _ st X) as [[|] ?].
  - now destruct (ppv_transform c st X).
  - destruct (wrap_inc d k X X) as [Y|e]; [|exact Hs]. specialize (IH Y Hs). now destruct (sv_transform parse i Y) as [[|] ?].
  - specialize (IH (map cumsum X) Hs). now destruct (sv_transform parse i (map cumsum X)) as [[|] ?].
Qed.
Lemma own_sv_copy s : forall s', own_sieve s -> sv_copy order s = Ok s' -> own_sieve s'.
Proof.
  induction s as [c st ca|c st ca|i IH d k ca|i IH ca]; intros s' Hs E; cbn [own_sieve sv_copy] in *.
  - injection E as <-. exact Hs.
  - destruct (ppv_new _ _ _ _ _); [|discriminate]. injection E as <-. exact Logic.I.
  - destruct (sv_copy order i) as [i'|e]; [|discriminate]. injection E as <-. exact (IH _ Hs eq_refl).
  - destruct (sv_copy order i) as [i'|e]; [|discriminate]. injection E as <-. exact (IH _ Hs eq_refl).
Qed.
Lemma row_sv_fit r s X : row_sieve s -> row_sieve (snd (sv_fit qf r s X)).
Proof.
  destruct s as [c st ca|c st ca|i d k ca|i ca]; intros Hs; cbn [row_sieve sv_fit] in *; auto.
  - now destruct (ppv_fit qf c r X) as [[|] ?].
  - destruct (wrap_inc d k X X) as [Y|e]; [|exact Hs]. pose proof (own_sv_fit r i Y Hs). now destruct (sv_fit qf r i Y) as [[|] ?].
  - pose proof (own_sv_fit r i (map cumsum X) Hs). now destruct (sv_fit qf r i (map cumsum X)) as [[|] ?].
Qed.
Lemma row_sv_transform s X : row_sieve s -> row_sieve (snd (sv_transform parse s X)).
Proof.
  destruct s as [c st ca|c st ca|i d k ca|i ca]; intros Hs; cbn [row_sieve sv_transform sv_fit] in *; auto.
  - now destruct (seg_transform c _ st X) as [[|] ?].
  - now destruct (ppv_transform c st X).
  - destruct (wrap_inc d k X X) as [Y|e]; [|exact Hs]. pose proof (own_sv_transform i Y Hs). now destruct (sv_transform parse i Y) as [[|] ?].
  - pose proof (own_sv_transform i (map cumsum X) Hs). now destruct (sv_transform parse i (map cumsum X)) as [[|] ?].
Qed.
Lemma row_sv_copy s s' : row_sieve s -> sv_copy order s = Ok s' -> row_sieve s'.
Proof.
  destruct s as [c st ca|c st ca|i d k ca|i ca]; intros Hs E; cbn [row_sieve sv_copy] in *.
  - injection E as <-. exact Logic.I.
  - destruct (ppv_new _ _ _ _ _); [|discriminate]. injection E as <-. exact Logic.I.
  - destruct (sv_copy order i) as [i'|e] eqn:Ei; [|discriminate]. injection E as <-. exact (own_sv_copy i i' Hs Ei).
  - destruct (sv_copy order i) as [i'|e] eqn:Ei; [|discriminate]. injection E as <-. exact (own_sv_copy i i' Hs Ei).
Qed.
End Sieves.
