(** C76: a fitted fruit transforms every series on its own. *)
From Coq Require Import Ascii String List Arith ZArith QArith Bool RelationClasses Lia.
From Verif Require Import Num Arr M_Str M_Semiring M_Words M_ISS M_Np M_Prep M_Cache M_Sieve M_PrepObj M_Cos M_Fruit M_Seeds
  L_API L_Gen S_Fruit S_Rowwise S_Rowwise2 L_Arr L_Np L_Fruit L_Fruit3 L_Fruit4 L_Fruit10 P_Copy L_Seeds L_Seeds2 P_Seeds L_Seeds3
  L_Rowwise L_Rowwise2 L_Rowwise3 L_Rowwise4 L_Rowwise5 L_Rowwise6 T_Run.
Import ListNotations.
Local Open Scope nat_scope.

(** Any seeds: if each of them treats every series on its own, so does the
    fruit, whatever happened before: X[sel] has the features A[sel]. *)
Theorem C76_any_seeds {T} `{Num T} (K : kit T) (W : lawful K) QP QI QS (C : closed K QP QI QS) g ops f X A sel cbs cbs' :
  (forall p, QP p -> rowwise_prep K p) -> (forall i, QI i -> rowwise_iss K i) -> (forall s, QS s -> rowwise_sieve K s) ->
  Forall (brings K QP QI QS) ops -> same_shapes X -> picks (length X) sel ->
  let h := run K (heap0 K g) ops in
  fst (fruit_transform K f X cbs None h) = Ok A ->
  length A = length X /\ fst (fruit_transform K f (pick [] sel X) cbs' None h) = Ok (pick [] sel A).
Proof.
  intros HP HI HS Ho SX P h E. eapply (rowwise_fruit K W QP QI QS h f X A sel cbs cbs'); try eassumption.
  - apply (reachable_wf K W). now exists g, ops.
  - exact (run_all K QP QI QS C ops Ho (heap0 K g) (all_heap0 K QP QI QS g)).
Qed.
Print Assumptions C76_any_seeds.

Section Lib.
Context {T : Type} `{N : Num T}.
Variable W : oracles T.
Variable parse : pystr -> res T.
Variable powf : T -> T -> T.
Variable qf : T -> list T -> T.
Variable eps5 : T.
Variable order : list T -> list T.
Variable show_prep : prep T -> pystr.
Variable show_cut : cut_arg -> pystr.
Variable show_q : q_arg -> pystr.
Variable show_num : T -> pystr.
Variable show_ppv : ppv_cfg T -> pystr.
Notation lib := (library W parse powf qf eps5 order show_prep show_cut show_q show_num show_ppv).
Notation law := (library_lawful W parse powf qf eps5 order show_prep show_cut show_q show_num show_ppv).

Lemma rows_closed : closed lib (row_prep : prepT lib -> Prop) (row_iss : issT lib -> Prop) (fun s : sieveT lib => row_sieve (so order s)).
Proof.
  constructor.
  - intros c p Hp. now destruct p.
  - intros g X p Hp. exact (row_fit eps5 (o_rand W g) p X Hp).
  - intros X p Hp. exact (row_transform parse powf p X Hp).
  - intros p q Hp E. cbn in E. injection E as <-. now apply row_copy.
  - intros c i Hi. now destruct i.
  - intros g X i Hi. cbn. destruct i as [o ca|o st ca]; cbn [iss_fit]; [exact Hi|]. now destruct (cos_fit o _ _ X st) as [[|] ?].
  - intros i j Hi E. cbn in E. injection E as <-. now destruct i.
  - intros c s Hs. cbn. unfold so in *. cbn. now destruct (proj1_sig s).
  - intros g Y s Hs. exact (row_sv_fit qf (r_idx (o_rand W g)) (so order s) Y Hs).
  - intros Y s Hs. exact (row_sv_transform parse (so order s) Y Hs).
  - intros s t Hs E. cbn in E. unfold sieve_copy in E.
    assert (G : forall r (Q : sv_copy order (so order s) = r),
       (match r as r0 return sv_copy order (so order s) = r0 -> res (sieveO order) with
        | Ok s' => fun E => Ok (exist _ s' (regular_copy order (so order s) s' (proj2_sig s) E)) | Err e => fun _ => Err e end Q) = Ok t -> row_sieve (so order t)).
    { intros [s'|e] Q F; [|discriminate]. injection F as <-. exact (row_sv_copy order (so order s) s' Hs Q). }
    exact (G _ eq_refl E).
Qed.
(** The seeds of the library. *)
Theorem C76_library_prep (p : prepT lib) : row_prep (p : prep T) -> rowwise_prep lib p.
Proof. intros Hp c X sel Y Sc SX L P E. exact (row_prep_rowfun parse powf p Hp c X sel Y Sc SX L P E). Qed.
Theorem C76_library_iss (i : issT lib) : row_iss (i : issO T) -> rowwise_iss lib i.
Proof. intros Hi c X sel bs Sc SX L P E. exact (iss_rows eps5 i c X sel bs Hi Sc SX L P E). Qed.
Theorem C76_library_sieve (s : sieveT lib) : row_sieve (so order s) -> rowwise_sieve lib s.
Proof. intros Hs c Y sel R Sc SY L P E. exact (sv_rows parse (so order s) c Y R sel Hs SY L P E). Qed.

Notation ok_op := (brings lib (row_prep : prepT lib -> Prop) (row_iss : issT lib -> Prop) (fun s : sieveT lib => row_sieve (so order s))).
(** For every history, every fruit and every array X of series of one shape: if
    transform(X) returns A, then transform(X[sel]) returns A[sel]. *)
Theorem C76_rows g ops f X A sel cbs cbs' :
  let h := run lib (heap0 lib g) ops in
  Forall ok_op ops -> same_shapes X -> picks (length X) sel ->
  fst (fruit_transform lib f X cbs None h) = Ok A ->
  length A = length X /\ fst (fruit_transform lib f (pick [] sel X) cbs' None h) = Ok (pick [] sel A).
Proof.
  intros h Ho SX P. apply (C76_any_seeds lib law _ _ _ rows_closed g ops f X A sel cbs cbs' C76_library_prep C76_library_iss C76_library_sieve Ho SX P).
Qed.
(** One series at a time. *)
Theorem C76_one_series g ops f X A i cbs cbs' :
  let h := run lib (heap0 lib g) ops in
  Forall ok_op ops -> same_shapes X -> i < length X ->
  fst (fruit_transform lib f X cbs None h) = Ok A -> fst (fruit_transform lib f [nth i X []] cbs' None h) = Ok [nth i A []].
Proof.
  intros h Ho SX Hi E. apply (C76_rows g ops f X A [i] cbs cbs' Ho SX); [|exact E]. split; [discriminate|]. intros j [<-|[]]. exact Hi.
Qed.
(** In two parts. *)
Theorem C76_append g ops f X1 X2 A cbs cbs1 cbs2 :
  let h := run lib (heap0 lib g) ops in
  Forall ok_op ops -> same_shapes (X1 ++ X2) -> X1 <> [] -> X2 <> [] ->
  fst (fruit_transform lib f (X1 ++ X2) cbs None h) = Ok A ->
  exists A1 A2, fst (fruit_transform lib f X1 cbs1 None h) = Ok A1 /\ fst (fruit_transform lib f X2 cbs2 None h) = Ok A2 /\ A = A1 ++ A2.
Proof.
  intros h Ho SX N1 N2 E.
  assert (G : forall {B} (d : B) (l1 l2 : list B), pick d (seq 0 (length l1)) (l1 ++ l2) = l1 /\ pick d (seq (length l1) (length l2)) (l1 ++ l2) = l2).
  { intros B d l1 l2. split; apply (nth_ext _ _ d d); rewrite ?pick_length, ?seq_length; try reflexivity; intros k Hk; rewrite nth_pick by now rewrite seq_length.
    - rewrite seq_nth by exact Hk. now rewrite app_nth1.
    - rewrite seq_nth by exact Hk. rewrite app_nth2 by lia. f_equal. lia. }
  assert (L1 : 0 < length X1) by (destruct X1; [congruence|cbn; lia]). assert (L2 : 0 < length X2) by (destruct X2; [congruence|cbn; lia]).
  destruct (C76_rows g ops f (X1 ++ X2) A (seq 0 (length X1)) cbs cbs1 Ho SX) as (LA & T1); [|exact E|].
  { split; [destruct (length X1); [lia|discriminate]|]. intros i Hi. apply in_seq in Hi. rewrite app_length. lia. }
  destruct (C76_rows g ops f (X1 ++ X2) A (seq (length X1) (length X2)) cbs cbs2 Ho SX) as (_ & T2); [|exact E|].
  { split; [destruct (length X2); [lia|discriminate]|]. intros i Hi. apply in_seq in Hi. rewrite app_length. lia. }
  rewrite (proj1 (G _ [] X1 X2)) in T1. rewrite (proj2 (G _ [] X1 X2)) in T2. rewrite app_length in LA.
  exists (firstn (length X1) A), (skipn (length X1) A). rewrite firstn_skipn. split; [|split; [|reflexivity]].
  - change (run lib (heap0 lib g) ops) with h in T1. rewrite T1. f_equal. rewrite <- (firstn_skipn (length X1) A) at 1.
    assert (Lf : length (firstn (length X1) A) = length X1) by (rewrite firstn_length; lia). rewrite <- Lf at 1. apply G.
  - change (run lib (heap0 lib g) ops) with h in T2. rewrite T2. f_equal. rewrite <- (firstn_skipn (length X1) A) at 1.
    assert (Lf : length (firstn (length X1) A) = length X1) by (rewrite firstn_length; lia). assert (Ls : length (skipn (length X1) A) = length X2) by (rewrite skipn_length; lia).
    rewrite <- Lf at 1. rewrite <- Ls at 1. apply G.
Qed.
End Lib.
Print Assumptions C76_library_prep.
Print Assumptions C76_library_iss.
Print Assumptions C76_library_sieve.
Print Assumptions C76_rows.
Print Assumptions C76_one_series.
Print Assumptions C76_append.

(** The hypotheses are met by a fitted fruit of two slices (T_Run.program1). *)
Example C76_nonvacuous :
  Forall (brings qlib (row_prep : prepT qlib -> Prop) (row_iss : issT qlib -> Prop) (fun s : sieveT qlib => row_sieve (so _ s))) program1 /\
  same_shapes X2 /\ picks (length X2) [1; 0; 1] /\
  fst (fruit_transform qlib 0 (pick [] [1; 0; 1] X2) 0 None state1) =
    Ok [[3; 2; 1; 0; 3; 0; 2; 1; 2; 1]; [3; 1; 2; 0; 3; 0; 2; 1; 1; 2]; [3; 2; 1; 0; 3; 0; 2; 1; 2; 1]]%Q.
Proof.
  split; [|split; [|split]].
  - repeat constructor; cbn [brings]; intros a Ha; repeat (destruct Ha as [<-|Ha]; [exact Logic.I|]); destruct Ha.
  - intros x y Hx Hy. repeat (destruct Hx as [<-|Hx]); repeat (destruct Hy as [<-|Hy]); try destruct Hx; try destruct Hy; reflexivity.
  - split; [discriminate|]. intros i Hi. cbn in Hi |- *. lia.
  - vm_compute. reflexivity.
Qed.
(** A FUN preparateur that looks at all series (here: subtracts the first
    series from all of them) is not covered, and the claim is false for it. *)
Definition p_diff : prepT qlib := PLeaf (LFUN (fun X => Ok (map (map2 (map2 Qminus) (hd [] X)) X))) None.
Theorem C76_fun_refuted :
  let h := run qlib (heap0 qlib 0) [ONewPrep qlib p_diff; ONewIss qlib i_one; ONewSieve qlib s_end; ONewFruit qlib (str "F"); FAdd qlib 0 [ArgP qlib 0; ArgI qlib 0; ArgS qlib 0]; FFit qlib 0 X2 None] in
  fst (fruit_transform qlib 0 X2 0 None h) = Ok [[0]; [2]]%Q /\ fst (fruit_transform qlib 0 [nth 1 X2 []] 0 None h) = Ok [[0]]%Q.
Proof. split; vm_compute; reflexivity. Qed.
