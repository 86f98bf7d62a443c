(** C100: offsets.  In a fruit all of whose slices begin with increments (zero
    padded), or with standardisation or normalisation of every dimension on its
    own, adding a constant to every dimension of every series, a different one
    each time, makes no difference to anybody. *)
From Coq Require Import Ascii String List Arith ZArith Bool Lia Reals Lra.
From Verif Require Import Num Arr M_Str M_Semiring M_Words M_ISS M_Np M_Prep M_Cache M_Sieve M_PrepObj M_Cos M_Fruit M_Seeds S_Fruit L_Offset L_Offset2.
Import ListNotations.
Local Open Scope R_scope.

(** [X'] is [X] with a constant of its own added to every dimension of every series. *)
Definition shifted (X X' : dataset R) : Prop :=
  length X' = length X /\
  forall i, (i < length X)%nat -> length (nth i X' []) = length (nth i X []) /\
    forall j, (j < length (nth i X []))%nat -> exists a, nth j (nth i X' []) [] = map (fun v => a + v) (nth j (nth i X []) []).
(** The preparateur forgets offsets: INC(zero_padding=True), STD(separately=True), NRM(scale_dim=False). *)
Definition forgets_offsets (p : prep R) : Prop :=
  match p with
  | PLeaf (LINC c) _ => inc_zp c = true /\ (1 <= inc_depth c)%nat
  | PLeaf (LSTD c _) _ => std_separately c = true
  | PLeaf (LNRM scale_dim) _ => scale_dim = false
  | _ => False
  end.

Lemma shifted_off X X' : shifted X X' -> off X X'.
Proof.
  assert (G : forall (A B : Type) (da : A) (db : B) (R : A -> B -> Prop) l l', length l' = length l -> (forall i, (i < length l)%nat -> R (nth i l da) (nth i l' db)) -> Forall2 R l l').
  { intros A B da db R l. induction l as [|x l IH]; intros [|x' l'] L E; cbn in L; try discriminate; constructor.
    - apply (E 0%nat). cbn. lia.
    - apply IH; [lia|]. intros i Hi. apply (E (S i)). cbn. lia. }
  intros [L E]. apply (G _ _ [] []); [exact L|]. intros i Hi. destruct (E i Hi) as [Li Ei]. apply (G _ _ [] []); [exact Li|]. exact Ei.
Qed.

Section Lib.
Variable W : oracles R.
Variable parse : pystr -> res R.
Variable powf : R -> R -> R.
Variable qf : R -> list R -> R.
Variable eps5 : R.
Variable order : list R -> list R.
Variable show_prep : prep R -> pystr.
Variable show_cut : cut_arg -> pystr.
Variable show_q : q_arg -> pystr.
Variable show_num : R -> pystr.
Variable show_ppv : ppv_cfg R -> pystr.
Notation lib := (library W parse powf qf eps5 order show_prep show_cut show_q show_num show_ppv).
(** Every slice of fruit [f] begins with such a preparateur. *)
Definition offset_free (h : heap lib) (f : nat) : Prop :=
  exists x, nth_error (h_fr lib h) f = Some x /\
  forall sl, In sl (f_slices x) -> exists s id r p, nth_error (h_sl lib h) sl = Some s /\ sl_p s = id :: r /\ nth_error (h_p lib h) id = Some p /\ forgets_offsets p.
(** What is seen of a run: results and exceptions, and what callbacks were given. *)
Definition seen {A} (r : res A * heap lib) : res A * list (nat * event R) := (fst r, h_log lib (snd r)).
Notation RP := (RP same_sums (fun _ => True)).
Notation RI := (RI same_sums (fun _ => True)).
Notation first_blind := (first_seed blind).
Notation RSo := (fun s s' => RS same_sums (so order s) (so order s')).

Lemma start h f : offset_free h f -> exists SL F, HR lib RP RI RSo first_blind f SL F h h.
Proof.
  intros (x & Ex & P). exists (f_slices x).
  exists (flat_map (fun sl => match nth_error (h_sl lib h) sl with Some s => match sl_p s with id :: _ => [id] | [] => [] end | None => [] end) (f_slices x)).
  constructor; try reflexivity.
  - apply F2_refl. intros p. apply RP_refl; [exact same_refl|]. induction p; cbn; auto.
  - apply F2_refl. intros i. apply RI_refl; [exact same_refl|]. destruct i as [c ?|? ? ?]; cbn; [|exact Logic.I]. unfold ok_iss. destruct (io_wt c) as [[? ?]|]; exact Logic.I.
  - apply F2_refl. intros s. apply RS_refl. exact same_refl.
  - split; [|split].
    + intros y Ey. rewrite Ex in Ey. injection Ey as <-. apply incl_refl.
    + intros sl s Hsl Es. destruct (P sl Hsl) as (s' & id & r & p & Es' & Ep & _). rewrite Es in Es'. injection Es' as <-. exists id, r. split; [exact Ep|].
      apply in_flat_map. exists sl. split; [exact Hsl|]. rewrite Es, Ep. now left.
    + intros id p Hid Ep. apply in_flat_map in Hid as (sl & Hsl & Hid). destruct (P sl Hsl) as (s & id' & r & p' & Es & Esp & Ep' & B). rewrite Es, Esp in Hid.
      destruct Hid as [<-|[]]. rewrite Ep in Ep'. injection Ep' as <-. destruct p as [g ca| | |]; try contradiction. exists g, ca. split; [reflexivity|]. destruct g; try contradiction; exact B.
Qed.
(** Fitting on one of them and transforming any number of new arrays. *)
Definition fit_and_transform (f : nat) (A : dataset R) (Bs : list (dataset R)) (cbs : nat) : M lib (list (mts R)) :=
  bindM lib (fruit_fit lib f A None) (fun _ => collect lib Bs (fun B => fruit_transform lib f B cbs None)).
Lemma collect2 {A B} (R : A -> A -> Prop) f SL F l l' (b : A -> M lib B) : Forall2 R l l' ->
  (forall x y, R x y -> MR lib RP RI RSo first_blind f SL F eq (b x) (b y)) -> MR lib RP RI RSo first_blind f SL F eq (collect lib l b) (collect lib l' b).
Proof.
  intros F2 E. induction F2 as [|x y l l' Hxy _ IH]; cbn [collect]; [now apply MR_ret|]. eapply MR_bind; [now apply E|]. intros u v <-. eapply MR_bind; [exact IH|]. intros us vs <-. now apply MR_ret.
Qed.
Lemma MR_seen {A} f SL F (m m' : M lib A) h : MR lib RP RI RSo first_blind f SL F eq m m' -> HR lib RP RI RSo first_blind f SL F h h -> seen (m h) = seen (m' h).
Proof.
  intros E H. specialize (E h h H). unfold seen. destruct (m h) as [[a|e] k], (m' h) as [[a'|e'] k']; try contradiction; destruct E as [E1 E2]; cbn [fst snd]; rewrite (hr_log _ _ _ _ _ _ _ _ _ _ E2); congruence.
Qed.
Theorem C100_offsets (h : heap lib) (f : nat) (A A' : dataset R) (Bs Bs' : list (dataset R)) cbs :
  offset_free h f -> shifted A A' -> Forall2 shifted Bs Bs' ->
  seen (fit_and_transform f A Bs cbs h) = seen (fit_and_transform f A' Bs' cbs h).
Proof.
  intros O HA HB. destruct (start h f O) as (SL & F & H0). apply (MR_seen f SL F); [|exact H0].
  pose proof (offsets_sim parse powf eps5 W qf order show_prep show_cut show_q show_num show_ppv) as KS.
  unfold fit_and_transform. eapply MR_bind; [apply (fruit_fit_sim lib _ _ _ _ _ _ KS); now apply shifted_off|]. intros _ _ _.
  eapply (collect2 shifted); [exact HB|]. intros X X' HX. apply (fruit_transform_sim lib _ _ _ _ _ _ KS). now apply shifted_off.
Qed.
(** A fruit fitted before, however that happened. *)
Theorem C100_transform (h : heap lib) (f : nat) (B B' : dataset R) cbs :
  offset_free h f -> shifted B B' ->
  seen (fruit_transform lib f B cbs None h) = seen (fruit_transform lib f B' cbs None h).
Proof.
  intros O HB. destruct (start h f O) as (SL & F & H0). apply (MR_seen f SL F); [|exact H0].
  apply (fruit_transform_sim lib _ _ _ _ _ _ (offsets_sim parse powf eps5 W qf order show_prep show_cut show_q show_num show_ppv)). now apply shifted_off.
Qed.
End Lib.
Print Assumptions C100_offsets.
Print Assumptions C100_transform.

(** The hypotheses are met: INC with zero padding, the word [1], the last value;
    a fitted fruit, whose features on two shifted series are computed.  Without
    zero padding the same fruit tells them apart: the hypothesis is needed. *)
Definition ex_oracles : oracles R := {|
  o_int := fun _ n => (n - 1)%nat;
  o_choice := fun _ n size => rev (skipn (n - size) (seq 0 n));
  o_rand := fun g => {| r_nat := fun _ => g; r_idx := fun _ => [0%nat]; r_mat := fun _ r c => repeat (repeat 0 c) r |};
  o_net := fun _ _ _ => {| ffn_w1 := []; ffn_b := []; ffn_w2 := [] |};
  o_idx := fun _ _ _ _ => [] |}.
Definition ex_lib : kit R :=
  library ex_oracles (fun _ => Err ValueError) (fun x _ => x) (fun _ _ => 0) 0 (fun l => l)
    (fun _ => str "INC") (fun _ => str "c") (fun _ => str "q") (fun _ => str "x") (fun _ => str "PPV").
Definition ex_inc (zp : bool) : prepT ex_lib := PLeaf (LINC {| inc_shift := ShInt 1; inc_depth := 1; inc_zp := zp |}) None.
Definition ex_iss : issT ex_lib :=
  IPlain {| io_words := match simple_word (str "[1]") with Ok w => [simple_iword w] | Err _ => [] end; io_mode := SINGLE; io_sr := Reals; io_wt := None |} None.
Definition ex_end : sieveT ex_lib := exist _ (SSeg (seg_new KEND [CutI (-1)] None (str "L2")) None None) (conj (fun _ => eq_refl) Logic.I).
Definition ex_state (zp : bool) : heap ex_lib := run ex_lib (heap0 ex_lib 0%nat)
  [ONewPrep ex_lib (ex_inc zp); ONewIss ex_lib ex_iss; ONewSieve ex_lib ex_end; ONewFruit ex_lib (str "F"); FAdd ex_lib 0 [ArgP ex_lib 0; ArgI ex_lib 0; ArgS ex_lib 0]].
Definition ex_X : dataset R := [[[1; 2; 4]]].
Definition ex_X' : dataset R := [[[6; 7; 9]]].
Lemma ex_shifted : shifted ex_X ex_X'.
Proof.
  split; [reflexivity|]. intros [|i] Hi; [|cbn in Hi; lia]. split; [reflexivity|]. intros [|j] Hj; [|cbn in Hj; lia].
  exists 5. cbn. repeat (f_equal; try lra).
Qed.
Example C100_nonvacuous :
  offset_free ex_oracles _ _ _ _ _ _ _ _ _ _ (ex_state true) 0 /\ shifted ex_X ex_X' /\
  fst (fit_and_transform ex_oracles _ _ _ _ _ _ _ _ _ _ 0 ex_X [ex_X; ex_X'] 1 (ex_state true)) = Ok [[[3]]; [[3]]] /\
  length (h_log ex_lib (snd (fit_and_transform ex_oracles _ _ _ _ _ _ _ _ _ _ 0 ex_X [ex_X; ex_X'] 1 (ex_state true)))) = 12%nat.
Proof.
  split.
  { eexists. split; [reflexivity|]. intros sl [<-|[]]. eexists _, _, _, _. split; [reflexivity|]. split; [reflexivity|]. split; [reflexivity|]. split; [reflexivity|]. cbn. lia. }
  split; [exact ex_shifted|]. split.
  - cbv -[Rplus Rminus Rmult Ropp IZR Rleb exp Rinv]. rewrite ?(Rmult_0_r), ?exp_0. do 4 f_equal; [do 2 f_equal; ring|]. do 3 f_equal; ring.
  - reflexivity.
Qed.
Theorem C100_zero_padding_refuted : ~ (forall (h : heap ex_lib) f A A' Bs Bs' cbs,
  (exists x, nth_error (h_fr ex_lib h) f = Some x /\
    forall sl, In sl (f_slices x) -> exists s id r c ca, nth_error (h_sl ex_lib h) sl = Some s /\ sl_p s = id :: r /\ nth_error (h_p ex_lib h) id = Some (PLeaf (LINC c) ca)) ->
  shifted A A' -> Forall2 shifted Bs Bs' ->
  seen ex_oracles _ _ _ _ _ _ _ _ _ _ (fit_and_transform ex_oracles _ _ _ _ _ _ _ _ _ _ f A Bs cbs h) =
  seen ex_oracles _ _ _ _ _ _ _ _ _ _ (fit_and_transform ex_oracles _ _ _ _ _ _ _ _ _ _ f A' Bs' cbs h)).
Proof.
  intros C. specialize (C (ex_state false) 0%nat ex_X ex_X' [ex_X] [ex_X'] 0%nat).
  assert (E : forall x y : mts R, Ok (A := list (mts R)) [x] = Ok [y] -> x = y) by (intros; congruence).
  assert (E1 : fst (fit_and_transform ex_oracles (fun _ => Err ValueError) (fun x _ => x) (fun _ _ => 0) 0 (fun l => l)
    (fun _ => str "INC") (fun _ => str "c") (fun _ => str "q") (fun _ => str "x") (fun _ => str "PPV") 0 ex_X [ex_X] 0 (ex_state false)) = Ok [[[4]]]).
  { cbv -[Rplus Rminus Rmult Ropp IZR Rleb exp Rinv]. rewrite ?(Rmult_0_r), ?exp_0. do 4 f_equal; ring. }
  assert (E2 : fst (fit_and_transform ex_oracles (fun _ => Err ValueError) (fun x _ => x) (fun _ _ => 0) 0 (fun l => l)
    (fun _ => str "INC") (fun _ => str "c") (fun _ => str "q") (fun _ => str "x") (fun _ => str "PPV") 0 ex_X' [ex_X'] 0 (ex_state false)) = Ok [[[9]]]).
  { cbv -[Rplus Rminus Rmult Ropp IZR Rleb exp Rinv]. rewrite ?(Rmult_0_r), ?exp_0. do 4 f_equal; ring. }
  unfold seen in C. specialize (C ltac:(eexists; split; [reflexivity|]; intros sl [<-|[]]; eexists _, _, _, _, _; split; [reflexivity|]; split; reflexivity) ex_shifted ltac:(constructor; [exact ex_shifted|constructor])).
  apply pair_equal_spec in C. destruct C as [C _]. rewrite E1, E2 in C. apply E in C.
  assert (D : 4 = 9) by congruence. lra.
Qed.
Print Assumptions C100_zero_padding_refuted.
