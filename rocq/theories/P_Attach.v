(** C87: which series the windows and the weightings of a fruit look at. *)
From Coq Require Import Ascii String List Arith ZArith Bool Reals Lia Lra.
From Verif Require Import Num Arr M_Str M_Semiring M_Words M_ISS M_Np M_Prep M_Cache M_Sieve M_PrepObj M_Cos M_Fruit M_Seeds
  S_ISS S_Prep L_Str L_Prep P_Prep.
Import ListNotations.
Local Open Scope R_scope.

(** What WIN(start, stop) does to [X] when it looks at the series [C]:
    outside of the window of each series there are zeros, and the window
    begins at the last time at which at most start and ends at the last at
    which at most stop of the quadratic variation of (the first dimension of)
    that series has passed. *)
Definition windowed_by (C : dataset R) (start stop : R) (X Y : dataset R) (n d l : nat) : Prop :=
  has_shape Y n d l /\
  forall i, (i < n)%nat ->
    let v := variation (fun u => u * u) (entry C i 0) in
    exists a b, (1 <= a)%nat /\ (a <= l)%nat /\ (b <= l)%nat /\
      (forall t, (t < l)%nat -> ((t < a)%nat <-> v t <= start * v (l - 1)%nat)) /\
      (forall t, (t < l)%nat -> ((t < b)%nat <-> v t <= stop * v (l - 1)%nat)) /\
      forall j t, (j < d)%nat -> (t < l)%nat ->
        ((a - 1 <= t < b)%nat -> entry Y i j t = entry X i j t) /\
        (~ (a - 1 <= t < b)%nat -> entry Y i j t = 0).

Lemma win_run_transform parse a b qa qb n dC d l (C X : dataset R) : has_shape C n dC l -> has_shape X n d l ->
  ~ In ":"%char a -> ~ In ":"%char b -> parse a = Ok qa -> parse b = Ok qb ->
  win_run parse C a b X = win_transform qa qb C X.
Proof.
  intros HC HX Na Nb Pa Pb.
  assert (CF : forall r q, ~ In ":"%char r -> parse r = Ok q -> cache_fresh parse C COQUANTILE (r ++ str ":L2") = Ok (VCoq (coquantile q (L2_sum C)))).
  { intros r q Nr Pr. unfold cache_fresh, compute. change (r ++ str ":L2") with (r ++ colon :: str "L2"). rewrite split_on_sep by exact Nr.
    change (split_on colon (str "L2")) with [str "L2"]. cbv beta iota. change (eqs (str "L2") (str "L1")) with false. cbv iota.
    change (eqs (str "L2") (str "L2")) with true. cbv iota. rewrite Pr. reflexivity. }
  unfold win_run. rewrite (CF a qa Na Pa), (CF b qb Nb Pb). cbn [bind].
  destruct HC as [LC _], HX as [LX _]. assert (K : forall q, length (coquantile q (L2_sum C)) = n) by (intros q; unfold coquantile, L2_sum; now rewrite !map_length).
  rewrite !K, LX, Nat.min_id, Nat.leb_refl. reflexivity.
Qed.

Section Lib.
Variable W : oracles R.
Variable parse : pystr -> res R.
Variable powf : R -> R -> R.
Variable qf : R -> list R -> R.
Variable eps5 : R.
Variable order : list R -> list R.
Variable show_prep : prep R -> pystr.
Variable show_cut : cut_arg -> pystr.
Variable show_q : q_arg -> pystr.
Variable show_num : R -> pystr.
Variable show_ppv : ppv_cfg R -> pystr.
Notation lib := (library W parse powf qf eps5 order show_prep show_cut show_q show_num show_ppv).

(** C87: a preparateur WIN of a slice looks at the input of the fruit (the
    array given to the cache, C25), not at the prepared series it is given. *)
Theorem C87_window_in_slice : forall a b qa qb ca C X n dC d l,
  has_shape C n dC l -> (1 <= dC)%nat -> has_shape X n d l -> (1 <= l)%nat ->
  ~ In ":"%char a -> ~ In ":"%char b -> parse a = Ok qa -> parse b = Ok qb -> 0 <= qa ->
  exists Y, fst (p_transform lib X (p_attach lib C (PLeaf (LWIN a b) ca : prepT lib))) = Ok Y /\ windowed_by C qa qb X Y n d l.
Proof.
  intros a b qa qb ca C X n dC d l HC HdC HX Hl Na Nb Pa Pb H0.
  destruct (C40_win qa qb C dC X n d l HC HdC HX Hl H0) as (Y & E & HY & V). exists Y. split; [|split; [exact HY|exact V]].
  change (p_transform lib X (p_attach lib C (PLeaf (LWIN a b) ca : prepT lib))) with (pr_transform parse powf (PLeaf (LWIN a b) (Some C)) X).
  cbn [pr_transform pr_cache leaf_transform]. rewrite (win_run_transform parse a b qa qb n dC d l C X HC HX Na Nb Pa Pb), E. reflexivity.
Qed.
(** Inside NEW it looks at the series it is given: the cache is attached to
    the wrapper only. *)
Theorem C87_window_in_new : forall a b qa qb ca C X n d l,
  has_shape X n d l -> (1 <= n)%nat -> (1 <= d)%nat -> (1 <= l)%nat ->
  ~ In ":"%char a -> ~ In ":"%char b -> parse a = Ok qa -> parse b = Ok qb -> 0 <= qa ->
  exists Y, fst (p_transform lib X (p_attach lib C (PNew (PLeaf (LWIN a b) None) ca : prepT lib))) = Ok (map2 (fun x y => x ++ y) X Y) /\
    windowed_by X qa qb X Y n d l.
Proof.
  intros a b qa qb ca C X n d l HX Hn Hd Hl Na Nb Pa Pb H0.
  destruct (C40_win qa qb X d X n d l HX Hd HX Hl H0) as (Y & E & HY & V). exists Y. split; [|split; [exact HY|exact V]].
  change (p_transform lib X (p_attach lib C (PNew (PLeaf (LWIN a b) None) ca : prepT lib))) with (pr_transform parse powf (PNew (PLeaf (LWIN a b) None) (Some C)) X).
  cbn [pr_transform pr_cache leaf_transform]. rewrite (win_run_transform parse a b qa qb n d d l X X HX HX Na Nb Pa Pb), E.
  cbn [fst]. unfold new_transform. cbn [bind].
  pose proof (lenX_shape X n d l HX Hn Hd) as L1. pose proof (lenX_shape Y n d l HY Hn Hd) as L2.
  destruct HX as [LX FX], HY as [LY FY]. rewrite LX, LY, Nat.eqb_refl. cbn [orb andb].
  rewrite L1, L2, Nat.eqb_refl. cbn [orb fst]. f_equal.
  assert (S1 : forall y, Forall (fun r : list R => length r = l) y -> map (stretch l) y = y).
  { intros y Fy. rewrite <- map_id. apply map_ext_in. intros r Hr. rewrite Forall_forall in Fy. specialize (Fy r Hr).
    unfold stretch. destruct r as [|u [|u2 r]]; try reflexivity. cbn in Fy. rewrite <- Fy. reflexivity. }
  clear - FY S1. revert Y FY. induction X as [|x X IH]; intros [|y Y] FY; cbn [map2]; try reflexivity.
  inversion FY as [|y' Y' [_ Ty] FY']; subst. rewrite S1 by exact Ty. now rewrite IH.
Qed.

Lemma batch_rows_same sr (X : dataset R) (f g : dataset R -> list (series R)) total plan ws : f X = g X -> forall i,
  batch_rows sr X (Some {| wg_lookup := f; wg_total := total |}) plan i ws = batch_rows sr X (Some {| wg_lookup := g; wg_total := total |}) plan i ws.
Proof.
  intros E. induction ws as [|w ws IH]; intros i; [reflexivity|]. cbn [batch_rows]. rewrite IH.
  destruct w; cbn [iterated_sums wg_lookup wg_total]; [rewrite E|]; reflexivity.
Qed.
Lemma plain_gen_same inp inp' words mode sr k k' total X :
  wt_lookup eps5 inp k X = wt_lookup eps5 inp' k' X -> forall ws i,
  plain_gen eps5 inp {| io_words := words; io_mode := mode; io_sr := sr; io_wt := Some (k, total) |} X i ws =
  plain_gen eps5 inp' {| io_words := words; io_mode := mode; io_sr := sr; io_wt := Some (k', total) |} X i ws.
Proof.
  intros E ws. induction ws as [|w ws IH]; intros i; [reflexivity|]. cbn [plain_gen io_wt io_sr io_cfg is_wt option_map fst snd]. rewrite E, IH.
  rewrite (batch_rows_same sr X (fun X0 => match wt_lookup eps5 inp k X0 with Ok l => l | Err _ => [] end)
             (fun X0 => match wt_lookup eps5 inp' k' X0 with Ok l => l | Err _ => [] end)) by now rewrite E. reflexivity.
Qed.
(** C87: the iterated sums with the weightings L1 and L2 are those with the
    user-defined weighting that returns the table of L1 resp. L2 (C56) for
    the input of the fruit or, with on_prepared=True, for the series the
    ISS is given. *)
Definition with_weighting (words : list (iword R)) (mode : issmode) (sr : semiring) (k : wkind) (total : bool) : issT lib :=
  IPlain {| io_words := words; io_mode := mode; io_sr := sr; io_wt := Some (k, total) |} None.
Definition table (two relative : bool) (tr : option (R -> pynum R)) (scale : R) (Y : dataset R) : res (list (series R)) :=
  lp_lookup relative eps5 tr scale (if two then L2_sum Y else L1_sum Y).
Theorem C87_weighting_of_input : forall words mode sr two relative tr scale total C X,
  i_batches lib (i_attach lib C (with_weighting words mode sr (WLp two false relative tr scale) total)) X =
  i_batches lib (with_weighting words mode sr (WCustom (fun _ => table two relative tr scale C)) total) X.
Proof. intros. destruct words; [reflexivity|]. apply plain_gen_same; reflexivity. Qed.
Theorem C87_weighting_of_prepared : forall words mode sr two relative tr scale total C X,
  i_batches lib (i_attach lib C (with_weighting words mode sr (WLp two true relative tr scale) total)) X =
  i_batches lib (with_weighting words mode sr (WCustom (fun Y => table two relative tr scale Y)) total) X.
Proof. intros. destruct words; [reflexivity|]. apply plain_gen_same; reflexivity. Qed.
(** Without a cache attached (an ISS used on its own) both are the same. *)
Theorem C87_weighting_alone : forall words mode sr two prepared relative tr scale total X,
  i_batches lib (with_weighting words mode sr (WLp two prepared relative tr scale) total) X =
  i_batches lib (with_weighting words mode sr (WCustom (fun Y => table two relative tr scale Y)) total) X.
Proof. intros. destruct words; [reflexivity|]. destruct prepared; (apply plain_gen_same; reflexivity). Qed.
(** Indices, Plateaus and user-defined weightings do not look at the cache,
    nor does CosWISS. *)
Theorem C87_weighting_no_cache : forall words mode sr k total C X,
  match k with WLp _ _ _ _ _ => False | _ => True end ->
  i_batches lib (i_attach lib C (with_weighting words mode sr k total)) X = i_batches lib (with_weighting words mode sr k total) X.
Proof. intros words mode sr k total C X K. destruct k; [|contradiction| |]; (destruct words; [reflexivity|]); (apply plain_gen_same; reflexivity). Qed.
Theorem C87_cos_no_cache : forall c st ca C X,
  i_batches lib (i_attach lib C (ICos c st ca : issT lib)) X = i_batches lib (ICos c st ca : issT lib) X.
Proof. reflexivity. Qed.
Theorem C87_unweighted_no_cache : forall words mode sr ca C X,
  let i : issT lib := IPlain {| io_words := words; io_mode := mode; io_sr := sr; io_wt := None |} ca in
  i_batches lib (i_attach lib C i) X = i_batches lib i X.
Proof.
  intros. destruct words as [|w ws]; [reflexivity|]. cbn [i_attach i_batches library iss_set_cache iss_batches i io_words].
  generalize (w :: ws) at 2 4 as us. intros us. generalize 0%nat as m.
  induction us as [|u us IH]; intros m; [reflexivity|]. cbn [plain_gen io_wt io_sr io_cfg is_wt option_map]. rewrite IH. reflexivity.
Qed.
End Lib.
Print Assumptions C87_window_in_slice.
Print Assumptions C87_window_in_new.
Print Assumptions C87_weighting_of_input.
Print Assumptions C87_weighting_no_cache.

(** Non-vacuity: a word and a window. *)
Example C87_example : forall parse qb, parse (str "0.5") = Ok (1/2) -> parse (str "1") = Ok qb ->
  ~ In ":"%char (str "0.5") /\ ~ In ":"%char (str "1") /\ has_shape [[[0; 1; 3]]] 1 1 3 /\
  win_run parse [[[0; 1; 3]]] (str "0.5") (str "1") [[[5; 6; 7]]] = win_transform (1/2) qb [[[0; 1; 3]]] [[[5; 6; 7]]].
Proof.
  intros parse qb P1 P2.
  assert (N1 : ~ In ":"%char (str "0.5")) by (cbn; intuition discriminate).
  assert (N2 : ~ In ":"%char (str "1")) by (cbn; intuition discriminate).
  assert (S3 : forall u v w : R, has_shape [[[u; v; w]]] 1 1 3) by (intros; split; [reflexivity|repeat constructor]).
  split; [exact N1|]. split; [exact N2|]. split; [apply S3|]. apply (win_run_transform parse _ _ _ _ 1 1 1 3); auto.
Qed.
