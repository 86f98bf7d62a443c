(** * C80 (Chen's identity), C81 (time reversal), C82 (zero time steps) *)
From Coq Require Import Ascii String List Arith ZArith Bool Lia Reals Lra.
From Verif Require Import S_Shuffle S_Chen Num Arr L_Arr S_ISS S_Plan S_Words M_Str M_Semiring M_Words M_ISS
  L_Tuples L_Reals L_Max L_Words L_Gen L_Rows L_ISS L_Single L_Ext L_Word2 L_General L_Algebra L_Homog L_RComp L_Chen.
Import ListNotations.
Local Open Scope R_scope.

Lemma Forall2_len_ {A B} (P : A -> B -> Prop) l l' : Forall2 P l l' -> length l = length l'.
Proof. induction 1; cbn; congruence. Qed.

Lemma seq_plus n k : forall s, seq (n + s) k = map (fun p => n + p)%nat (seq s k).
Proof. induction k as [|k IH]; intros s; cbn; [reflexivity|]. f_equal. rewrite <- IH. f_equal. lia. Qed.

(** C80.  The iterated sum of a word over a series that consists of two parts is
    computed from the iterated sums of the prefixes of the word at the end of the
    first part and those of the suffixes over the second part: nothing
    else of the first part is needed.  The empty prefix and the empty suffix count 1. *)
Theorem C80_chen_reals : forall c cA cB w ps ss els A B n1 n2,
  plain_iss c [w] Reals -> plain_iss cA ps Reals -> plain_iss cB ss Reals ->
  denotes w els -> Forall2 denotes ps (prefixes_of els) -> Forall2 denotes ss (suffixes_of els) -> no_zero els ->
  wf_dataset A n1 -> wf_dataset B n2 -> same_dims A B -> (0 < n1)%nat ->
  Forall (fun a => fits a n1 els) A -> Forall (fun b => fits b n2 els) B ->
  exists r rA rB, iss_transform c (joined A B) = Ok r /\ iss_transform cA A = Ok rA /\ iss_transform cB B = Ok rB /\
    forall i t, (i < length A)%nat -> (t < n2)%nat ->
      value r 0 i (n1 + t)
      = Rsum (map (fun j => (if (j =? 0)%nat then 1 else value rA (j - 1) i (n1 - 1))
                            * (if (j =? length els)%nat then 1 else value rB j i t)) (seq 0 (S (length els)))).
Proof.
  intros c cA cB w ps ss els A B n1 n2 Hc HcA HcB Dw Dp Ds Hz WA WB SD Hn FA FB.
  assert (Ne : els <> []). { destruct Dw as [_ (tw & [T _] & _ & ->)]. destruct tw; [congruence|discriminate]. }
  assert (Hk : (0 < length els)%nat) by (destruct els; [congruence|cbn; lia]).
  destruct (reals_values c [w] [els] (joined A B) (n1 + n2)) as (r & Er & Vr); auto; [discriminate| | |].
  { eapply (join_all _ A B); [exact SD|exact WA|exact WB|]. intros a b L. now apply jn_wf. }
  { eapply (join_all _ A B (fun a => fits a n1 els /\ wf_series a n1)); [exact SD| |exact FB|].
    - apply Forall_and; assumption.
    - intros a b L [H1 H2] H3. constructor; [|constructor]. now apply fits_jn. }
  destruct (reals_values cA ps (prefixes_of els) A n1) as (rA & ErA & VA); auto.
  { intros ->. apply Forall2_len_ in Dp. unfold prefixes_of in Dp. rewrite map_length, seq_length in Dp. cbn in Dp. lia. }
  { apply prefixes_of_all. intros u Hu. eapply no_zero_incl; eauto. }
  { eapply Forall_impl; [|exact FA]. cbn. intros a Ha. apply prefixes_of_all. intros u Hu. eapply fits_incl; eauto. }
  destruct (reals_values cB ss (suffixes_of els) B n2) as (rB & ErB & VB); auto.
  { intros ->. apply Forall2_len_ in Ds. unfold suffixes_of in Ds. rewrite map_length, seq_length in Ds. cbn in Ds. lia. }
  { apply suffixes_of_all. intros u Hu. eapply no_zero_incl; eauto. }
  { eapply Forall_impl; [|exact FB]. cbn. intros a Ha. apply suffixes_of_all. intros u Hu. eapply fits_incl; eauto. }
  exists r, rA, rB. repeat split; auto. intros i t Hi Ht.
  destruct (nth_error A i) as [a|] eqn:Ea; [|apply nth_error_None in Ea; lia].
  destruct (join_nth A B SD i a Ea) as (b & Eb & L & Ej).
  assert (Wa : wf_series a n1) by (unfold wf_dataset in WA; rewrite Forall_forall in WA; eapply WA, nth_error_In, Ea).
  rewrite (Vr 0%nat els i (jn a b) (n1 + t)%nat (top_dim els)) by (auto; lia).
  replace (S (n1 + t)) with (n1 + S t)%nat by lia. rewrite seq_app, fsum_app. unfold lv at 3. rewrite map_length. f_equal. apply map_ext_in. intros j Hj. apply in_seq in Hj.
  f_equal.
  - destruct (Nat.eqb_spec j 0) as [->|Hj0]; [cbn [firstn]; now rewrite fsum_nil|].
    rewrite (VA (j - 1)%nat (firstn j els) i a (n1 - 1)%nat (top_dim els)); [|apply prefixes_of_nth; lia|assumption|lia|apply top_dim_incl, firstn_incl].
    replace (S (n1 - 1)) with n1 by lia. unfold lv. rewrite firstn_map. apply fsum_pointwise; [now rewrite !map_length|].
    intros q p _ Hp. apply in_seq in Hp. apply (lv_at (jn a b) a (top_dim els) (firstn j els) p p q). intros d. eapply jn_at_l; eauto. lia.
  - destruct (Nat.eqb_spec j (length els)) as [->|Hjk]; [rewrite skipn_all2 by (unfold lv; now rewrite map_length); now rewrite fsum_nil|].
    rewrite (VB j (skipn j els) i b t (top_dim els)); [|apply suffixes_of_nth; lia|assumption|lia|apply top_dim_incl, skipn_incl].
    replace (seq (0 + n1) (S t)) with (map (fun p => n1 + p)%nat (seq 0 (S t))) by (rewrite <- seq_plus; f_equal; lia).
    rewrite fsum_map. unfold lv. rewrite skipn_map, map_map. apply fsum_pointwise; [now rewrite !map_length|]. intros q p _ _.
    transitivity (nth q (lv (jn a b) (top_dim els) (skipn j els)) (fun _ => 0) (n1 + p)%nat).
    + unfold lv. rewrite <- (map_map (fun el i => ext_val (jn a b) (table (top_dim els) el) i) (fun f p0 => f (n1 + p0)%nat)).
      pose proof (map_nth (fun (f : nat -> R) i => f (n1 + i)%nat) (map (fun el i => ext_val (jn a b) (table (top_dim els) el) i) (skipn j els)) (fun _ => 0) q) as MN.
      cbv beta in MN. now rewrite MN.
    + apply lv_at. intros d. eapply jn_at_r; eauto.
Qed.
Print Assumptions C80_chen_reals.

(** Over the Arctic semiring: the maximum over all ways to cut the word. The empty
    prefix and the empty suffix count 0. *)
Theorem C80_chen_arctic : forall c cA cB w ps ss els A B n1 n2,
  plain_iss c [w] (Arctic false) -> plain_iss cA ps (Arctic false) -> plain_iss cB ss (Arctic false) ->
  denotes w els -> Forall2 denotes ps (prefixes_of els) -> Forall2 denotes ss (suffixes_of els) -> no_zero els ->
  wf_dataset A n1 -> wf_dataset B n2 -> same_dims A B -> (0 < n1)%nat ->
  Forall (fun a => (top_dim els <= length a)%nat) A ->
  exists r rA rB, iss_transform c (joined A B) = Ok r /\ iss_transform cA A = Ok rA /\ iss_transform cB B = Ok rB /\
    forall i t, (i < length A)%nat -> (t < n2)%nat ->
      let cut j := (if (j =? 0)%nat then 0 else value rA (j - 1) i (n1 - 1)) + (if (j =? length els)%nat then 0 else value rB j i t) in
      (exists j, (j <= length els)%nat /\ value r 0 i (n1 + t) = cut j) /\
      (forall j, (j <= length els)%nat -> cut j <= value r 0 i (n1 + t)).
Proof.
  intros c cA cB w ps ss els A B n1 n2 Hc HcA HcB Dw Dp Ds Hz WA WB SD Hn FA.
  assert (Ne : els <> []). { destruct Dw as [_ (tw & [T _] & _ & ->)]. destruct tw; [congruence|discriminate]. }
  assert (Hk : (0 < length els)%nat) by (destruct els; [congruence|cbn; lia]).
  assert (FB : Forall (fun a => (top_dim els <= length a)%nat) B).
  { clear - SD FA. induction SD as [|a b A B L S IH]; [constructor|]. inversion FA; subst. constructor; [lia|auto]. }
  destruct (arctic_values c [w] [els] (joined A B) (n1 + n2)) as (r & Er & Vr); auto; [discriminate| | |].
  { eapply (join_all _ A B); [exact SD|exact WA|exact WB|]. intros a b L. now apply jn_wf. }
  { eapply (join_all _ A B); [exact SD|exact FA|exact FB|]. intros a b L H1 H2. constructor; [|constructor]. now rewrite jn_length. }
  destruct (arctic_values cA ps (prefixes_of els) A n1) as (rA & ErA & VA); auto.
  { intros ->. apply Forall2_len_ in Dp. unfold prefixes_of in Dp. rewrite map_length, seq_length in Dp. cbn in Dp. lia. }
  { apply prefixes_of_all. intros u Hu. eapply no_zero_incl; eauto. }
  { eapply Forall_impl; [|exact FA]. cbn. intros a Ha. apply prefixes_of_all. intros u Hu. apply top_dim_incl in Hu. lia. }
  destruct (arctic_values cB ss (suffixes_of els) B n2) as (rB & ErB & VB); auto.
  { intros ->. apply Forall2_len_ in Ds. unfold suffixes_of in Ds. rewrite map_length, seq_length in Ds. cbn in Ds. lia. }
  { apply suffixes_of_all. intros u Hu. eapply no_zero_incl; eauto. }
  { eapply Forall_impl; [|exact FB]. cbn. intros a Ha. apply suffixes_of_all. intros u Hu. apply top_dim_incl in Hu. lia. }
  exists r, rA, rB. repeat apply conj; auto. intros i t Hi Ht cut.
  destruct (nth_error A i) as [a|] eqn:Ea; [|apply nth_error_None in Ea; lia].
  destruct (join_nth A B SD i a Ea) as (b & Eb & L & Ej).
  assert (Wa : wf_series a n1) by (unfold wf_dataset in WA; rewrite Forall_forall in WA; eapply WA, nth_error_In, Ea).
  set (D := top_dim els). set (hs := lp (jn a b) D els). assert (Lh : length hs = length els) by (apply map_length).
  rewrite <- Lh.
  apply (max_split Rsum Rplus (fun _ => True) Rsum_app ltac:(intros; lra) (lp a D els) (lp b D els) hs n1 t); auto.
  - rewrite Lh. apply map_length.
  - rewrite Lh. apply map_length.
  - intros j p _ Hp. apply lp_at. intros d. eapply jn_at_l; eauto.
  - intros j p _ Hp. apply lp_at. intros d. eapply jn_at_r; eauto.
  - rewrite Lh. apply (Vr 0%nat els i (jn a b) (n1 + t)%nat D); auto. lia.
  - intros j Hj. unfold cut. rewrite Lh in Hj. destruct (Nat.eqb_spec j 0) as [->|Hj0].
    + split; [exists []; split; [repeat split; constructor|reflexivity]|]. intros tau (Lt & _). destruct tau; [cbn; lra|discriminate].
    + unfold lp. rewrite firstn_map. pose proof (VA (j - 1)%nat (firstn j els) i a (n1 - 1)%nat D) as V.
      rewrite firstn_length, Nat.min_l in V by lia. apply V; [apply prefixes_of_nth; lia|assumption|lia|apply top_dim_incl, firstn_incl].
  - intros j Hj. unfold cut. rewrite Lh in Hj |- *. destruct (Nat.eqb_spec j (length els)) as [->|Hjk].
    + rewrite Nat.sub_diag. split; [exists []; split; [repeat split; constructor|rewrite skipn_all2 by (unfold lp; now rewrite map_length); reflexivity]|].
      intros tau (Lt & _). destruct tau; [|discriminate]. rewrite skipn_all2 by (unfold lp; now rewrite map_length). cbn; lra.
    + unfold lp. rewrite skipn_map. pose proof (VB j (skipn j els) i b t D) as V.
      rewrite skipn_length in V. apply V; [apply suffixes_of_nth; lia|assumption|lia|apply top_dim_incl, skipn_incl].
Qed.
Print Assumptions C80_chen_arctic.

(** The values of an extended letter on non-negative data. *)
Lemma ext_val_nonneg x n e i : wf_series x n -> Forall (Forall (fun v => 0 <= v)) x -> (i < n)%nat -> 0 <= ext_val x e i.
Proof.
  intros [_ W] P Hi. unfold ext_val. apply Rprod_pos_ge0. apply Forall_map, Forall_forall. intros d _.
  assert (0 <= at_ x d i) as H0.
  { unfold at_. destruct (lt_dec d (length x)) as [Hd|Hd]; [|rewrite (nth_overflow x) by lia; destruct i; cbn; lra].
    rewrite Forall_forall in P, W. specialize (P _ (nth_In x [] Hd)). rewrite Forall_forall in P. apply P, nth_In. now rewrite (W _ (nth_In x [] Hd)). }
  destruct (Rle_lt_or_eq_dec _ _ H0) as [Hp|<-]; [left; now apply powerRZ_lt|].
  destruct (nth d e 0%Z) as [|p|p]; cbn; [lra|apply pow_le; lra|]. rewrite pow_i by lia. rewrite Rinv_0. lra.
Qed.
Lemma lv_nonneg x n D els tau : wf_series x n -> Forall (Forall (fun v => 0 <= v)) x -> Forall (fun i => (i < n)%nat) tau -> 0 <= Rprod (fapp (lv x D els) tau).
Proof.
  intros W P F. apply Rprod_pos_ge0. revert tau F. induction els as [|e els IH]; intros [|i tau] F; try constructor.
  - inversion F; subst. now apply (ext_val_nonneg x n).
  - inversion F; subst. now apply IH.
Qed.
Theorem C80_chen_bayesian : forall c cA cB w ps ss els A B n1 n2,
  plain_iss c [w] Bayesian -> plain_iss cA ps Bayesian -> plain_iss cB ss Bayesian ->
  denotes w els -> Forall2 denotes ps (prefixes_of els) -> Forall2 denotes ss (suffixes_of els) -> no_zero els ->
  wf_dataset A n1 -> wf_dataset B n2 -> same_dims A B -> (0 < n1)%nat ->
  Forall (Forall (Forall (fun v => 0 <= v))) A -> Forall (Forall (Forall (fun v => 0 <= v))) B ->
  Forall (fun a => fits a n1 els) A -> Forall (fun b => fits b n2 els) B ->
  exists r rA rB, iss_transform c (joined A B) = Ok r /\ iss_transform cA A = Ok rA /\ iss_transform cB B = Ok rB /\
    forall i t, (i < length A)%nat -> (t < n2)%nat ->
      let cut j := (if (j =? 0)%nat then 1 else value rA (j - 1) i (n1 - 1)) * (if (j =? length els)%nat then 1 else value rB j i t) in
      (exists j, (j <= length els)%nat /\ value r 0 i (n1 + t) = cut j) /\
      (forall j, (j <= length els)%nat -> cut j <= value r 0 i (n1 + t)).
Proof.
  intros c cA cB w ps ss els A B n1 n2 Hc HcA HcB Dw Dp Ds Hz WA WB SD Hn PA PB FA FB.
  assert (Ne : els <> []). { destruct Dw as [_ (tw & [T _] & _ & ->)]. destruct tw; [congruence|discriminate]. }
  assert (Hk : (0 < length els)%nat) by (destruct els; [congruence|cbn; lia]).
  destruct (bayes_values c [w] [els] (joined A B) (n1 + n2)) as (r & Er & Vr); auto; [discriminate| | | |].
  { eapply (join_all _ A B); [exact SD|exact WA|exact WB|]. intros a b L. now apply jn_wf. }
  { eapply (join_all _ A B); [exact SD|exact PA|exact PB|]. intros a b L H1 H2. unfold jn. apply Forall_map, Forall_forall. intros [u v] Huv. cbn.
    rewrite Forall_forall in H1, H2. apply Forall_app. split; [apply H1; eapply in_combine_l, Huv|apply H2; eapply in_combine_r, Huv]. }
  { eapply (join_all _ A B (fun a => fits a n1 els /\ wf_series a n1)); [exact SD| |exact FB|].
    - apply Forall_and; assumption.
    - intros a b L [H1 H2] H3. constructor; [|constructor]. now apply fits_jn. }
  destruct (bayes_values cA ps (prefixes_of els) A n1) as (rA & ErA & VA); auto.
  { intros ->. apply Forall2_len_ in Dp. unfold prefixes_of in Dp. rewrite map_length, seq_length in Dp. cbn in Dp. lia. }
  { apply prefixes_of_all. intros u Hu. eapply no_zero_incl; eauto. }
  { eapply Forall_impl; [|exact FA]. cbn. intros a Ha. apply prefixes_of_all. intros u Hu. eapply fits_incl; eauto. }
  destruct (bayes_values cB ss (suffixes_of els) B n2) as (rB & ErB & VB); auto.
  { intros ->. apply Forall2_len_ in Ds. unfold suffixes_of in Ds. rewrite map_length, seq_length in Ds. cbn in Ds. lia. }
  { apply suffixes_of_all. intros u Hu. eapply no_zero_incl; eauto. }
  { eapply Forall_impl; [|exact FB]. cbn. intros a Ha. apply suffixes_of_all. intros u Hu. eapply fits_incl; eauto. }
  exists r, rA, rB. repeat apply conj; auto. intros i t Hi Ht cut.
  destruct (nth_error A i) as [a|] eqn:Ea; [|apply nth_error_None in Ea; lia].
  destruct (join_nth A B SD i a Ea) as (b & Eb & L & Ej).
  assert (Wa : wf_series a n1) by (unfold wf_dataset in WA; rewrite Forall_forall in WA; eapply WA, nth_error_In, Ea).
  assert (Wb : wf_series b n2) by (unfold wf_dataset in WB; rewrite Forall_forall in WB; eapply WB, nth_error_In, Eb).
  assert (Pa : Forall (Forall (fun v => 0 <= v)) a) by (rewrite Forall_forall in PA; eapply PA, nth_error_In, Ea).
  assert (Pb : Forall (Forall (fun v => 0 <= v)) b) by (rewrite Forall_forall in PB; eapply PB, nth_error_In, Eb).
  set (D := top_dim els). set (hs := lv (jn a b) D els). assert (Lh : length hs = length els) by (apply map_length).
  rewrite <- Lh.
  apply (max_split Rprod Rmult (fun v => 0 <= v) Rprod_app ltac:(intros; now apply Rmult_le_compat) (lv a D els) (lv b D els) hs n1 t); auto.
  - rewrite Lh. apply map_length.
  - rewrite Lh. apply map_length.
  - intros j p _ Hp. apply lv_at. intros d. eapply jn_at_l; eauto.
  - intros j p _ Hp. apply lv_at. intros d. eapply jn_at_r; eauto.
  - intros j tau _ (_ & _ & F). unfold lv. rewrite firstn_map. eapply lv_nonneg; eauto. eapply Forall_impl; [|exact F]. cbn. intros; lia.
  - intros j tau _ (_ & _ & F). unfold lv. rewrite skipn_map. eapply lv_nonneg; eauto. eapply Forall_impl; [|exact F]. cbn. intros; lia.
  - rewrite Lh. apply (Vr 0%nat els i (jn a b) (n1 + t)%nat D); auto. lia.
  - intros j Hj. unfold cut. rewrite Lh in Hj. destruct (Nat.eqb_spec j 0) as [->|Hj0].
    + split; [exists []; split; [repeat split; constructor|reflexivity]|]. intros tau (Lt & _). destruct tau; [cbn; lra|discriminate].
    + unfold lv. rewrite firstn_map. pose proof (VA (j - 1)%nat (firstn j els) i a (n1 - 1)%nat D) as V.
      rewrite firstn_length, Nat.min_l in V by lia. apply V; [apply prefixes_of_nth; lia|assumption|lia|apply top_dim_incl, firstn_incl].
  - intros j Hj. unfold cut. rewrite Lh in Hj |- *. destruct (Nat.eqb_spec j (length els)) as [->|Hjk].
    + rewrite Nat.sub_diag. split; [exists []; split; [repeat split; constructor|rewrite skipn_all2 by (unfold lv; now rewrite map_length); reflexivity]|].
      intros tau (Lt & _). destruct tau; [|discriminate]. rewrite skipn_all2 by (unfold lv; now rewrite map_length). cbn; lra.
    + unfold lv. rewrite skipn_map. pose proof (VB j (skipn j els) i b t D) as V.
      rewrite skipn_length in V. apply V; [apply suffixes_of_nth; lia|assumption|lia|apply top_dim_incl, skipn_incl].
Qed.
Print Assumptions C80_chen_bayesian.

(** ** C81: series read backwards *)
Lemma rv_at x n d i : wf_series x n -> (i < n)%nat -> at_ (map (@rev R) x) d i = at_ x d (n - 1 - i).
Proof.
  intros [_ W] Hi. unfold at_. destruct (lt_dec d (length x)) as [Hd|Hd].
  - rewrite (nth_indep _ [] (rev [])) by (now rewrite map_length). rewrite map_nth. rewrite Forall_forall in W. specialize (W _ (nth_In x [] Hd)).
    rewrite rev_nth by lia. f_equal. lia.
  - rewrite !nth_overflow with (n := d) by (try rewrite map_length; lia). destruct i, (n - 1 - _)%nat; reflexivity.
Qed.
Lemma rv_wf x n : wf_series x n -> wf_series (map (@rev R) x) n.
Proof.
  intros [N W]. split; [destruct x; [congruence|discriminate]|]. apply Forall_map. eapply Forall_impl; [|exact W]. cbn. intros. now rewrite rev_length.
Qed.
Lemma rv_fits x n els : wf_series x n -> fits x n els -> fits (map (@rev R) x) n els.
Proof.
  intros W [T F]. split; [now rewrite map_length|]. intros i Hi. specialize (F (n - 1 - i)%nat ltac:(lia)). eapply Forall_impl; [|exact F].
  intros el. apply nz_el_at. intros d. now apply (rv_at x n).
Qed.
Lemma rev_incl {A} (l : list A) : incl (rev l) l.
Proof. intros x Hx. now apply in_rev. Qed.
Lemma seq_rev n : seq 0 n = rev (map (fun i => n - 1 - i)%nat (seq 0 n)).
Proof.
  apply (nth_ext _ _ 0%nat 0%nat); [now rewrite rev_length, map_length|]. rewrite seq_length. intros i Hi.
  rewrite rev_nth by (rewrite map_length, seq_length; lia). rewrite map_length, seq_length.
  rewrite (nth_indep (map _ _) 0%nat ((fun i => n - 1 - i)%nat 0%nat)) by (rewrite map_length, seq_length; lia).
  pose proof (map_nth (fun i => n - 1 - i)%nat (seq 0 n) 0%nat (n - S i)) as MN. cbv beta in MN |- *. rewrite MN. rewrite !seq_nth by lia. lia.
Qed.
Lemma lv_rev x D els : lv x D (rev els) = rev (lv x D els). Proof. unfold lv. now rewrite map_rev. Qed.
Lemma lp_rev x D els : lp x D (rev els) = rev (lp x D els). Proof. unfold lp. now rewrite map_rev. Qed.
Lemma Rsum_rev l : Rsum (rev l) = Rsum l.
Proof. induction l as [|x l IH]; [reflexivity|]. cbn [rev]. rewrite Rsum_app, IH, !Rsum_cons. cbn. lra. Qed.
Lemma Rprod_rev l : Rprod (rev l) = Rprod l.
Proof. induction l as [|x l IH]; [reflexivity|]. cbn [rev]. rewrite Rprod_app, IH, !Rprod_cons. cbn. lra. Qed.
Lemma backwards_nth X i x : nth_error X i = Some x -> nth_error (backwards X) i = Some (map (@rev R) x).
Proof. intros E. unfold backwards. now rewrite (map_nth_error _ _ _ E). Qed.
Lemma top_dim_rev els : top_dim (rev els) = top_dim els.
Proof. apply Nat.le_antisymm; apply top_dim_incl; [apply rev_incl|]. intros x Hx. now apply -> in_rev. Qed.

(** C81.  The last values over a series are the last values of the words read
    backwards over the series read backwards. *)
Theorem C81_reversal_reals : forall c c' ws ws' elss X n,
  plain_iss c ws Reals -> plain_iss c' ws' Reals -> ws <> [] ->
  Forall2 denotes ws elss -> Forall2 denotes ws' (map (@rev (list Z)) elss) -> Forall no_zero elss ->
  wf_dataset X n -> (0 < n)%nat -> Forall (fun x => Forall (fits x n) elss) X ->
  exists r r', iss_transform c X = Ok r /\ iss_transform c' (backwards X) = Ok r' /\
    forall k i, (k < length ws)%nat -> (i < length X)%nat -> value r k i (n - 1) = value r' k i (n - 1).
Proof.
  intros c c' ws ws' elss X n Hc Hc' Hne D D' Hz W Hn F.
  assert (Ll := Forall2_len_ _ _ _ D). assert (Ll' := Forall2_len_ _ _ _ D'). rewrite map_length in Ll'.
  destruct (reals_values c ws elss X n) as (r & Er & V); auto.
  destruct (reals_values c' ws' (map (@rev (list Z)) elss) (backwards X) n) as (r' & Er' & V'); auto.
  { intros ->. destruct ws; [congruence|]. cbn in *. lia. }
  { unfold wf_dataset, backwards. apply Forall_map. eapply Forall_impl; [|exact W]. intros. now apply rv_wf. }
  { apply Forall_map. eapply Forall_impl; [|exact Hz]. intros els He. eapply no_zero_incl; [apply rev_incl|exact He]. }
  { unfold backwards. apply Forall_map, Forall_forall. intros x Hx. apply Forall_map. rewrite Forall_forall in F. eapply Forall_impl; [|exact (F x Hx)].
    intros els He. eapply fits_incl; [apply rev_incl|]. apply rv_fits; [|assumption]. unfold wf_dataset in W. rewrite Forall_forall in W. now apply W. }
  exists r, r'. repeat split; auto. intros k i Hk Hi.
  destruct (nth_error X i) as [x|] eqn:Ex; [|apply nth_error_None in Ex; lia].
  destruct (nth_error elss k) as [els|] eqn:Ek; [|apply nth_error_None in Ek; lia].
  assert (Wx : wf_series x n) by (unfold wf_dataset in W; rewrite Forall_forall in W; eapply W, nth_error_In, Ex).
  rewrite (V k els i x (n - 1)%nat (top_dim els)) by (auto; lia).
  rewrite (V' k (rev els) i (map (@rev R) x) (n - 1)%nat (top_dim els)); [|exact (map_nth_error _ _ _ Ek)|now apply backwards_nth|lia|rewrite top_dim_rev; lia].
  replace (S (n - 1)) with n by lia. rewrite (seq_rev n) at 2. rewrite lv_rev, fsum_rev, fsum_map. apply fsum_pointwise; [unfold lv; now rewrite !map_length|].
  intros j p _ Hp. apply in_seq in Hp.
  pose proof (map_nth (fun (f : nat -> R) i => f (n - 1 - i)%nat) (lv (map (@rev R) x) (top_dim els) els) (fun _ => 0) j) as MN. cbv beta in MN. rewrite MN.
  apply lv_at. intros d. rewrite (rv_at x n) by (assumption || lia). f_equal. lia.
Qed.
Print Assumptions C81_reversal_reals.

Theorem C81_reversal_arctic : forall c c' ws ws' elss X n,
  plain_iss c ws (Arctic false) -> plain_iss c' ws' (Arctic false) -> ws <> [] ->
  Forall2 denotes ws elss -> Forall2 denotes ws' (map (@rev (list Z)) elss) -> Forall no_zero elss ->
  wf_dataset X n -> (0 < n)%nat -> Forall (fun x => Forall (fun els => (top_dim els <= length x)%nat) elss) X ->
  exists r r', iss_transform c X = Ok r /\ iss_transform c' (backwards X) = Ok r' /\
    forall k i, (k < length ws)%nat -> (i < length X)%nat -> value r k i (n - 1) = value r' k i (n - 1).
Proof.
  intros c c' ws ws' elss X n Hc Hc' Hne D D' Hz W Hn F.
  assert (Ll := Forall2_len_ _ _ _ D). assert (Ll' := Forall2_len_ _ _ _ D'). rewrite map_length in Ll'.
  destruct (arctic_values c ws elss X n) as (r & Er & V); auto.
  destruct (arctic_values c' ws' (map (@rev (list Z)) elss) (backwards X) n) as (r' & Er' & V'); auto.
  { intros ->. destruct ws; [congruence|]. cbn in *. lia. }
  { unfold wf_dataset, backwards. apply Forall_map. eapply Forall_impl; [|exact W]. intros. now apply rv_wf. }
  { apply Forall_map. eapply Forall_impl; [|exact Hz]. intros els He. eapply no_zero_incl; [apply rev_incl|exact He]. }
  { unfold backwards. apply Forall_map, Forall_forall. intros x Hx. apply Forall_map. rewrite Forall_forall in F. eapply Forall_impl; [|exact (F x Hx)].
    intros els He. now rewrite top_dim_rev, map_length. }
  exists r, r'. repeat split; auto. intros k i Hk Hi.
  destruct (nth_error X i) as [x|] eqn:Ex; [|apply nth_error_None in Ex; lia].
  destruct (nth_error elss k) as [els|] eqn:Ek; [|apply nth_error_None in Ek; lia].
  assert (Wx : wf_series x n) by (unfold wf_dataset in W; rewrite Forall_forall in W; eapply W, nth_error_In, Ex).
  pose proof (V k els i x (n - 1)%nat (top_dim els) Ek Ex ltac:(lia) ltac:(lia)) as M.
  pose proof (V' k (rev els) i (map (@rev R) x) (n - 1)%nat (top_dim els) (map_nth_error _ _ _ Ek) (backwards_nth _ _ _ Ex) ltac:(lia) ltac:(rewrite top_dim_rev; lia)) as M'.
  rewrite rev_length, lp_rev in M'. assert (Lf : length (lp x (top_dim els) els) = length els) by apply map_length. rewrite <- Lf in M, M'.
  eapply (is_max_unique _ _ _ _); [|exact M']. apply (max_flip Rsum); auto using Rsum_rev; [unfold lp; now rewrite !map_length|].
  intros j p _ Hp. apply lp_at. intros d. now rewrite (rv_at x n).
Qed.
Print Assumptions C81_reversal_arctic.

Theorem C81_reversal_bayesian : forall c c' ws ws' elss X n,
  plain_iss c ws Bayesian -> plain_iss c' ws' Bayesian -> ws <> [] ->
  Forall2 denotes ws elss -> Forall2 denotes ws' (map (@rev (list Z)) elss) -> Forall no_zero elss ->
  wf_dataset X n -> (0 < n)%nat -> Forall (Forall (Forall (fun v => 0 <= v))) X -> Forall (fun x => Forall (fits x n) elss) X ->
  exists r r', iss_transform c X = Ok r /\ iss_transform c' (backwards X) = Ok r' /\
    forall k i, (k < length ws)%nat -> (i < length X)%nat -> value r k i (n - 1) = value r' k i (n - 1).
Proof.
  intros c c' ws ws' elss X n Hc Hc' Hne D D' Hz W Hn P F.
  assert (Ll := Forall2_len_ _ _ _ D). assert (Ll' := Forall2_len_ _ _ _ D'). rewrite map_length in Ll'.
  destruct (bayes_values c ws elss X n) as (r & Er & V); auto.
  destruct (bayes_values c' ws' (map (@rev (list Z)) elss) (backwards X) n) as (r' & Er' & V'); auto.
  { intros ->. destruct ws; [congruence|]. cbn in *. lia. }
  { unfold wf_dataset, backwards. apply Forall_map. eapply Forall_impl; [|exact W]. intros. now apply rv_wf. }
  { unfold backwards. apply Forall_map. eapply Forall_impl; [|exact P]. cbn. intros x Hx. apply Forall_map. eapply Forall_impl; [|exact Hx]. cbn. intros. now apply Forall_rev. }
  { apply Forall_map. eapply Forall_impl; [|exact Hz]. intros els He. eapply no_zero_incl; [apply rev_incl|exact He]. }
  { unfold backwards. apply Forall_map, Forall_forall. intros x Hx. apply Forall_map. rewrite Forall_forall in F. eapply Forall_impl; [|exact (F x Hx)].
    intros els He. eapply fits_incl; [apply rev_incl|]. apply rv_fits; [|assumption]. unfold wf_dataset in W. rewrite Forall_forall in W. now apply W. }
  exists r, r'. repeat split; auto. intros k i Hk Hi.
  destruct (nth_error X i) as [x|] eqn:Ex; [|apply nth_error_None in Ex; lia].
  destruct (nth_error elss k) as [els|] eqn:Ek; [|apply nth_error_None in Ek; lia].
  assert (Wx : wf_series x n) by (unfold wf_dataset in W; rewrite Forall_forall in W; eapply W, nth_error_In, Ex).
  pose proof (V k els i x (n - 1)%nat (top_dim els) Ek Ex ltac:(lia) ltac:(lia)) as M.
  pose proof (V' k (rev els) i (map (@rev R) x) (n - 1)%nat (top_dim els) (map_nth_error _ _ _ Ek) (backwards_nth _ _ _ Ex) ltac:(lia) ltac:(rewrite top_dim_rev; lia)) as M'.
  rewrite rev_length, lv_rev in M'. assert (Lf : length (lv x (top_dim els) els) = length els) by apply map_length. rewrite <- Lf in M, M'.
  eapply (is_max_unique _ _ _ _); [|exact M']. apply (max_flip Rprod); auto using Rprod_rev; [unfold lv; now rewrite !map_length|].
  intros j p _ Hp. apply lv_at. intros d. now rewrite (rv_at x n).
Qed.
Print Assumptions C81_reversal_bayesian.

(** ** C82: time steps with nothing but zeros *)
Lemma fsum_dead {P} (ts us : list P) fs : Forall (fun f => forall u, In u us -> f u = 0) fs -> fsum (ts ++ us) fs = fsum ts fs /\ fsum (us ++ ts) fs = fsum ts fs.
Proof.
  intros Z. split.
  - revert fs Z. induction ts as [|t ts IH]; intros fs Z; cbn [app].
    + induction us as [|u us IHu]; [reflexivity|]. destruct fs as [|f fs]; [now rewrite !fsum_nil|]. rewrite fsum_cons. inversion Z as [|q qs Zf Zs]; subst.
      rewrite (Zf u (or_introl eq_refl)), Rmult_0_l, Rplus_0_l. apply IHu. eapply Forall_impl; [|exact Z]. cbn. auto.
    + destruct fs as [|f fs]; [now rewrite !fsum_nil|]. rewrite !fsum_cons. inversion Z; subst. now rewrite !IH.
  - induction us as [|u us IHu]; [reflexivity|]. destruct fs as [|f fs]; [now rewrite !fsum_nil|]. cbn [app]. rewrite fsum_cons. inversion Z as [|q qs Zf Zs]; subst.
    rewrite (Zf u (or_introl eq_refl)), Rmult_0_l, Rplus_0_l. apply IHu. eapply Forall_impl; [|exact Z]. cbn. auto.
Qed.
Lemma Rprod_has_zero l : In 0 l -> Rprod l = 0.
Proof.
  induction l as [|x l IH]; intros [].
  - subst. rewrite Rprod_cons. ring.
  - rewrite Rprod_cons, IH by assumption. ring.
Qed.
Lemma pos_no_zero els : only_positive els -> no_zero els.
Proof. intros P. eapply Forall_impl; [|exact P]. cbn. intros el H. eapply Forall_impl; [|exact H]. cbn. lia. Qed.
Lemma pos_occ el d : Forall (fun z => (0 < z)%Z) el -> (1 <= d)%nat -> (0 <= occurrences el d)%Z.
Proof.
  intros F Hd. unfold occurrences. assert (count_occ Z.eq_dec el (- Z.of_nat d)%Z = 0)%nat as ->; [|lia]. apply count_occ_not_In. intros Hi.
  rewrite Forall_forall in F. specialize (F _ Hi). lia.
Qed.
Lemma pos_fits x n els : only_positive els -> (top_dim els <= length x)%nat -> fits x n els.
Proof.
  intros P T. split; [assumption|]. intros i _. eapply Forall_impl; [|exact P]. cbn. intros el F d Hd Hneg. pose proof (pos_occ el d F Hd). lia.
Qed.
Lemma pos_zero x els el i : only_positive els -> In el els -> el <> [] -> (forall d, at_ x d i = 0) -> ext_val x (table (top_dim els) el) i = 0.
Proof.
  intros P Hel Hne E. unfold only_positive in P. rewrite Forall_forall in P. specialize (P el Hel). destruct el as [|z el]; [congruence|]. inversion P as [|q qs Hz _]; subst.
  assert (T : (Z.to_nat z <= top_dim els)%nat).
  { assert (F := proj1 (list_max_le (map Z.abs_nat (concat els)) (top_dim els)) (le_n _)). rewrite Forall_forall in F. rewrite <- Zabs2Nat.abs_nat_nonneg by lia.
    apply F. apply in_map, in_concat. exists (z :: el). split; [assumption|now left]. }
  assert (L : length (table (top_dim els) (z :: el)) = top_dim els) by (unfold table; now rewrite map_length, seq_length).
  assert (O : (0 < occurrences (z :: el) (Z.to_nat z))%Z).
  { unfold occurrences. assert (count_occ Z.eq_dec (z :: el) (- Z.of_nat (Z.to_nat z))%Z = 0)%nat as ->.
    - apply count_occ_not_In. intros Hi. rewrite Forall_forall in P. specialize (P _ Hi). lia.
    - rewrite Z2Nat.id by lia. assert (count_occ Z.eq_dec (z :: el) z > 0)%nat by (apply count_occ_In; now left). lia. }
  unfold ext_val. apply Rprod_has_zero, in_map_iff. exists (Z.to_nat z - 1)%nat. split; [|apply in_seq; rewrite L; lia].
  rewrite table_nth by lia. replace (S (Z.to_nat z - 1)) with (Z.to_nat z) by lia. rewrite E.
  destruct (occurrences (z :: el) (Z.to_nat z)); [lia| |lia]. cbn [powerRZ]. apply pow_i. lia.
Qed.
Lemma denotes_nonempty w els : denotes w els -> Forall (fun el => el <> []) els.
Proof.
  intros [_ (tw & [_ F] & _ & ->)]. apply Forall_map. eapply Forall_impl; [|exact F]. cbn. intros el [N _]. destruct el; [congruence|discriminate].
Qed.
Lemma zero_at z d i : Forall (Forall (fun v => v = 0)) z -> at_ z d i = 0.
Proof.
  intros F. unfold at_. destruct (lt_dec d (length z)) as [Hd|Hd]; [|rewrite (nth_overflow z) by lia; now destruct i].
  rewrite Forall_forall in F. specialize (F _ (nth_In z [] Hd)). rewrite Forall_forall in F.
  destruct (lt_dec i (length (nth d z []))) as [Hi|Hi]; [apply F, nth_In, Hi|now rewrite nth_overflow by lia].
Qed.
Lemma same_dims_sym A B : same_dims A B -> same_dims B A.
Proof. unfold same_dims. induction 1; constructor; auto. Qed.
Lemma same_dims_top els A B : same_dims A B -> Forall (fun x => (top_dim els <= length x)%nat) A -> Forall (fun x => (top_dim els <= length x)%nat) B.
Proof. unfold same_dims. induction 1 as [|a b A B L _ IH]; intros F; [constructor|]. inversion F; subst. constructor; [lia|auto]. Qed.

(** C82.  Words without negative letters: zero time steps in front of a series delay
    the output, which is zero up to there; zero time steps at its end repeat
    the last value. *)
Theorem C82_zeros_in_front : forall c ws elss Z X p n,
  plain_iss c ws Reals -> ws <> [] -> Forall2 denotes ws elss -> Forall only_positive elss ->
  wf_dataset Z p -> wf_dataset X n -> all_zero Z -> same_dims Z X ->
  Forall (fun x => Forall (fun els => (top_dim els <= length x)%nat) elss) X ->
  exists r r', iss_transform c X = Ok r /\ iss_transform c (joined Z X) = Ok r' /\
    forall k i, (k < length ws)%nat -> (i < length X)%nat ->
      (forall t, (t < p)%nat -> value r' k i t = 0) /\ (forall t, (t < n)%nat -> value r' k i (p + t) = value r k i t).
Proof.
  intros c ws elss Zs X p n Hc Hne D P WZ WX AZ SD F.
  assert (Ll := Forall2_len_ _ _ _ D).
  assert (Hz : Forall no_zero elss) by (eapply Forall_impl; [|exact P]; intros; now apply pos_no_zero).
  assert (FX : Forall (fun x => Forall (fits x n) elss) X).
  { eapply Forall_impl; [|exact F]. cbn. intros x Hx. rewrite Forall_forall in *. intros els He. apply pos_fits; auto. }
  assert (LZ : length Zs = length X) by (eapply Forall2_len_, SD).
  destruct (reals_values c ws elss X n) as (r & Er & V); auto.
  destruct (reals_values c ws elss (joined Zs X) (p + n)) as (r' & Er' & V'); auto.
  { eapply (join_all _ Zs X); [exact SD|exact WZ|exact WX|]. intros a b L. now apply jn_wf. }
  { eapply (join_all _ Zs X (fun _ => True)); [exact SD|apply Forall_forall; trivial|exact F|]. intros a b L _ Hb. rewrite Forall_forall in *. intros els He.
    apply pos_fits; [now apply P|]. rewrite jn_length by assumption. rewrite L. now apply Hb. }
  exists r, r'. repeat apply conj; auto. intros k i Hk Hi.
  destruct (nth_error X i) as [x|] eqn:Ex; [|apply nth_error_None in Ex; lia].
  destruct (nth_error elss k) as [els|] eqn:Ek; [|apply nth_error_None in Ek; lia].
  destruct (nth_error Zs i) as [z|] eqn:Ez; [|apply nth_error_None in Ez; lia].
  destruct (join_nth Zs X SD i z Ez) as (b & Eb & L & Ej). rewrite Ex in Eb. injection Eb as <-.
  assert (Wz : wf_series z p) by (unfold wf_dataset in WZ; rewrite Forall_forall in WZ; eapply WZ, nth_error_In, Ez).
  assert (Zz : Forall (Forall (fun v => v = 0)) z) by (unfold all_zero in AZ; rewrite Forall_forall in AZ; eapply AZ, nth_error_In, Ez).
  assert (Pe : only_positive els) by (rewrite Forall_forall in P; eapply P, nth_error_In, Ek).
  assert (Ne : els <> [] /\ Forall (fun el => el <> []) els).
  { destruct (Forall2_nth _ _ _ D k els Ek) as (w & _ & Hd). split; [|eapply denotes_nonempty, Hd]. destruct Hd as [_ (tw & [T _] & _ & ->)]. destruct tw; [congruence|discriminate]. }
  assert (DEAD : Forall (fun f => forall u, In u (seq 0 p) -> f u = 0) (lv (jn z x) (top_dim els) els)).
  { apply Forall_map, Forall_forall. intros el Hel u Hu. apply in_seq in Hu. apply pos_zero; auto; [destruct Ne as [_ Ne]; rewrite Forall_forall in Ne; now apply Ne|].
    intros d. rewrite (jn_at_l z x p) by (assumption || lia). now apply zero_at. }
  split.
  - intros t Ht. rewrite (V' k els i (jn z x) t (top_dim els)) by (auto; lia).
    assert (D2 : Forall (fun f => forall u, In u (seq 0 (S t)) -> f u = 0) (lv (jn z x) (top_dim els) els)).
    { eapply Forall_impl; [|exact DEAD]. cbn beta. intros f Hf u Hu. apply Hf. apply in_seq in Hu. apply in_seq. lia. }
    destruct (fsum_dead [] _ _ D2) as [E _]. cbn [app] in E. rewrite E. destruct els; [destruct Ne; congruence|reflexivity].
  - intros t Ht. rewrite (V' k els i (jn z x) (p + t)%nat (top_dim els)) by (auto; lia). rewrite (V k els i x t (top_dim els)) by (auto; lia).
    replace (S (p + t)) with (p + S t)%nat by lia. rewrite seq_app. rewrite (proj2 (fsum_dead _ _ _ DEAD)).
    replace (seq (0 + p) (S t)) with (map (fun q => p + q)%nat (seq 0 (S t))) by (rewrite <- seq_plus; f_equal; lia).
    rewrite fsum_map. apply fsum_pointwise; [now rewrite map_length; unfold lv; rewrite !map_length|]. intros j q _ _.
    pose proof (map_nth (fun (f : nat -> R) i => f (p + i)%nat) (lv (jn z x) (top_dim els) els) (fun _ => 0) j) as MN. cbv beta in MN. rewrite MN.
    apply lv_at. intros d. eapply jn_at_r; eauto.
Qed.
Print Assumptions C82_zeros_in_front.

Theorem C82_zeros_at_end : forall c ws elss Z X p n,
  plain_iss c ws Reals -> ws <> [] -> Forall2 denotes ws elss -> Forall only_positive elss ->
  wf_dataset X n -> wf_dataset Z p -> all_zero Z -> same_dims X Z -> (0 < n)%nat ->
  Forall (fun x => Forall (fun els => (top_dim els <= length x)%nat) elss) X ->
  exists r r', iss_transform c X = Ok r /\ iss_transform c (joined X Z) = Ok r' /\
    forall k i, (k < length ws)%nat -> (i < length X)%nat ->
      (forall t, (t < n)%nat -> value r' k i t = value r k i t) /\ (forall t, (t < p)%nat -> value r' k i (n + t) = value r k i (n - 1)).
Proof.
  intros c ws elss Zs X p n Hc Hne D P WX WZ AZ SD Hn F.
  assert (Ll := Forall2_len_ _ _ _ D).
  assert (Hz : Forall no_zero elss) by (eapply Forall_impl; [|exact P]; intros; now apply pos_no_zero).
  assert (FX : Forall (fun x => Forall (fits x n) elss) X).
  { eapply Forall_impl; [|exact F]. cbn. intros x Hx. rewrite Forall_forall in *. intros els He. apply pos_fits; auto. }
  assert (LZ : length X = length Zs) by (eapply Forall2_len_, SD).
  destruct (reals_values c ws elss X n) as (r & Er & V); auto.
  destruct (reals_values c ws elss (joined X Zs) (n + p)) as (r' & Er' & V'); auto.
  { eapply (join_all _ X Zs); [exact SD|exact WX|exact WZ|]. intros a b L. now apply jn_wf. }
  { eapply (join_all _ X Zs _ (fun _ => True)); [exact SD|exact F|apply Forall_forall; trivial|]. intros a b L Hb _. rewrite Forall_forall in *. intros els He.
    apply pos_fits; [now apply P|]. rewrite jn_length by assumption. now apply Hb. }
  exists r, r'. repeat apply conj; auto. intros k i Hk Hi.
  destruct (nth_error X i) as [x|] eqn:Ex; [|apply nth_error_None in Ex; lia].
  destruct (nth_error elss k) as [els|] eqn:Ek; [|apply nth_error_None in Ek; lia].
  destruct (join_nth X Zs SD i x Ex) as (z & Ez & L & Ej).
  assert (Wx : wf_series x n) by (unfold wf_dataset in WX; rewrite Forall_forall in WX; eapply WX, nth_error_In, Ex).
  assert (Zz : Forall (Forall (fun v => v = 0)) z) by (unfold all_zero in AZ; rewrite Forall_forall in AZ; eapply AZ, nth_error_In, Ez).
  assert (Pe : only_positive els) by (rewrite Forall_forall in P; eapply P, nth_error_In, Ek).
  assert (Ne : Forall (fun el => el <> []) els).
  { destruct (Forall2_nth _ _ _ D k els Ek) as (w & _ & Hd). eapply denotes_nonempty, Hd. }
  assert (SAME : forall t, (t < n)%nat -> fsum (seq 0 (S t)) (lv (jn x z) (top_dim els) els) = fsum (seq 0 (S t)) (lv x (top_dim els) els)).
  { intros t Ht. apply fsum_pointwise; [unfold lv; now rewrite !map_length|]. intros j q _ Hq. apply in_seq in Hq. apply lv_at. intros d. apply (jn_at_l x z n); [assumption|assumption|lia]. }
  split.
  - intros t Ht. rewrite (V' k els i (jn x z) t (top_dim els)) by (auto; lia). rewrite (V k els i x t (top_dim els)) by (auto; lia). now apply SAME.
  - intros t Ht. rewrite (V' k els i (jn x z) (n + t)%nat (top_dim els)) by (auto; lia). rewrite (V k els i x (n - 1)%nat (top_dim els)) by (auto; lia).
    rewrite <- SAME by lia. replace (S (n + t)) with (n + S t)%nat by lia. replace (S (n - 1)) with n by lia. rewrite seq_app.
    apply fsum_dead. apply Forall_map, Forall_forall. intros el Hel u Hu. apply in_seq in Hu.
    apply pos_zero; auto; [rewrite Forall_forall in Ne; now apply Ne|].
    intros d. replace u with (n + (u - n))%nat by lia. rewrite (jn_at_r x z n) by assumption. now apply zero_at.
Qed.
Print Assumptions C82_zeros_at_end.

(** Over the Arctic semiring zeros are data like any other (0 is not its zero). *)
Definition cfg_of (ws : list (sword R)) (s : semiring) : iss_cfg R :=
  {| is_words := map simple_iword ws; is_mode := SINGLE; is_sr := s; is_wt := None; is_wt_name := [] |}.
Theorem C82_arctic_refuted : exists w : sword R, simple_word (str "[1]") = Ok w /\
  exists r r', iss_transform (cfg_of [w] (Arctic false)) [[[-1]]] = Ok r /\
    iss_transform (cfg_of [w] (Arctic false)) (joined [[[0]]] [[[-1]]]) = Ok r' /\
    value r' 0 0 1 = 0 /\ value r 0 0 0 = -1.
Proof.
  exists {| sw_name := str "[1]"; sw_maxdim := 1; sw_exts := [[1]]%Z; sw_alpha := None |}.
  split; [reflexivity|]. exists [[[-1]]], [[[0; 0]]]. split; [rcompute|]. split; [rcompute|]. split; reflexivity.
Qed.
Print Assumptions C82_arctic_refuted.

(** Non-vacuity: "[1][2]" on two series of two dimensions, cut after two of five steps. *)
Definition ch_w (name : String.string) (exts : list (list Z)) : sword R :=
  {| sw_name := str name; sw_maxdim := length (hd [] exts); sw_exts := exts; sw_alpha := None |}.
Lemma ch_denotes name els : simple_word (str name) = Ok (ch_w name (map (table (top_dim els)) els)) ->
  spells (str name) els -> denotes (ch_w name (map (table (top_dim els)) els)) els.
Proof. intros E S. split; assumption. Qed.
Example C80_nonvacuous :
  let w := ch_w "[1][2]" [[1; 0]; [0; 1]]%Z in let els := [[1]; [2]]%Z in
  let ps := [ch_w "[1]" [[1]]%Z; w] in let ss := [w; ch_w "[2]" [[0; 1]]%Z] in
  let A := [[[1; 2]; [3; 4]]; [[0; 1]; [2; 5]]] in let B := [[[5; 6; 7]; [8; 9; 1]]; [[1; 1; 2]; [1; 0; 3]]] in
  plain_iss (cfg_of [w] Reals) [w] Reals /\ plain_iss (cfg_of ps Reals) ps Reals /\ plain_iss (cfg_of ss Reals) ss Reals /\
  denotes w els /\ Forall2 denotes ps (prefixes_of els) /\ Forall2 denotes ss (suffixes_of els) /\ no_zero els /\
  Forall2 denotes [ch_w "[2][1]" [[0; 1]; [1; 0]]%Z] (map (@rev (list Z)) [els]) /\
  wf_dataset A 2 /\ wf_dataset B 3 /\ same_dims A B /\ only_positive els /\
  Forall (fun a => fits a 2 els) A /\ Forall (fun b => fits b 3 els) B /\
  joined A B = [[[1; 2; 5; 6; 7]; [3; 4; 8; 9; 1]]; [[0; 1; 1; 1; 2]; [2; 5; 1; 0; 3]]] /\
  backwards A = [[[2; 1]; [4; 3]]; [[1; 0]; [5; 2]]] /\
  all_zero [[[0; 0; 0]; [0; 0; 0]]; [[0; 0; 0]; [0; 0; 0]]] /\ same_dims A [[[0; 0; 0]; [0; 0; 0]]; [[0; 0; 0]; [0; 0; 0]]].
Proof.
  assert (S1 : spells (str "[1]") [[1]]%Z).
  { exists [[TShort false "1"%char]]. split; [|split; reflexivity]. split; [discriminate|]. repeat constructor; discriminate. }
  assert (S2 : spells (str "[2]") [[2]]%Z).
  { exists [[TShort false "2"%char]]. split; [|split; reflexivity]. split; [discriminate|]. repeat constructor; discriminate. }
  assert (S12 : spells (str "[1][2]") [[1]; [2]]%Z).
  { exists [[TShort false "1"%char]; [TShort false "2"%char]]. split; [|split; reflexivity]. split; [discriminate|]. repeat constructor; discriminate. }
  assert (S21 : spells (str "[2][1]") [[2]; [1]]%Z).
  { exists [[TShort false "2"%char]; [TShort false "1"%char]]. split; [|split; reflexivity]. split; [discriminate|]. repeat constructor; discriminate. }
  assert (D12 : denotes (ch_w "[1][2]" [[1; 0]; [0; 1]]%Z) [[1]; [2]]%Z) by (split; [reflexivity|exact S12]).
  assert (D1 : denotes (ch_w "[1]" [[1]]%Z) [[1]]%Z) by (split; [reflexivity|exact S1]).
  assert (D2 : denotes (ch_w "[2]" [[0; 1]]%Z) [[2]]%Z) by (split; [reflexivity|exact S2]).
  assert (D21 : denotes (ch_w "[2][1]" [[0; 1]; [1; 0]]%Z) [[2]; [1]]%Z) by (split; [reflexivity|exact S21]).
  assert (P : only_positive [[1]; [2]]%Z) by (repeat constructor).
  cbv zeta. repeat apply conj; try exact D12; try exact P; try reflexivity; try (now (repeat constructor; discriminate)).
  - exact S12.
  - constructor; [exact D1|]. constructor; [exact D12|]. constructor.
  - constructor; [exact D12|]. constructor; [exact D2|]. constructor.
  - constructor; [exact D21|]. constructor.
  - apply Forall_cons; [|apply Forall_cons; [|apply Forall_nil]]; (apply pos_fits; [exact P|cbn; lia]).
  - apply Forall_cons; [|apply Forall_cons; [|apply Forall_nil]]; (apply pos_fits; [exact P|cbn; lia]).
Qed.
