(** Properties C01-C04: what ISS.transform computes in the three semirings. *)
From Coq Require Import Ascii String List Arith ZArith Bool Lia Reals Lra.
From Verif Require Import Num Arr S_ISS M_Str M_Semiring M_Words M_ISS L_Tuples L_Single L_RComp.
Import ListNotations.
Open Scope R_scope.

(** The specification's tuple list is what it claims to be. *)
Theorem increasing_tuples_spec : forall k n tau,
  In tau (itup k n) <-> length tau = k /\ Sorted.StronglySorted lt tau /\ Forall (fun i => (i < n)%nat) tau.
Proof. exact itup_In. Qed.
Theorem increasing_tuples_once : forall k n, NoDup (itup k n).
Proof. exact itup_NoDup. Qed.

(** C01. *)
Theorem C01_reals_iterated_sum : forall (c : iss_cfg R) (words : list (sword R)) X n,
  is_words c = map simple_iword words -> is_mode c = SINGLE -> is_sr c = Reals -> is_wt c = None ->
  words <> [] -> wf_dataset X n ->
  Forall (fun w => sw_exts w <> [] /\
      Forall (fun x => letters_in (length x) (sw_exts w) /\ nonzero_where_neg x n (sw_exts w)) X) words ->
  iss_transform c X
  = Ok (map (fun w => map (fun x => map (iss x (sw_exts w)) (seq 0 n)) X) words).
Proof. exact reals_api. Qed.
Print Assumptions C01_reals_iterated_sum.
Theorem C01_zero_before_word_fits : forall X w t, (t + 1 < length w)%nat -> iss X w t = 0.
Proof. exact iss_early. Qed.
Print Assumptions C01_zero_before_word_fits.

(** C02. *)
Theorem C02_weighted_reals : forall (c : iss_cfg R) (words : list (sword R)) wt X n,
  is_words c = map simple_iword words -> is_mode c = SINGLE -> is_sr c = Reals -> is_wt c = Some wt ->
  words <> [] -> wf_dataset X n ->
  length (wg_lookup wt X) = length X -> Forall (fun g => length g = n) (wg_lookup wt X) ->
  Forall (fun w => sw_exts w <> [] /\
      Forall (fun x => letters_in (length x) (sw_exts w) /\ nonzero_where_neg x n (sw_exts w)) X) words ->
  iss_transform c X
  = Ok (map (fun w => map2 (fun x g => map (iss_weighted x (sw_exts w) (get_alpha w) g (wg_total wt)) (seq 0 n))
                           X (wg_lookup wt X)) words).
Proof. exact reals_weighted_api. Qed.
Print Assumptions C02_weighted_reals.
Theorem C02_zero_weighting_is_unweighted : forall X w a k total t,
  iss_weighted X w a (repeat 0 k) total t = iss X w t.
Proof. exact iss_weighted_zero_g. Qed.
Print Assumptions C02_zero_weighting_is_unweighted.

(** C03. [wexp] is the weighting exponent (0 without weighting). *)
Theorem C03_arctic_maximum : forall (c : iss_cfg R) (words : list (sword R)) X n,
  is_words c = map simple_iword words -> is_mode c = SINGLE -> is_sr c = Arctic false ->
  words <> [] -> wf_dataset X n ->
  (match is_wt c with None => True | Some w => length (wg_lookup w X) = length X /\ Forall (fun g => length g = n) (wg_lookup w X) end) ->
  Forall (fun w => sw_exts w <> [] /\ Forall (fun x => tables_in (length x) (sw_exts w)) X) words ->
  exists rows, iss_transform c X = Ok rows /\ length rows = length words /\
    Forall (fun row => length row = length X /\ Forall (fun y => length y = n) row) rows /\
    forall r i t w x, nth_error words r = Some w -> nth_error X i = Some x -> (t < n)%nat ->
      is_max (nondec_upto (length (sw_exts w)) t)
             (fun tau => word_val_plus x (sw_exts w) tau + wexp (is_wt c) X i (get_alpha w) tau t)
             (nth t (nth i (nth r rows []) []) 0).
Proof. exact arctic_api. Qed.
Print Assumptions C03_arctic_maximum.

(** C04. *)
Theorem C04_bayesian_maximum : forall (c : iss_cfg R) (words : list (sword R)) X n,
  is_words c = map simple_iword words -> is_mode c = SINGLE -> is_sr c = Bayesian ->
  words <> [] -> wf_dataset X n -> Forall (Forall (Forall (fun v => 0 <= v))) X ->
  (match is_wt c with None => True | Some w => length (wg_lookup w X) = length X /\ Forall (fun g => length g = n) (wg_lookup w X) end) ->
  Forall (fun w => sw_exts w <> [] /\
      Forall (fun x => letters_in (length x) (sw_exts w) /\ nonzero_where_neg x n (sw_exts w)) X) words ->
  exists rows, iss_transform c X = Ok rows /\ length rows = length words /\
    Forall (fun row => length row = length X /\ Forall (fun y => length y = n) row) rows /\
    forall r i t w x, nth_error words r = Some w -> nth_error X i = Some x -> (t < n)%nat ->
      is_max (nondec_upto (length (sw_exts w)) t)
             (fun tau => word_val x (sw_exts w) tau * exp (wexp (is_wt c) X i (get_alpha w) tau t))
             (nth t (nth i (nth r rows []) []) 0).
Proof. exact bayesian_api. Qed.
Print Assumptions C04_bayesian_maximum.

(** The word [1][1], parsed. *)
Definition w11 : sword R :=
  {| sw_name := "[1][1]"%string; sw_maxdim := 1; sw_exts := [[1%Z]; [1%Z]]; sw_alpha := None |}.
Example w11_parsed : simple_word (T := R) "[1][1]"%string = Ok w11.
Proof. reflexivity. Qed.
Definition cfg1 (s : semiring) : iss_cfg R :=
  {| is_words := [simple_iword w11]; is_mode := SINGLE; is_sr := s; is_wt := None; is_wt_name := [] |}.

(** On negative data the running maximum is not the maximum over tuples. *)
Theorem C04_negative_data_refuted :
  exists rows, iss_transform (cfg1 Bayesian) [[[-1; -2]]] = Ok rows /\
    ~ is_max (nondec_upto 2 1) (word_val [[-1; -2]] [[1%Z]; [1%Z]]) (nth 1 (nth 0 (nth 0 rows []) []) 0).
Proof.
  exists [[[1; 2]]]. split; [rcompute|]. intros [_ Hmax].
  specialize (Hmax [1%nat; 1%nat]). cbn [nth] in Hmax.
  assert (Hv : word_val [[-1; -2]] [[1%Z]; [1%Z]] [1%nat; 1%nat] = 4).
  { rcbv. lra. }
  rewrite Hv in Hmax. assert (4 <= 2); [|lra]. apply Hmax.
  repeat split; repeat constructor.
Qed.
Print Assumptions C04_negative_data_refuted.

(** ** The hypotheses are met *)
(** [2,-1] uses a negative exponent of dimension 1 and dimension 2 twice. *)
Definition w2 : sword R :=
  {| sw_name := "[22-1][1]"%string; sw_maxdim := 2; sw_exts := [[(-1)%Z; 2%Z]; [1%Z; 0%Z]]; sw_alpha := None |}.
Example w2_parsed : simple_word (T := R) "[22-1][1]"%string = Ok w2.
Proof. reflexivity. Qed.
Definition X2 : dataset R := [[[1; 2; 3]; [4; 5; 6]]; [[2; 2; 1]; [0; 1; 0]]].
Definition wt2 (total : bool) : weighting R :=
  {| wg_lookup := fun X => map (fun _ => [0; 1/2; 1]) X; wg_total := total |}.

Lemma X2_wf : wf_dataset X2 3.
Proof. repeat constructor; discriminate. Qed.
Lemma X2_ok w : w = w11 \/ w = w2 -> sw_exts w <> [] /\
  Forall (fun x => letters_in (length x) (sw_exts w) /\ nonzero_where_neg x 3 (sw_exts w)) X2.
Proof.
  intros [-> | ->]; (split; [discriminate|]);
    (repeat (apply Forall_cons || apply Forall_nil); split;
     unfold letters_in, nonzero_where_neg;
     repeat (apply Forall_cons || apply Forall_nil);
     try (intros j Hj _; cbn in *; lia);
     intros j i Hj Hneg Hi; cbn in Hj;
     destruct j as [|[|j]]; cbn in Hneg; try lia;
     destruct i as [|[|[|i]]]; try lia; unfold at_; cbn; lra).
Qed.
Example C01_nonvacuous : wf_dataset X2 3 /\
  Forall (fun w => sw_exts w <> [] /\
      Forall (fun x => letters_in (length x) (sw_exts w) /\ nonzero_where_neg x 3 (sw_exts w)) X2) [w11; w2].
Proof.
  split; [exact X2_wf|].
  apply Forall_cons; [apply X2_ok; auto|]. apply Forall_cons; [apply X2_ok; auto|]. apply Forall_nil.
Qed.
(** ... and the result is not trivial. *)
Example C01_value : iss [[1; 2; 3]; [4; 5; 6]] (sw_exts w2) 2 = 16 * 2 + 16 * 3 + 25 / 2 * 3.
Proof. rcbv. lra. Qed.
Example C02_nonvacuous : forall b, length (wg_lookup (wt2 b) X2) = length X2 /\
  Forall (fun g => length g = 3%nat) (wg_lookup (wt2 b) X2).
Proof. intros b. split; [reflexivity|]. repeat constructor. Qed.
Example C03_nonvacuous : Forall (fun w => sw_exts w <> [] /\ Forall (fun x => tables_in (length x) (sw_exts w)) X2) [w11; w2].
Proof. repeat constructor; try discriminate. Qed.
Example C04_nonvacuous : Forall (Forall (Forall (fun v => 0 <= v))) X2.
Proof. repeat constructor; lra. Qed.
