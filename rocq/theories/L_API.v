(** Results at the level of ISS.transform. *)
From Coq Require Import Ascii String List Arith ZArith Bool Lia Reals Lra.
From Verif Require Import Num Arr L_Arr S_ISS M_Str M_Semiring M_Words M_ISS L_Tuples L_Reals L_Max L_Slow L_ISS L_Gen.
Import ListNotations.
Local Open Scope nat_scope.

Definition res_map {A B} (f : A -> B) (r : res A) : res B :=
  match r with Ok a => Ok (f a) | Err e => Err e end.

Section Gen.
Context {T : Type} `{Num T}.

Lemma map_map2 {A B C D} (f : C -> D) (h : A -> B -> C) l1 l2 :
  map f (map2 h l1 l2) = map2 (fun a b => f (h a b)) l1 l2.
Proof. revert l2. induction l1 as [|x l1 IH]; intros [|y l2]; cbn; congruence. Qed.
Lemma map2_map_l {A B C} (f : A -> B) (h : A -> B -> C) l :
  map2 h l (map f l) = map (fun x => h x (f x)) l.
Proof. induction l; cbn; congruence. Qed.

(** *** SINGLE mode *)
Lemma single_transform s (wt : option (weighting T)) nm words X :
  words <> [] -> is_argmax s = false -> length (lookups wt X) = length X ->
  iss_transform {| is_words := words; is_mode := SINGLE; is_sr := s; is_wt := wt; is_wt_name := nm |} X
  = Ok (map (fun w => map2 (fun x g => nth 0 (sample_sums s (iw_val w) 1 (totals wt) x g) []) X (lookups wt X)) words).
Proof.
  intros Hne Hs Hl. rewrite iss_transform_eq by exact Hne. unfold cfg_guard. cbn.
  rewrite Hs. rewrite batch_rows_pure.
  - f_equal. rewrite all_rows_single by exact Hs. rewrite map_map. apply map_ext. intros w.
    rewrite iterated_sums_samples by exact Hl. apply map_map2.
  - rewrite Forall_forall. intros w _. destruct w; cbn; auto.
Qed.

(** *** Independence of samples *)
Definition per_sample (wt : option (weighting T)) : Prop :=
  match wt with None => True | Some w => exists f, forall X, wg_lookup w X = map f X end.

Definition pick {A} (d : A) (sel : list nat) (l : list A) : list A := map (fun i => nth i l d) sel.

Lemma lookups_per_sample wt : per_sample wt -> exists f, forall X, lookups wt X = map f X.
Proof. destruct wt as [w|]; cbn; [auto|]. intros _. now exists (fun _ => []). Qed.

Lemma iterated_sums_map s w ext wt : per_sample wt ->
  exists F, forall X, iterated_sums s X w ext wt = map F X.
Proof.
  intros Hp. destruct (lookups_per_sample wt Hp) as (f & Hf).
  exists (fun x => sample_sums s w ext (totals wt) x (f x)). intros X.
  rewrite iterated_sums_samples by (rewrite Hf; apply map_length). rewrite Hf.
  apply map2_map_l.
Qed.

Lemma swap01_pick (F : mts T -> list (list T)) ext sel X : Forall (fun i => i < length X) sel ->
  swap01 ext (map F (pick [] sel X)) = map (pick [] sel) (swap01 ext (map F X)).
Proof.
  intros Hsel. unfold swap01. rewrite map_map. apply map_ext. intros r. unfold pick.
  rewrite !map_map. apply map_ext_in. intros i Hi. rewrite Forall_forall in Hsel.
  rewrite (nth_indep (map (fun x => nth r (F x) []) X) [] (nth r (F []) [])) by (rewrite map_length; now apply Hsel).
  now rewrite (map_nth (fun x => nth r (F x) [])).
Qed.

Lemma assign_rows_pick sel m (A : list (list (list T))) :
  assign_rows m (map (pick [] sel) A) = res_map (map (pick [] sel)) (assign_rows m A).
Proof.
  unfold assign_rows. rewrite map_length. destruct (length A =? m); [reflexivity|].
  destruct A as [|row [|? ?]]; cbn; try reflexivity. now rewrite map_repeat_.
Qed.

Lemma batch_rows_pick s wt plan sel X ws : per_sample wt -> Forall (fun i => i < length X) sel -> forall i,
  batch_rows s (pick [] sel X) wt plan i ws
  = res_map (map (pick [] sel)) (batch_rows s X wt plan i ws).
Proof.
  intros Hp Hsel. induction ws as [|w ws IH]; intros i; [reflexivity|]. cbn [batch_rows].
  destruct (iterated_sums_map s w (word_ext plan i) wt Hp) as (F & HF).
  rewrite !HF, (swap01_pick F _ sel X Hsel), assign_rows_pick, IH.
  destruct (assign_rows _ _) as [blk|e]; cbn; [|reflexivity].
  destruct (batch_rows s X wt plan (S i) ws) as [rs|e]; cbn; [|reflexivity]. now rewrite map_app.
Qed.

Lemma iss_transform_pick (c : iss_cfg T) sel X : per_sample (is_wt c) -> Forall (fun i => i < length X) sel ->
  iss_transform c (pick [] sel X) = res_map (map (pick [] sel)) (iss_transform c X).
Proof.
  intros Hp Hsel. destruct (is_words c) eqn:Ew.
  - now rewrite !iss_transform_empty by exact Ew.
  - rewrite !iss_transform_eq by congruence. destruct (cfg_guard c); [reflexivity|].
    now apply batch_rows_pick.
Qed.

(** *** Causality *)
Definition causal_word (n : nat) (X : dataset T) (w : wordv T) : Prop :=
  match w with
  | WSimple _ _ => True
  | WGeneral els => Forall (fun Z => Forall (Forall (fun l : bletter T =>
      length (l Z) = n /\ forall m, m <= n -> l (map (firstn m) Z) = firstn m (l Z))) els) X
  end.

Lemma nth_map_firstn r m (A : list (list T)) : nth r (map (firstn m) A) [] = firstn m (nth r A []).
Proof. rewrite <- (@firstn_nil T m) at 1. apply map_nth. Qed.

Lemma sample_sums_cut s w ext wt (Z : mts T) (g : list T) m n :
  m <= n -> Z <> [] -> Forall (fun x => length x = n) Z -> (wt <> None -> length g = n) ->
  is_argmax s = false -> causal_word n [Z] w ->
  map (firstn m) (sample_sums s w ext wt Z g)
  = sample_sums s w ext wt (map (firstn m) Z) (firstn m g).
Proof.
  intros Hm HZ0 HZ Hg Hs Hc. unfold sample_sums. destruct w as [e a|e].
  - destruct wt as [b|].
    + apply (fast_single_cut m n); auto. apply Hg. congruence.
    + rewrite (fast_single_cut m n); auto.
      * f_equal. rewrite (tlen_n 0 n Z) by auto.
        assert (Et : tlen (map (firstn m) Z) = m) by (apply (tlen_cut m n); auto).
        rewrite Et. unfold zeros. rewrite firstn_repeat_. f_equal. lia.
      * rewrite (tlen_n 0 n Z) by auto. apply repeat_length.
  - apply (general_single_cut m n Hm Z (conj HZ0 HZ) (repeat nzero n) (repeat_length _ _)). cbn in Hc. inversion Hc as [|? ? Hc1 _]; subst.
    rewrite Forall_forall in *. intros el Hel. specialize (Hc1 el Hel). rewrite Forall_forall in *.
    intros l Hl. destruct (Hc1 l Hl) as [H1 H2]. split; [now apply H2|exact H1].
Qed.

Definition wf_data (n : nat) (X : dataset T) := Forall (fun Z => Z <> [] /\ Forall (fun x => length x = n) Z) X.

Lemma iterated_sums_cut s w ext (wt wt' : option (weighting T)) X Y m n n' :
  m <= n -> m <= n' -> wf_data n X -> wf_data n' Y -> is_argmax s = false ->
  map (map (firstn m)) X = map (map (firstn m)) Y ->
  length (lookups wt X) = length X -> length (lookups wt' Y) = length Y -> totals wt = totals wt' ->
  (wt <> None -> Forall (fun g => length g = n) (lookups wt X)) ->
  (wt' <> None -> Forall (fun g => length g = n') (lookups wt' Y)) ->
  map (firstn m) (lookups wt X) = map (firstn m) (lookups wt' Y) ->
  causal_word n X w -> causal_word n' Y w ->
  map (map (firstn m)) (iterated_sums s X w ext wt) = map (map (firstn m)) (iterated_sums s Y w ext wt').
Proof.
  intros Hm Hm' HX HY Hs HXY LX LY Ht GX GY HG CX CY.
  rewrite !iterated_sums_samples by assumption.
  assert (HH : forall k (wt0 : option (weighting T)) t X0 L0, m <= k -> wf_data k X0 -> length L0 = length X0 -> t = totals wt0 ->
     (wt0 <> None -> Forall (fun g => length g = k) L0) -> causal_word k X0 w ->
     map (map (firstn m)) (map2 (sample_sums s w ext t) X0 L0)
     = map2 (sample_sums s w ext t) (map (map (firstn m)) X0) (map (firstn m) L0)).
  { intros k wt0 t X0. induction X0 as [|Z X0 IH]; intros [|g L0] Hk Hwf Hlen Htt HGk Hck; cbn in Hlen; try discriminate; [reflexivity|].
    inversion Hwf as [|? ? HZ Hwf']; subst. cbn [map map2]. f_equal.
    - apply (sample_sums_cut s w ext (totals wt0) Z g m k); try tauto.
      + intros Hne. destruct wt0 as [w0|]; [|cbn in Hne; congruence].
        assert (Hw0 : Some w0 <> None) by congruence. specialize (HGk Hw0). now inversion HGk.
      + destruct w; cbn in *; auto. inversion Hck; subst. now constructor.
    - apply IH; auto.
      + intros Hne. specialize (HGk Hne). now inversion HGk.
      + destruct w; cbn in *; auto. now inversion Hck. }
  rewrite (HH n wt (totals wt) X (lookups wt X)) by auto.
  rewrite (HH n' wt' (totals wt') Y (lookups wt' Y)) by auto.
  now rewrite HXY, HG, Ht.
Qed.

Lemma swap01_cut m ext (A : list (list (list T))) :
  map (map (firstn m)) (swap01 ext A) = swap01 ext (map (map (firstn m)) A).
Proof.
  unfold swap01. rewrite map_map. apply map_ext. intros r. rewrite !map_map. apply map_ext.
  intros sm. symmetry. apply nth_map_firstn.
Qed.

Lemma iss_transform_cut words mode s (wt wt' : option (weighting T)) nm X Y m n n' :
  words <> [] ->
  m <= n -> m <= n' -> wf_data n X -> wf_data n' Y -> is_argmax s = false ->
  map (map (firstn m)) X = map (map (firstn m)) Y ->
  length (lookups wt X) = length X -> length (lookups wt' Y) = length Y -> totals wt = totals wt' ->
  (wt <> None -> Forall (fun g => length g = n) (lookups wt X)) ->
  (wt' <> None -> Forall (fun g => length g = n') (lookups wt' Y)) ->
  map (firstn m) (lookups wt X) = map (firstn m) (lookups wt' Y) ->
  Forall (fun w => causal_word n X (iw_val w) /\ causal_word n' Y (iw_val w)) words ->
  exists rX rY,
    iss_transform {| is_words := words; is_mode := mode; is_sr := s; is_wt := wt; is_wt_name := nm |} X = Ok rX /\
    iss_transform {| is_words := words; is_mode := mode; is_sr := s; is_wt := wt'; is_wt_name := nm |} Y = Ok rY /\
    map (map (firstn m)) rX = map (map (firstn m)) rY.
Proof.
  intros Hne Hm Hm' HX HY Hs HXY LX LY Ht GX GY HG HC.
  rewrite !iss_transform_eq by exact Hne. unfold cfg_guard.
  set (plan := is_plan_opt {| is_words := words; is_mode := mode; is_sr := s; is_wt := wt; is_wt_name := nm |}).
  change (is_plan_opt {| is_words := words; is_mode := mode; is_sr := s; is_wt := wt'; is_wt_name := nm |}) with plan.
  cbn [is_sr is_mode is_wt is_words]. clearbody plan. clear Hne.
  assert (Eg : argmax_guard s plan = false) by (unfold argmax_guard; destruct plan; auto). rewrite Eg.
  rewrite !batch_rows_pure.
  - eexists. eexists. split; [reflexivity|]. split; [reflexivity|].
    generalize 0 as i. induction HC as [|w ws [C1 C2] HC IH]; intros i; [reflexivity|].
    cbn [map all_rows]. rewrite !map_app. f_equal.
    + unfold word_block. rewrite !swap01_cut. f_equal.
      apply (iterated_sums_cut s (iw_val w) _ wt wt' X Y m n n'); auto.
    + apply IH.
  - rewrite Forall_forall. intros w _. destruct w; cbn; auto.
  - rewrite Forall_forall. intros w _. destruct w; cbn; auto.
Qed.
End Gen.
