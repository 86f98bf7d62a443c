(** Evaluation of [Fruit.transform]. *)
From Coq Require Import Ascii String List Arith ZArith Bool RelationClasses Lia.
From Verif Require Import Num Arr M_Str M_Words M_Np M_Prep M_Fruit S_Fruit L_Arr L_Fruit L_Fruit2 L_Fruit3 L_Fruit4 L_Fruit6 L_Fruit7.
Import ListNotations.

Section Eval.
Context {T : Type} `{Num T}.
Variable K : kit T.
Notation heap := (heap K).
Variable W : lawful K.
Local Instance eP' : Equivalence (eqP K W) := eqP_equiv K W.
Local Instance eI' : Equivalence (eqI K W) := eqI_equiv K W.
Local Instance eS' : Equivalence (eqS K W) := eqS_equiv K W.

(** The objects of a slice. *)
Record sview := { v_fit : bool; v_p : list (prepT K); v_i : list (issT K); v_s : list (sieveT K); v_e : list (list (sieveT K)) }.
Definition sees (h : heap) (sl : nat) (v : sview) : Prop :=
  exists s, nth_error (h_sl K h) sl = Some s /\ sl_fitted s = v_fit v /\
    refs (eqP K W) (h_p K h) (sl_p s) (v_p v) /\ refs (eqI K W) (h_i K h) (sl_i s) (v_i v) /\ ext_refs K W h s (v_s v) (v_e v).
Lemma sees_heq h h' sl v : heq K W h h' -> sees h sl v -> sees h' sl v.
Proof.
  intros E (s & A & B & C & D & F). pose proof E as (E1 & E2 & E3 & E4 & E5). exists s. rewrite <- E1. split; [exact A|]. split; [exact B|].
  split; [eapply (refs_step (eqP K W)); eassumption|]. split; [eapply (refs_step (eqI K W)); eassumption|]. eapply ext_refs_step; eassumption.
Qed.
Definition v_nf (v : sview) : res nat := let! ns := ev_ns K (v_i v) in Ok (nsieves K (v_s v) * fold_right Nat.mul 1 ns).
Definition ev_view (c X : dataset T) (v : sview) : res (mts T * list (event T)) :=
  if v_fit v then ev_slice K c X (v_p v) (v_i v) (v_s v) (v_e v) else Err RuntimeError.
Lemma nfeatures_view h sl v : sees h sl v -> slice_nfeatures K sl h = (v_nf v, h).
Proof. intros (s & A & B & C & D & (F & _)). eapply slice_nfeatures_eval; eassumption. Qed.
Lemma transform_view h sl v X cbs cache : sees h sl v ->
  evals K W cbs (slice_transform K sl X cbs cache) h (ev_view (match cache with Some c => c | None => X end) X v).
Proof.
  intros (s & A & B & C & D & F). unfold ev_view. destruct (v_fit v).
  - eapply slice_transform_evals; eassumption.
  - exists h. unfold slice_transform. rewrite (bind_ok K _ _ h s h) by (unfold look; now rewrite A). now rewrite B.
Qed.
Fixpoint ev_slices (c X : dataset T) (vs : list sview) (index : nat) (A : mts T) : res (mts T * list (event T)) :=
  match vs with
  | [] => Ok (A, [])
  | v :: r =>
      match v_nf v with
      | Err e => Err e
      | Ok k =>
          match ev_view c X v with
          | Err e => Err e
          | Ok (R, e1) =>
              match set_cols index k R A with
              | Err e => Err e
              | Ok A' => match ev_slices c X r (index + k) A' with
                         | Ok (B, e2) => Ok (B, ENextSlice :: e1 ++ e2)
                         | Err e => Err e
                         end
              end
          end
      end
  end.
Lemma run_slices_evals c X cbs ids vs index A h : Forall2 (sees h) ids vs ->
  evals K W cbs (run_slices K c X cbs ids index A) h (ev_slices c X vs index A).
Proof.
  revert vs index A h. induction ids as [|sl ids IH]; intros vs index A h F; inversion F as [|? v ? vs' Hv F']; subst; cbn [run_slices ev_slices].
  - apply evals_ret.
  - pose proof (evals_emit K W cbs ENextSlice h) as (h1 & E1 & A1).
    assert (V1 : sees h1 sl v) by (eapply sees_heq; [apply A1|exact Hv]).
    assert (F1 : Forall2 (sees h1) ids vs') by (eapply Forall2_impl; [|exact F']; intros; eapply sees_heq; [apply A1|eassumption]).
    assert (X1 : evals K W cbs (bindM K (slice_nfeatures K sl) (fun k => bindM K (slice_transform K sl X cbs (Some c)) (fun R =>
        bindM K (liftR K (set_cols index k R A)) (fun A' => run_slices K c X cbs ids (index + k) A')))) h1
        match v_nf v with
        | Err e => Err e
        | Ok k => match ev_view c X v with
          | Err e => Err e
          | Ok (R, e1) =>
              match set_cols index k R A with
              | Err e => Err e
              | Ok A' => match ev_slices c X vs' (index + k) A' with Ok (B, e2) => Ok (B, e1 ++ e2) | Err e => Err e end
              end
          end
        end).
    { pose proof (nfeatures_view h1 sl v V1) as En. destruct (v_nf v) as [k|e].
      2:{ exists h1. now rewrite (bind_err K _ _ _ _ _ En). }
      apply (evals_here K W cbs _ _ _ _ _ En).
      pose proof (transform_view h1 sl v X cbs (Some c) V1) as Et. cbn [ev_view] in Et.
      destruct (ev_view c X v) as [[R e1]|e].
      2:{ now apply evals_err. }
      destruct Et as (h2 & E2 & A2).
      assert (G : evals K W cbs (bindM K (liftR K (set_cols index k R A)) (fun A' => run_slices K c X cbs ids (index + k) A')) h2
                 (match set_cols index k R A with Err e => Err e | Ok A' => ev_slices c X vs' (index + k) A' end)).
      { destruct (set_cols index k R A) as [A'|e]; [|exists h2; reflexivity].
        apply (evals_here K W cbs _ _ h2 A' _ eq_refl). apply IH. eapply Forall2_impl; [|exact F1]. intros; eapply sees_heq; [apply A2|eassumption]. }
      assert (Es := evals_step K W cbs _ (fun R => bindM K (liftR K (set_cols index k R A)) (fun A' => run_slices K c X cbs ids (index + k) A')) _ _ _ _ _ E2 A2 G).
      destruct (set_cols index k R A) as [A'|e]; exact Es. }
    match type of X1 with evals _ _ _ ?m _ _ => assert (Es := evals_step K W cbs _ (fun _ => m) _ _ _ _ _ E1 A1 X1) end.
    destruct (v_nf v) as [k|e]; [|exact Es]. destruct (ev_view c X v) as [[R e1]|e]; [|exact Es].
    destruct (set_cols index k R A) as [A'|e]; [|exact Es]. destruct (ev_slices c X vs' (index + k) A') as [[B e2]|e]; exact Es.
Qed.
Definition ev_fruit (c X : dataset T) (vs : list sview) : res (mts T * list (event T)) :=
  match mapM v_nf vs with
  | Err e => Err e
  | Ok ns => match ev_slices c X vs 0 (repeat (repeat nzero (list_sum ns)) (length X)) with Ok (A, e) => Ok (nan_to_num A, e) | Err e => Err e end
  end.
Lemma fruit_nfeatures_view h f x vs : nth_error (h_fr K h) f = Some x -> Forall2 (sees h) (f_slices x) vs ->
  fruit_nfeatures K f h = (let! ns := mapM v_nf vs in Ok (list_sum ns), h).
Proof.
  intros E F. unfold fruit_nfeatures. rewrite (bind_ok K _ _ h x h) by (unfold look; now rewrite E). clear E.
  assert (G : collect K (f_slices x) (slice_nfeatures K) h = (mapM v_nf vs, h)).
  { induction F as [|sl v ids vs' Hv F IH]; [reflexivity|]. cbn [collect mapM]. pose proof (nfeatures_view h sl v Hv) as En.
    destruct (v_nf v) as [k|e]; [rewrite (bind_ok K _ _ _ _ _ En)|now rewrite (bind_err K _ _ _ _ _ En)]. cbn [bind].
    destruct (mapM v_nf vs') as [l|e]; [now rewrite (bind_ok K _ _ _ _ _ IH)|now rewrite (bind_err K _ _ _ _ _ IH)]. }
  destruct (mapM v_nf vs) as [l|e]; [now rewrite (bind_ok K _ _ _ _ _ G)|now rewrite (bind_err K _ _ _ _ _ G)].
Qed.
Theorem fruit_transform_evals h f x vs X cbs cache : nth_error (h_fr K h) f = Some x -> f_fitted x = true -> Forall2 (sees h) (f_slices x) vs ->
  evals K W cbs (fruit_transform K f X cbs cache) h (ev_fruit (match cache with Some c => c | None => X end) X vs).
Proof.
  intros E F V. unfold fruit_transform. apply (evals_here K W cbs _ _ _ _ _ (look_eq K (h_fr K) _ _ _ E)). rewrite F. cbn [negb].
  unfold ev_fruit. pose proof (fruit_nfeatures_view h f x vs E V) as En. destruct (mapM v_nf vs) as [ns|e].
  - apply (evals_here K W cbs _ _ _ _ _ En). pose proof (run_slices_evals (match cache with Some c => c | None => X end) X cbs (f_slices x) vs 0 (repeat (repeat nzero (list_sum ns)) (length X)) h V) as Er.
    destruct (ev_slices _ _ vs 0 _) as [[A e]|e]; [|now apply evals_err].
    destruct Er as (h' & E1 & A1). exists h'. split; [|exact A1]. now rewrite (bind_ok K _ _ _ _ _ E1).
  - apply evals_err. exists h. exact En.
Qed.
(** Every slice of a well-formed heap has a view. *)
Lemma valid_refs {A} (R : A -> A -> Prop) `{Equivalence A R} (l : list A) ids : (forall id, In id ids -> id < length l) -> exists os, objs l ids os.
Proof.
  induction ids as [|id ids IH]; intros V; [exists []; constructor|]. destruct IH as (os & F); [intros; apply V; now right|].
  destruct (nth_error l id) as [o|] eqn:E; [|apply nth_error_None in E; specialize (V id (or_introl eq_refl)); lia].
  exists (o :: os). constructor; assumption.
Qed.
Lemma sees_exists h sl s : wf K h -> nth_error (h_sl K h) sl = Some s -> exists v, sees h sl v /\
  objs (h_p K h) (sl_p s) (v_p v) /\ objs (h_i K h) (sl_i s) (v_i v) /\ objs (h_s K h) (sl_s s) (v_s v) /\
  Forall2 (objs (h_s K h)) (sl_ext s) (v_e v) /\ v_fit v = sl_fitted s.
Proof.
  intros (Ws & _) Es. destruct (Ws sl s Es) as ((V1 & V2 & V3 & V4) & _).
  destruct (valid_refs (eqP K W) _ _ V1) as (ps & Fp). destruct (valid_refs (eqI K W) _ _ V2) as (is & Fi). destruct (valid_refs (eqS K W) _ _ V3) as (svs & Fs).
  assert (G : exists ext, Forall2 (objs (h_s K h)) (sl_ext s) ext).
  { clear - V4 W. induction (sl_ext s) as [|row e IH]; [exists []; constructor|]. destruct IH as (ext & F); [intros row' id H1 H2; apply (V4 row' id); [now right|exact H2]|].
    destruct (valid_refs (eqS K W) (h_s K h) row) as (os & Fo); [intros id Hid; apply (V4 row id); [now left|exact Hid]|].
    exists (os :: ext). constructor; assumption. }
  destruct G as (ext & Fe). exists {| v_fit := sl_fitted s; v_p := ps; v_i := is; v_s := svs; v_e := ext |}. cbn.
  split; [|auto 10]. exists s. cbn. split; [exact Es|]. split; [reflexivity|].
  split; [now apply (objs_refs (eqP K W))|]. split; [now apply (objs_refs (eqI K W))|]. split; [now apply (objs_refs (eqS K W))|].
  eapply Forall2_impl; [|exact Fe]. intros ids os. now apply (objs_refs (eqS K W)).
Qed.
End Eval.
