(** Disjoint iterations: every schedule gives the same array. *)
From Coq Require Import List Arith Lia Bool.
From Verif Require Import Num Arr L_Fruit M_Par S_Par.
Import ListNotations.

Section Par.
Context {V : Type}.
Implicit Types (m : mem V) (p : prog V) (ps : list (prog V)).

Lemma store_eq m a v : store m a v a = v.
Proof. unfold store, addr_eqb. destruct (list_eq_dec Nat.eq_dec a a); congruence. Qed.
Lemma store_neq m a b v : a <> b -> store m a v b = m b.
Proof. intro Hn. unfold store, addr_eqb. destruct (list_eq_dec Nat.eq_dec a b); congruence. Qed.

(** All addresses [p] may touch satisfy [A]. *)
Fixpoint within (A : addr -> Prop) p : Prop :=
  match p with Halt => True | Wr a _ r => A a /\ within A r | Rd a k => A a /\ forall v, within A (k v) end.

Lemma exec_local A p : within A p -> forall m m', (forall a, A a -> m a = m' a) -> forall a, A a -> exec p m a = exec p m' a.
Proof.
  induction p as [|b v r IH|b k IH]; cbn [within exec]; intros Hw m m' Hm a Ha.
  - now apply Hm.
  - apply IH; [tauto| |exact Ha]. intros c Hc. unfold store. destruct (addr_eqb b c); auto.
  - destruct Hw as (Hb & Hk). rewrite <- (Hm b Hb). now apply IH.
Qed.
Lemma exec_frame A p : within A p -> forall m a, ~ A a -> exec p m a = m a.
Proof.
  induction p as [|b v r IH|b k IH]; cbn [within exec]; intros Hw m a Ha.
  - reflexivity.
  - rewrite IH by tauto. apply store_neq. intros ->. tauto.
  - now apply IH.
Qed.

(** *** Termination *)
Inductive pstep : prog V -> prog V -> Prop :=
| pw a v r : pstep (Wr a v r) r
| pr a k v : pstep (Rd a k) (k v).
Lemma prog_acc p : Acc (fun q p => pstep p q) p.
Proof.
  induction p as [|b v r IH|b k IH]; constructor; intros q Hq; inversion Hq; subst; auto.
Qed.
Inductive lstep : list (prog V) -> list (prog V) -> Prop :=
| ls ps i p q : nth_error ps i = Some p -> pstep p q -> lstep ps (upd i q ps).
Lemma list_acc ps : Acc (fun (qs ps : list (prog V)) => lstep ps qs) ps.
Proof.
  induction ps as [|p ps IH].
  { constructor. intros q Hq. inversion Hq; subst. destruct i; discriminate. }
  induction (prog_acc p) as [p _ IHp] in ps, IH |- *. induction IH as [ps Hps IHps].
  constructor. intros q Hq. inversion Hq as [? i p' q' Hi Hst]; subst. destruct i as [|i]; cbn in Hi |- *.
  - injection Hi as <-. apply IHp; [exact Hst|constructor; exact Hps].
  - apply IHps. econstructor; eassumption.
Qed.
Lemma step_lstep m ps m' ps' : step (m, ps) (m', ps') -> lstep ps ps'.
Proof.
  intro Hs. inversion Hs; subst; econstructor; try eassumption; constructor.
Qed.
Lemma state_acc m ps : Acc (fun c' c => step c c') (m, ps).
Proof.
  revert m. induction (list_acc ps) as [ps _ IH]. intro m. constructor. intros [m' ps'] Hs.
  apply IH. eapply step_lstep; eassumption.
Qed.
Lemma progress m ps : finished ps \/ exists c, step (m, ps) c.
Proof.
  induction ps as [|p ps IH]; [left; constructor|].
  destruct p as [|a v r|a k].
  - destruct IH as [Hf|([m' ps'] & Hs)]; [left; now constructor|right].
    inversion Hs as [mm pp i a v r Hi E1 E2|mm pp i a k Hi E1 E2].
    + exists (store m a v, upd (S i) r (Halt :: ps)). apply (step_wr m (Halt :: ps) (S i) a v r Hi).
    + eexists. apply (step_rd _ (Halt :: ps) (S i) a k Hi).
  - right. eexists. apply (step_wr m _ 0). reflexivity.
  - right. eexists. apply (step_rd m _ 0). reflexivity.
Qed.

(** *** Disjointness *)
Section Disjoint.
Context {K : Type} (key : addr -> option K).
Definition own (k : K) : addr -> Prop := fun a => key a = Some k.
(** The invariant: what is left of every thread would produce, on its own
    cells, what the whole thread produces alone. *)
Definition inv (m0 : mem V) (ths : list (K * prog V)) (m : mem V) (ps : list (prog V)) : Prop :=
  length ps = length ths /\
  (forall i k p0, nth_error ths i = Some (k, p0) -> exists p, nth_error ps i = Some p /\ within (own k) p /\
     forall a, own k a -> exec p m a = exec p0 m0 a) /\
  (forall a, (forall k p0, In (k, p0) ths -> ~ own k a) -> m a = m0 a).

Lemma upd_len {A} i (v : A) l : length (upd i v l) = length l.
Proof. revert i; induction l as [|x l IH]; intros [|i]; cbn; auto. Qed.
Lemma inv_step m0 ths m ps m' ps' : NoDup (map fst ths) -> inv m0 ths m ps -> step (m, ps) (m', ps') -> inv m0 ths m' ps'.
Proof.
  intros Hnd (Hl & Ht & Hf) Hs.
  assert (Hk : forall i j k p q, nth_error ths i = Some (k, p) -> nth_error ths j = Some (k, q) -> i = j).
  { intros i j k p q Hi Hj. apply (map_nth_error fst) in Hi, Hj. cbn in Hi, Hj.
    eapply NoDup_nth_error; [exact Hnd| |congruence]. apply nth_error_Some. congruence. }
  inversion Hs as [? ? i a v r Hi|? ? i a k' Hi]; subst; clear Hs.
  - assert (Hex : exists k p0, nth_error ths i = Some (k, p0)).
    { destruct (nth_error ths i) as [[k p0]|] eqn:E; [eauto|]. apply nth_error_None in E.
      assert (i < length ps) by (apply nth_error_Some; congruence). lia. }
    destruct Hex as (k & p0 & Ek). destruct (Ht i k p0 Ek) as (p & Ep & Hw & He).
    rewrite Hi in Ep. injection Ep as <-. cbn [within exec] in Hw, He. destruct Hw as (Ha & Hw).
    split; [now rewrite upd_len|]. split.
    + intros j k1 p1 Ej. destruct (Nat.eq_dec j i) as [->|Hn].
      * rewrite Ej in Ek. injection Ek as -> ->. exists r. split; [|tauto].
        apply upd_nth_error_eq. apply nth_error_Some. congruence.
      * destruct (Ht j k1 p1 Ej) as (p & Ep & Hw1 & He1). exists p. rewrite upd_nth_error_neq by congruence.
        split; [exact Ep|]. split; [exact Hw1|]. intros b Hb. rewrite <- (He1 b Hb).
        apply (exec_local (own k1)); [exact Hw1| |exact Hb]. intros c Hc. apply store_neq. intros ->.
        unfold own in Ha, Hc. rewrite Ha in Hc. injection Hc as ->. apply Hn. eapply Hk; eassumption.
    + intros b Hb. rewrite <- (Hf b Hb). apply store_neq. intros ->. apply (Hb k p0); [|exact Ha].
      eapply nth_error_In; eassumption.
  - assert (Hex : exists k p0, nth_error ths i = Some (k, p0)).
    { destruct (nth_error ths i) as [[k p0]|] eqn:E; [eauto|]. apply nth_error_None in E.
      assert (i < length ps) by (apply nth_error_Some; congruence). lia. }
    destruct Hex as (k & p0 & Ek). destruct (Ht i k p0 Ek) as (p & Ep & Hw & He).
    rewrite Hi in Ep. injection Ep as <-. cbn [within exec] in Hw, He. destruct Hw as (Ha & Hw).
    split; [now rewrite upd_len|]. split; [|exact Hf].
    intros j k1 p1 Ej. destruct (Nat.eq_dec j i) as [->|Hn].
    + rewrite Ej in Ek. injection Ek as -> ->. exists (k' (m' a)). split; [|split; [apply Hw|exact He]].
      apply upd_nth_error_eq. apply nth_error_Some. congruence.
    + rewrite upd_nth_error_neq by congruence. now apply Ht.
Qed.
Lemma inv_steps m0 ths c c' : NoDup (map fst ths) -> steps c c' -> inv m0 ths (fst c) (snd c) -> inv m0 ths (fst c') (snd c').
Proof.
  intros Hnd Hs. induction Hs as [c|[m1 p1] [m2 p2] c3 H1 H2 IH]; [auto|]. intro Hi. apply IH. cbn in Hi |- *.
  eapply inv_step; eassumption.
Qed.
Lemma inv_start m0 ths : Forall (fun t => within (own (fst t)) (snd t)) ths -> inv m0 ths m0 (map snd ths).
Proof.
  intro Hw. split; [apply map_length|]. split; [|reflexivity].
  intros i k p0 E. exists p0. split; [now rewrite nth_error_map, E|]. split; [|reflexivity].
  rewrite Forall_forall in Hw. apply (Hw (k, p0)). eapply nth_error_In; eassumption.
Qed.

(** What every final array looks like. *)
Definition merged (m0 : mem V) (ths : list (K * prog V)) (m : mem V) : Prop :=
  (forall a k p, In (k, p) ths -> own k a -> m a = exec p m0 a) /\
  (forall a, (forall k p, In (k, p) ths -> ~ own k a) -> m a = m0 a).
Theorem independent m0 ths : NoDup (map fst ths) -> Forall (fun t => within (own (fst t)) (snd t)) ths ->
  every_schedule m0 (map snd ths) (merged m0 ths).
Proof.
  intros Hnd Hw. split; [apply state_acc|]. split; [intros; apply progress|].
  intros m' ps' Hs Hfin. destruct (inv_steps m0 ths _ _ Hnd Hs (inv_start m0 ths Hw)) as (Hl & Ht & Hf). cbn in Hl, Ht, Hf.
  split; [|exact Hf]. intros a k p Hin Ha. destruct (In_nth_error _ _ Hin) as (i & Ei).
  destruct (Ht i k p Ei) as (q & Eq & _ & He). rewrite <- (He a Ha).
  unfold finished in Hfin. rewrite Forall_forall in Hfin. rewrite (Hfin q (nth_error_In _ _ Eq)). reflexivity.
Qed.
End Disjoint.

Lemma every_schedule_impl m ps (P Q : mem V -> Prop) : (forall m', P m' -> Q m') -> every_schedule m ps P -> every_schedule m ps Q.
Proof. intros HPQ (A & B & C). split; [exact A|]. split; [exact B|]. intros m' ps' Hs Hf. eauto. Qed.

(** *** The sequential loop is one of the schedules *)
Lemma steps_app c1 c2 c3 : steps (V := V) c1 c2 -> steps c2 c3 -> steps c1 c3.
Proof. induction 1; [auto|]. intro. econstructor; eauto. Qed.
Lemma upd_app {A} (l1 : list A) x l2 v : upd (length l1) v (l1 ++ x :: l2) = l1 ++ v :: l2.
Proof. induction l1 as [|y l1 IH]; cbn; [reflexivity|now rewrite IH]. Qed.
Lemma nth_error_mid {A} (l1 : list A) x l2 : nth_error (l1 ++ x :: l2) (length l1) = Some x.
Proof. induction l1; cbn; auto. Qed.
Lemma run_thread done p rest m : steps (m, done ++ p :: rest) (exec p m, done ++ Halt :: rest).
Proof.
  revert m. induction p as [|a v r IH|a k IH]; intro m; cbn [exec].
  - constructor.
  - eapply steps_cons; [eapply (step_wr m _ (length done)); apply nth_error_mid|]. rewrite upd_app. apply IH.
  - eapply steps_cons; [eapply (step_rd m _ (length done)); apply nth_error_mid|]. rewrite upd_app. apply IH.
Qed.
Lemma run_in_order ps : forall done m, finished done -> exists ps', steps (m, done ++ ps) (in_order ps m, ps') /\ finished ps'.
Proof.
  induction ps as [|p ps IH]; intros done m Hd.
  - exists done. rewrite app_nil_r. split; [constructor|exact Hd].
  - destruct (IH (done ++ [Halt]) (exec p m)) as (ps' & Hs & Hf); [apply Forall_app; split; [exact Hd|constructor; auto]|].
    exists ps'. split; [|exact Hf]. eapply steps_app; [apply run_thread|]. rewrite <- app_assoc in Hs. exact Hs.
Qed.

(** *** Plain assignments *)
Lemma within_writes A (l : list (addr * V)) : Forall (fun av => A (fst av)) l -> within A (writes l).
Proof. induction 1; cbn; auto. Qed.
Lemma exec_writes_out (l : list (addr * V)) : forall m a, ~ In a (map fst l) -> exec (writes l) m a = m a.
Proof.
  induction l as [|[b v] l IH]; cbn; intros m a Hn; [reflexivity|]. unfold writes in IH. rewrite IH by tauto. apply store_neq. tauto.
Qed.
Lemma exec_writes_in (l : list (addr * V)) : NoDup (map fst l) -> forall m a v, In (a, v) l -> exec (writes l) m a = v.
Proof.
  induction l as [|[b w] l IH]; cbn; intros Hnd m a v [].
  - injection H as -> ->. inversion Hnd; subst. change (exec (writes l) (store m a v) a = v). rewrite exec_writes_out by assumption. apply store_eq.
  - inversion Hnd; subst. now apply IH.
Qed.
End Par.
