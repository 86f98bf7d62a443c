(** C18: of_weight. *)
From Coq Require Import Ascii String List Arith ZArith Bool Lia Sorting Permutation FinFun.
From Verif Require Import Num Arr S_Words S_Weight M_Str M_Semiring M_Words L_Str L_Words L_Tuples L_Word2.
Import ListNotations.
Local Open Scope nat_scope.
Local Open Scope list_scope.

(** *** Combinations with replacement *)
Lemma cwr_nil {A} w : cwr (S w) (@nil A) = [].
Proof. reflexivity. Qed.
Lemma cwr_cons {A} w (x : A) r : cwr (S w) (x :: r) = map (cons x) (cwr w (x :: r)) ++ cwr (S w) r.
Proof. reflexivity. Qed.

Lemma SS_cons_in l x : StronglySorted lt (x :: l) -> forall y, In y l -> x < y.
Proof. intros H y Hy. inversion H as [|? ? _ HF]; subst. rewrite Forall_forall in HF. auto. Qed.

Lemma cwr_In w : forall l el, StronglySorted lt l ->
  (In el (cwr w l) <-> length el = w /\ StronglySorted le el /\ Forall (fun x => In x l) el).
Proof.
  induction w as [|w IHw].
  - intros l el _. cbn. split.
    + intros [<-|[]]. repeat constructor.
    + intros (Hl & _). destruct el; [now left|discriminate].
  - induction l as [|x r IHr]; intros el Hs.
    + rewrite cwr_nil. split; [intros []|]. intros (Hl & _ & HF). destruct el as [|y el]; [discriminate|]. inversion HF; subst. easy.
    + rewrite cwr_cons, in_app_iff, in_map_iff. assert (Hx := SS_cons_in _ _ Hs). inversion Hs as [|? ? Hr _]; subst.
      rewrite (IHr el Hr). split.
      * intros [(e & <- & He)|(Hl & Hso & HF)].
        -- apply (IHw (x :: r) e Hs) in He. destruct He as (Hl & Hso & HF). split; [cbn; lia|]. split; [|constructor; [now left|assumption]].
           constructor; [assumption|]. eapply Forall_impl; [|exact HF]. cbn. intros y [<-|Hy]; [lia|]. apply Hx in Hy. lia.
        -- split; [assumption|]. split; [assumption|]. eapply Forall_impl; [|exact HF]. intros y Hy. now right.
      * intros (Hl & Hso & HF). destruct el as [|y el]; [discriminate|]. inversion Hso as [|? ? Hso' Hle]; subst. inversion HF as [|? ? Hy HF']; subst.
        destruct Hy as [<-|Hy].
        -- left. exists el. split; [reflexivity|]. apply IHw; [assumption|]. split; [cbn in Hl; lia|]. split; assumption.
        -- right. split; [assumption|]. split; [assumption|]. constructor; [assumption|].
           rewrite Forall_forall in Hle, HF' |- *. intros z Hz. specialize (Hle z Hz). specialize (HF' z Hz). destruct HF' as [<-|Hzz]; [|assumption].
           apply Hx in Hy. lia.
Qed.
Lemma cwr_NoDup w : forall l, StronglySorted lt l -> NoDup (cwr w l).
Proof.
  induction w as [|w IHw]; [intros; constructor; [easy|constructor]|].
  induction l as [|x r IHr]; intros Hs; [constructor|]. rewrite cwr_cons. inversion Hs as [|? ? Hr _]; subst. apply NoDup_app'.
  - apply Injective_map_NoDup; [|now apply IHw]. intros a b E. congruence.
  - now apply IHr.
  - intros e He Hin. apply in_map_iff in He. destruct He as (e' & <- & _). apply (cwr_In (S w) r _ Hr) in Hin.
    destruct Hin as (_ & _ & HF). inversion HF; subst. apply (SS_cons_in _ _ Hs) in H1. lia.
Qed.
Lemma seq_SS s m : StronglySorted lt (seq s m).
Proof.
  revert s. induction m as [|m IH]; intros s; cbn; constructor; auto. apply Forall_forall. intros y Hy. apply in_seq in Hy. lia.
Qed.
Lemma ext_letters_In w d el : In el (ext_letters w d) <-> length el = w /\ StronglySorted le el /\ Forall (fun x => 1 <= x <= d) el.
Proof.
  unfold ext_letters. rewrite cwr_In by apply seq_SS. split; intros (H1 & H2 & H3); repeat split; auto; eapply Forall_impl; [|exact H3| |exact H3];
  cbn; intros x Hx; [apply in_seq in Hx|apply in_seq]; lia.
Qed.
Lemma ext_letters_NoDup w d : NoDup (ext_letters w d).
Proof. apply cwr_NoDup, seq_SS. Qed.
Lemma binomial_0 n : binomial n 0 = 1.
Proof. destruct n; reflexivity. Qed.
Lemma binomial_gt n : forall k, n < k -> binomial n k = 0.
Proof. induction n as [|n IH]; intros [|k] Hk; try lia; [reflexivity|]. cbn [binomial]. rewrite !IH by lia. reflexivity. Qed.
Lemma cwr_length {A} w : forall (l : list A), 0 < w -> length (cwr w l) = binomial (length l + w - 1) w.
Proof.
  induction w as [|w IHw]; [lia|]. induction l as [|x r IHr]; intros _.
  - rewrite cwr_nil. cbn [length]. rewrite binomial_gt by lia. reflexivity.
  - rewrite cwr_cons, app_length, map_length. rewrite IHr by lia. cbn [length].
    replace (S (length r) + S w - 1) with (S (length r + w)) by lia. cbn [binomial].
    replace (length r + S w - 1) with (length r + w) by lia. f_equal.
    destruct w as [|w]; [cbn [cwr length]; now rewrite binomial_0|].
    rewrite IHw by lia. cbn [length]. f_equal. lia.
Qed.
Lemma ext_letters_length w d : 0 < w -> length (ext_letters w d) = binomial (d + w - 1) w.
Proof. intros. unfold ext_letters. now rewrite cwr_length, seq_length. Qed.

(** *** Partitions *)
Definition sorted_pos (p : list nat) : Prop := p <> [] /\ StronglySorted le p /\ Forall (fun x => 1 <= x) p.
Lemma list_sum_le p x : In x p -> x <= list_sum p.
Proof. induction p as [|y p IH]; cbn; [easy|]. intros [->|Hi]; [lia|]. apply IH in Hi. unfold list_sum in Hi. lia. Qed.
Lemma partitions_In fuel : forall n start p, n <= fuel -> 1 <= start <= n ->
  (In p (partitions_aux fuel n start) <-> sorted_pos p /\ list_sum p = n /\ Forall (fun x => start <= x) p).
Proof.
  induction fuel as [|f IH]; intros n start p Hf Hs; [lia|]. cbn [partitions_aux]. split.
  - intros [<-|Hin].
    + split; [repeat split; [discriminate|repeat constructor|repeat constructor; lia]|]. split; [cbn; lia|repeat constructor; lia].
    + apply in_flat_map in Hin. destruct Hin as (i & Hi & Hin). apply in_seq in Hi. apply in_map_iff in Hin. destruct Hin as (q & <- & Hq).
      assert (Hn2 : i <= n / 2) by lia. assert (2 * (n / 2) <= n) by (apply Nat.mul_div_le; lia).
      apply IH in Hq; [|lia|lia]. destruct Hq as ((Hq1 & Hq2 & Hq3) & Hq4 & Hq5).
      split; [split; [discriminate|split]|split].
      * constructor; assumption.
      * constructor; [lia|assumption].
      * change (list_sum (i :: q)) with (i + list_sum q). lia.
      * constructor; [lia|]. eapply Forall_impl; [|exact Hq5]. cbn. lia.
  - intros ((Hne & Hso & Hpos) & Hsum & Hst). destruct p as [|i q]; [congruence|]. inversion Hso as [|? ? Hso' Hle]; subst. inversion Hpos; subst. inversion Hst; subst.
    change (list_sum (i :: q)) with (i + list_sum q). destruct q as [|j q].
    + left. cbn. f_equal. lia.
    + right. apply in_flat_map. exists i. inversion Hle; subst. inversion H2; subst.
      assert (j <= list_sum (j :: q)) by (apply list_sum_le; now left).
      assert (i <= (i + list_sum (j :: q)) / 2) by (apply Nat.div_le_lower_bound; lia).
      split; [apply in_seq; lia|]. apply in_map_iff. exists (j :: q). split; [reflexivity|]. replace (i + list_sum (j :: q) - i) with (list_sum (j :: q)) by lia.
      change (list_sum (i :: j :: q)) with (i + list_sum (j :: q)) in Hf. apply IH; [lia|lia|].
      split; [split; [discriminate|split; assumption]|]. split; [reflexivity|assumption].
Qed.
Lemma NoDup_flat_map {A B} (f : A -> list B) l : NoDup l -> (forall x, In x l -> NoDup (f x)) ->
  (forall x y b, In x l -> In y l -> In b (f x) -> In b (f y) -> x = y) -> NoDup (flat_map f l).
Proof.
  induction 1 as [|x l Hx Hl IH]; intros H1 H2; [constructor|]. cbn. apply NoDup_app'.
  - apply H1. now left.
  - apply IH; [intros; apply H1; now right|]. intros. eapply H2; eauto; now right.
  - intros b Hb Hin. apply in_flat_map in Hin. destruct Hin as (y & Hy & Hby). assert (x = y) by (eapply H2; eauto; [now left|now right]). subst. tauto.
Qed.
Lemma partitions_NoDup fuel : forall n start, n <= fuel -> 1 <= start <= n -> NoDup (partitions_aux fuel n start).
Proof.
  induction fuel as [|f IH]; intros n start Hf Hs; [constructor|]. cbn [partitions_aux].
  assert (H2 : 2 * (n / 2) <= n) by (apply Nat.mul_div_le; lia).
  constructor.
  - intros Hin. apply in_flat_map in Hin. destruct Hin as (i & Hi & Hin). apply in_seq in Hi. apply in_map_iff in Hin. destruct Hin as (q & E & Hq).
    injection E as -> ->. lia.
  - apply NoDup_flat_map; [apply seq_NoDup| |].
    + intros i Hi. apply in_seq in Hi. apply Injective_map_NoDup; [intros a b E; congruence|]. apply IH; lia.
    + intros x y b Hx Hy H3 H4. apply in_map_iff in H3, H4. destruct H3 as (? & <- & _). destruct H4 as (? & E & _). congruence.
Qed.

(** *** Permutations *)
Lemma select_In {A} (l : list A) x r : In (x, r) (select l) -> Permutation l (x :: r).
Proof.
  revert x r. induction l as [|a l IH]; cbn; [easy|]. intros x r [E|Hin].
  - injection E as -> ->. apply Permutation_refl.
  - apply in_map_iff in Hin. destruct Hin as ([y s] & E & Hin). cbn in E. injection E as -> <-. apply IH in Hin.
    rewrite Hin. apply perm_swap.
Qed.
Lemma select_ex {A} (l : list A) x : In x l -> exists r, In (x, r) (select l).
Proof.
  induction l as [|a l IH]; cbn; [easy|]. intros [->|Hin]; [eauto|]. destruct (IH Hin) as (r & Hr). exists (a :: r). right.
  apply in_map_iff. exists (x, r). auto.
Qed.
Lemma perms_In {A} fuel : forall (l p : list A), length l = fuel -> (In p (perms_aux fuel l) <-> Permutation l p).
Proof.
  induction fuel as [|f IH]; intros l p Hl.
  - destruct l; [|discriminate]. cbn. split; [intros [<-|[]]; constructor|]. intros HP. apply Permutation_nil in HP. auto.
  - cbn [perms_aux]. rewrite in_flat_map. split.
    + intros ([x r] & Hin & Hp). cbn in Hp. apply in_map_iff in Hp. destruct Hp as (q & <- & Hq). apply select_In in Hin.
      assert (Hlr : length r = f) by (apply Permutation_length in Hin; cbn in Hin; lia). apply IH in Hq; [|assumption].
      rewrite Hin. now constructor.
    + intros HP. destruct p as [|x q]; [apply Permutation_length in HP; cbn in HP; lia|].
      assert (Hx : In x l) by (eapply Permutation_in; [symmetry; exact HP|now left]). destruct (select_ex l x Hx) as (r & Hr).
      exists (x, r). split; [assumption|]. cbn. apply in_map. apply select_In in Hr.
      assert (Hlr : length r = f) by (apply Permutation_length in Hr; cbn in Hr; lia). apply IH; [assumption|].
      apply (Permutation_cons_inv (a := x)). now rewrite <- Hr.
Qed.
Lemma perm_set_In so l p : (forall x, Permutation (so x) x) -> (In p (perm_set so l) <-> Permutation l p).
Proof.
  intros Hso. unfold perm_set. split.
  - intros Hi. apply (Permutation_in _ (Hso _)) in Hi. apply nodup_In in Hi. now apply (perms_In (length l)).
  - intros HP. apply (Permutation_in _ (Permutation_sym (Hso _))). apply nodup_In. now apply (perms_In (length l)).
Qed.
Lemma perm_set_NoDup so l : (forall x, Permutation (so x) x) -> NoDup (perm_set so l).
Proof. intros Hso. unfold perm_set. eapply Permutation_NoDup; [symmetry; apply Hso|]. apply NoDup_nodup. Qed.

(** *** Products *)
Lemma product_In {A} (ls : list (list A)) : forall l, In l (product ls) <-> Forall2 (@In A) l ls.
Proof.
  induction ls as [|a ls IH]; intros l; cbn [product].
  - split; [intros [<-|[]]; constructor|]. intros HF. inversion HF. now left.
  - rewrite in_flat_map. split.
    + intros (x & Hx & Hl). apply in_map_iff in Hl. destruct Hl as (r & <- & Hr). constructor; [assumption|]. now apply IH.
    + intros HF. inversion HF as [|x ? r ? Hx Hr]; subst. exists x. split; [assumption|]. apply in_map. now apply IH.
Qed.
Lemma product_NoDup {A} (ls : list (list A)) : Forall (@NoDup A) ls -> NoDup (product ls).
Proof.
  induction 1 as [|a ls Ha _ IH]; [constructor; [easy|constructor]|]. cbn [product]. apply NoDup_flat_map; [assumption| |].
  - intros x _. apply Injective_map_NoDup; [intros p q E; congruence|assumption].
  - intros x y b _ _ H1 H2. apply in_map_iff in H1, H2. destruct H1 as (? & <- & _). destruct H2 as (? & E & _). congruence.
Qed.

(** *** Sorting is unique *)
Lemma SS_perm_unique (l m : list nat) : StronglySorted le l -> StronglySorted le m -> Permutation l m -> l = m.
Proof.
  intros Hl. revert m. induction Hl as [|x l Hl IH Hx]; intros m Hm HP.
  - apply Permutation_nil in HP. auto.
  - destruct m as [|y m]; [apply Permutation_sym, Permutation_nil in HP; discriminate|]. inversion Hm as [|? ? Hm' Hy]; subst.
    rewrite Forall_forall in Hx, Hy.
    assert (x = y).
    { assert (In x (y :: m)) as [->|H1] by (eapply Permutation_in; [exact HP|now left]); [reflexivity|].
      assert (In y (x :: l)) as [->|H2] by (eapply Permutation_in; [symmetry; exact HP|now left]); [reflexivity|].
      specialize (Hx y H2). specialize (Hy x H1). lia. }
    subst y. f_equal. apply IH; [assumption|]. eapply Permutation_cons_inv; eauto.
Qed.
Fixpoint insert (x : nat) (l : list nat) : list nat :=
  match l with [] => [x] | y :: r => if x <=? y then x :: l else y :: insert x r end.
Definition isort (l : list nat) : list nat := fold_right insert [] l.
Lemma insert_perm x l : Permutation (insert x l) (x :: l).
Proof.
  induction l as [|y l IH]; cbn; [constructor; constructor|]. destruct (x <=? y); [reflexivity|]. rewrite IH. apply perm_swap.
Qed.
Lemma isort_perm l : Permutation (isort l) l.
Proof. induction l as [|x l IH]; cbn; [constructor|]. rewrite insert_perm. now constructor. Qed.
Lemma insert_SS x l : StronglySorted le l -> StronglySorted le (insert x l).
Proof.
  induction 1 as [|y l Hl IH Hy]; cbn; [repeat constructor|]. destruct (Nat.leb_spec x y).
  - constructor; [constructor; assumption|]. constructor; [lia|]. eapply Forall_impl; [|exact Hy]. cbn. lia.
  - constructor; [assumption|]. rewrite Forall_forall in Hy |- *. intros z Hz. apply (Permutation_in _ (insert_perm x l)) in Hz.
    destruct Hz as [<-|Hz]; [lia|auto].
Qed.
Lemma isort_SS l : StronglySorted le (isort l).
Proof. induction l as [|x l IH]; cbn; [constructor|]. now apply insert_SS. Qed.

(** *** All raw words *)
Definition raw_ok (w d : nat) (raw : list (list nat)) : Prop :=
  list_sum (map (@length nat) raw) = w /\
  Forall (fun el => el <> [] /\ StronglySorted le el /\ Forall (fun x => 1 <= x <= d) el) raw.
Lemma list_sum_perm l m : Permutation l m -> list_sum l = list_sum m.
Proof. induction 1; cbn; unfold list_sum in *; lia. Qed.

Lemma product_ext_In d mp raw : In raw (product (map (fun wt => ext_letters wt d) mp)) <->
  map (@length nat) raw = mp /\ Forall (fun el => StronglySorted le el /\ Forall (fun x => 1 <= x <= d) el) raw.
Proof.
  rewrite product_In. split.
  - intros HF. remember (map _ mp) as ls eqn:E. revert mp E. induction HF as [|el a raw ls Hel _ IH]; intros mp E.
    + destruct mp; [|discriminate]. split; constructor.
    + destruct mp as [|k mp]; [discriminate|]. cbn in E. injection E as -> E. destruct (IH mp E) as [I1 I2]. apply ext_letters_In in Hel.
      destruct Hel as (H1 & H2 & H3). split; [cbn; congruence|]. constructor; auto.
  - intros [<- HF]. induction HF as [|el raw [H1 H2] _ IH]; cbn; constructor; auto. apply ext_letters_In. auto.
Qed.

Lemma of_weight_raw_In so w d raw : (forall x, Permutation (so x) x) -> 1 <= w ->
  (In raw (of_weight_raw so w d) <-> raw_ok w d raw).
Proof.
  intros Hso Hw. unfold of_weight_raw, partitions_of. rewrite in_flat_map. split.
  - intros (part & Hp & Hin). apply in_flat_map in Hin. destruct Hin as (mp & Hmp & Hraw).
    apply partitions_In in Hp; [|lia|lia]. destruct Hp as ((_ & _ & Hpos) & Hsum & _).
    apply perm_set_In in Hmp; [|assumption]. apply product_ext_In in Hraw. destruct Hraw as [E HF]. split.
    + rewrite E, <- Hsum. symmetry. now apply list_sum_perm.
    + rewrite Forall_forall in HF |- *. intros el Hel. destruct (HF el Hel) as [H1 H2]. split; [|auto].
      intros ->. assert (In 0 mp) as H0 by (rewrite <- E; apply (in_map (@length nat) raw []); assumption).
      apply (Permutation_in _ (Permutation_sym Hmp)) in H0. rewrite Forall_forall in Hpos. specialize (Hpos 0 H0). lia.
  - intros [Hsum HF]. set (mp := map (@length nat) raw) in *.
    assert (Hpos : Forall (fun x => 1 <= x) mp).
    { apply Forall_map. eapply Forall_impl; [|exact HF]. intros el [Hel _]. destruct el; [congruence|cbn; lia]. }
    exists (isort mp). assert (HP := isort_perm mp). split.
    + apply partitions_In; [lia|lia|]. assert (Hpos' : Forall (fun x => 1 <= x) (isort mp)).
      { rewrite Forall_forall in *. intros x Hx. apply Hpos. eapply Permutation_in; eauto. }
      split; [|split; [rewrite (list_sum_perm _ _ HP); assumption|assumption]].
      split; [|split; [apply isort_SS|assumption]]. intros E. rewrite E in HP. apply Permutation_nil in HP. rewrite HP in Hsum. cbn in Hsum. lia.
    + apply in_flat_map. exists mp. split; [now apply perm_set_In|]. apply product_ext_In. split; [reflexivity|].
      eapply Forall_impl; [|exact HF]. intros el (_ & H1 & H2). auto.
Qed.
Lemma of_weight_raw_NoDup so w d : (forall x, Permutation (so x) x) -> 1 <= w -> NoDup (of_weight_raw so w d).
Proof.
  intros Hso Hw. unfold of_weight_raw, partitions_of.
  assert (HPI := fun p => partitions_In (S w) w 1 p ltac:(lia) ltac:(lia)).
  apply NoDup_flat_map; [apply partitions_NoDup; lia| |].
  - intros part _. apply NoDup_flat_map; [now apply perm_set_NoDup| |].
    + intros mp _. apply product_NoDup. apply Forall_map, Forall_forall. intros; apply ext_letters_NoDup.
    + intros x y b _ _ H1 H2. apply product_ext_In in H1, H2. destruct H1 as [<- _]. destruct H2 as [E _]. congruence.
  - intros x y b Hx Hy H1 H2. apply in_flat_map in H1, H2. destruct H1 as (m1 & M1 & B1). destruct H2 as (m2 & M2 & B2).
    apply product_ext_In in B1, B2. destruct B1 as [<- _]. destruct B2 as [<- _].
    apply perm_set_In in M1; [|assumption]. apply perm_set_In in M2; [|assumption].
    apply HPI in Hx, Hy. destruct Hx as ((_ & Sx & _) & _). destruct Hy as ((_ & Sy & _) & _).
    apply SS_perm_unique; auto. rewrite M1. now symmetry.
Qed.

(** *** Counting *)
Fixpoint all_words (fuel w d : nat) : list (list (list nat)) :=
  match w, fuel with
  | O, _ => [[]]
  | _, O => []
  | S _, S f => flat_map (fun i => flat_map (fun el => map (cons el) (all_words f (w - i) d)) (ext_letters i d)) (seq 1 w)
  end.
Lemma all_words_0 f d : all_words f 0 d = [[]].
Proof. destruct f; reflexivity. Qed.
Lemma all_words_In f : forall w d raw, w <= f -> (In raw (all_words f w d) <-> raw_ok w d raw).
Proof.
  induction f as [|f IH]; intros w d raw Hf.
  - replace w with 0 by lia. cbn. split.
    + intros [<-|[]]. split; constructor.
    + intros [Hs HF]. destruct raw as [|el raw]; [now left|]. inversion HF as [|? ? (Hne & _) _]; subst. destruct el; [congruence|]. cbn in Hs. lia.
  - destruct w as [|w].
    { cbn. split.
      + intros [<-|[]]. split; constructor.
      + intros [Hs HF]. destruct raw as [|el raw]; [now left|]. inversion HF as [|? ? (Hne & _) _]; subst. destruct el; [congruence|]. cbn in Hs. lia. }
    cbn [all_words]. rewrite in_flat_map. split.
    + intros (i & Hi & Hin). apply in_seq in Hi. apply in_flat_map in Hin. destruct Hin as (el & Hel & Hin). apply in_map_iff in Hin.
      destruct Hin as (r & <- & Hr). apply IH in Hr; [|lia]. destruct Hr as [Hs HF]. apply ext_letters_In in Hel. destruct Hel as (H1 & H2 & H3).
      split.
      * change (length el + list_sum (map (@length nat) r) = S w). lia.
      * constructor; [|assumption]. split; [destruct el; [cbn in H1; lia|discriminate]|auto].
    + intros [Hs HF]. destruct raw as [|el raw]; [cbn in Hs; lia|]. inversion HF as [|? ? (Hne & H1 & H2) HF']; subst.
      assert (Hle : length el + list_sum (map (@length nat) raw) = S w) by exact Hs.
      assert (1 <= length el) by (destruct el; [congruence|cbn; lia]).
      exists (length el). split; [apply in_seq; lia|]. apply in_flat_map. exists el. split; [apply ext_letters_In; auto|].
      apply in_map. apply IH; [lia|]. split; [lia|assumption].
Qed.
Lemma all_words_NoDup f : forall w d, NoDup (all_words f w d).
Proof.
  induction f as [|f IH]; intros w d.
  - destruct w; cbn; [constructor; [easy|constructor]|constructor].
  - destruct w as [|w]; [cbn; constructor; [easy|constructor]|]. cbn [all_words].
    apply NoDup_flat_map; [apply seq_NoDup| |].
    + intros i _. apply NoDup_flat_map; [apply ext_letters_NoDup| |].
      * intros el _. apply Injective_map_NoDup; [intros a b E; congruence|apply IH].
      * intros x y b _ _ H1 H2. apply in_map_iff in H1, H2. destruct H1 as (? & <- & _). destruct H2 as (? & E & _). congruence.
    + intros x y b _ _ H1 H2. apply in_flat_map in H1, H2. destruct H1 as (e1 & E1 & B1). destruct H2 as (e2 & E2 & B2).
      apply in_map_iff in B1, B2. destruct B1 as (? & <- & _). destruct B2 as (? & E & _). apply ext_letters_In in E1, E2.
      destruct E1 as (<- & _). destruct E2 as (<- & _). congruence.
Qed.
Lemma all_words_length f : forall w d, w <= f ->
  length (all_words f w d) = match w with O => 1 | S _ => list_sum (map (fun i => binomial (d + i - 1) i * length (all_words (w - i) (w - i) d)) (seq 1 w)) end.
Proof.
  assert (Hind : forall f g w d, w <= f -> w <= g -> length (all_words f w d) = length (all_words g w d)).
  { intros f' g w d H1 H2. apply Permutation_length. apply NoDup_Permutation; [apply all_words_NoDup|apply all_words_NoDup|].
    intros raw. rewrite !all_words_In by assumption. reflexivity. }
  destruct f as [|f]; intros w d Hf; [replace w with 0 by lia; reflexivity|].
  destruct w as [|w]; [reflexivity|]. cbn [all_words].
  assert (C : forall l, (forall i, In i l -> 1 <= i <= S w) ->
    length (flat_map (fun i => flat_map (fun el => map (cons el) (all_words f (S w - i) d)) (ext_letters i d)) l)
    = list_sum (map (fun i => binomial (d + i - 1) i * length (all_words (S w - i) (S w - i) d)) l)).
  { induction l as [|i l IHl]; intros Hl; [reflexivity|]. cbn [flat_map map]. rewrite app_length, IHl by (intros; apply Hl; now right).
    match goal with |- ?a + _ = list_sum (?b :: ?c) => change (list_sum (b :: c)) with (b + list_sum c) end. f_equal.
    assert (Hi := Hl i (or_introl eq_refl)). rewrite <- (ext_letters_length i d) by lia.
    rewrite (Hind (S w - i) f) by lia. generalize (all_words f (S w - i) d). intros L.
    induction (ext_letters i d) as [|e es IHe]; [reflexivity|]. cbn [flat_map]. rewrite app_length, map_length. cbn [length Nat.mul]. f_equal. exact IHe. }
  apply C. intros i Hi. apply in_seq in Hi. lia.
Qed.
Lemma of_weight_raw_count so w d : (forall x, Permutation (so x) x) -> 1 <= w -> length (of_weight_raw so w d) = length (all_words w w d).
Proof.
  intros Hso Hw. apply Permutation_length. apply NoDup_Permutation; [now apply of_weight_raw_NoDup|apply all_words_NoDup|].
  intros raw. rewrite of_weight_raw_In, all_words_In by auto. reflexivity.
Qed.

(** *** The strings *)
Definition nat_tok (x : nat) : tok :=
  if 1 <? length (str_nat x) then TLong false (str_nat x)
  else match str_nat x with c :: _ => TShort false c | [] => TShort false "0"%char end.
Lemma nat_tok_str x : tok_str (nat_tok x) = str_letter x.
Proof.
  unfold nat_tok, str_letter. destruct (1 <? length (str_nat x)) eqn:E; [reflexivity|].
  apply Nat.ltb_ge in E. assert (Hne := str_nat_ne x). destruct (str_nat x) as [|c [|c' r]]; [congruence|reflexivity|cbn in E; lia].
Qed.
Lemma nat_tok_val x : tok_val (nat_tok x) = Z.of_nat x.
Proof.
  unfold nat_tok. destruct (1 <? length (str_nat x)) eqn:E.
  - cbn [tok_val]. now rewrite dec_str.
  - apply Nat.ltb_ge in E. assert (Hne := str_nat_ne x). assert (Hd := dec_str x).
    destruct (str_nat x) as [|c [|c' r]]; [congruence| |cbn in E; lia]. cbn [tok_val]. now rewrite Hd.
Qed.
Lemma nat_tok_wf x : wf_tok (nat_tok x).
Proof.
  unfold nat_tok. assert (Hd := str_nat_digits x). destruct (1 <? length (str_nat x)) eqn:E.
  - split; [apply str_nat_ne|assumption].
  - assert (Hne := str_nat_ne x). destruct (str_nat x) as [|c r]; [congruence|]. inversion Hd; subst. assumption.
Qed.
Lemma flat_map_map_ {A B C} (f : B -> list C) (g : A -> B) l : flat_map f (map g l) = flat_map (fun x => f (g x)) l.
Proof. induction l as [|x l IH]; [reflexivity|]. cbn [map flat_map]. now rewrite IH. Qed.
Lemma raw_spells raw : raw <> [] -> Forall (fun el : list nat => el <> []) raw ->
  spells (flat_map str_ext raw) (map (map Z.of_nat) raw).
Proof.
  intros Hne HF. exists (map (map nat_tok) raw). split; [|split].
  - split; [destruct raw; [congruence|discriminate]|]. apply Forall_map. eapply Forall_impl; [|exact HF]. intros el Hel.
    split; [destruct el; [congruence|discriminate]|]. apply Forall_map, Forall_forall. intros; apply nat_tok_wf.
  - unfold tword_str. rewrite flat_map_map_. apply flat_map_ext. intros el.
    unfold str_ext, el_str. cbn [app]. do 2 f_equal. rewrite flat_map_map_. apply flat_map_ext.
    intros x. symmetry. apply nat_tok_str.
  - rewrite map_map. apply map_ext. intros el. rewrite map_map. apply map_ext. intros x. symmetry. apply nat_tok_val.
Qed.

Lemma mapM_ok {A B} (f : A -> res B) l l' : Forall2 (fun x y => f x = Ok y) l l' -> mapM f l = Ok l'.
Proof. induction 1 as [|x y l l' H _ IH]; [reflexivity|]. cbn [mapM]. rewrite H, IH. reflexivity. Qed.

Section Api.
Context {T : Type} `{Num T}.
Definition raw_word (raw : list (list nat)) : sword T :=
  let els := map (map Z.of_nat) raw in
  {| sw_name := flat_map str_ext raw; sw_maxdim := top_dim els; sw_exts := map (table (top_dim els)) els; sw_alpha := None |}.
Lemma raw_no_zero w d raw : raw_ok w d raw -> no_zero (map (map Z.of_nat) raw).
Proof.
  intros [_ HF]. apply Forall_map. eapply Forall_impl; [|exact HF]. intros el (_ & _ & Hx). apply Forall_map. eapply Forall_impl; [|exact Hx].
  cbn. lia.
Qed.
Lemma raw_word_ok w d raw : 1 <= w -> raw_ok w d raw -> simple_word (flat_map str_ext raw) = Ok (raw_word raw)
  /\ spells (flat_map str_ext raw) (map (map Z.of_nat) raw).
Proof.
  intros Hw Hr. assert (Hr' := Hr). destruct Hr' as [Hs HF].
  assert (Hsp : spells (flat_map str_ext raw) (map (map Z.of_nat) raw)).
  { apply raw_spells; [intros ->; cbn in Hs; lia|]. eapply Forall_impl; [|exact HF]. now intros el (? & _). }
  split; [|assumption]. eapply simple_word_nz'; [exact Hsp|]. eapply raw_no_zero; eauto.
Qed.
Lemma of_weight_eq so w d : (forall x, Permutation (so x) x) -> 1 <= w ->
  of_weight so w d = Ok (map raw_word (of_weight_raw so w d)).
Proof.
  intros Hso Hw. destruct w as [|w]; [lia|]. unfold of_weight. apply mapM_ok.
  assert (HA : forall raw, In raw (of_weight_raw so (S w) d) -> raw_ok (S w) d raw) by (intros raw; apply of_weight_raw_In; auto).
  induction (of_weight_raw so (S w) d) as [|raw l IH]; cbn; constructor.
  - apply (raw_word_ok (S w) d); [lia|]. apply HA. now left.
  - apply IH. intros r Hr. apply HA. now right.
Qed.

(** Every spelled word of weight [w] has a unique sorted form. *)
Definition sort_word (els : list (list Z)) : list (list nat) := map (fun el => isort (map Z.to_nat el)) els.
Lemma list_sum_concat {A} (ls : list (list A)) : list_sum (map (@length A) ls) = length (concat ls).
Proof. induction ls as [|l ls IH]; [reflexivity|]. cbn. rewrite app_length. unfold list_sum in IH. lia. Qed.
Lemma sort_word_ok w d els : weight_word w d els -> raw_ok w d (sort_word els) /\
  Forall2 (@Permutation Z) els (map (map Z.of_nat) (sort_word els)).
Proof.
  intros [Hl HF]. split.
  - split.
    + unfold sort_word. rewrite map_map. rewrite <- Hl, <- list_sum_concat. f_equal. apply map_ext. intros el.
      rewrite (Permutation_length (isort_perm _)). apply map_length.
    + unfold sort_word. apply Forall_map. eapply Forall_impl; [|exact HF]. intros el [Hne Hel]. split; [|split; [apply isort_SS|]].
      * intros E. assert (HP := isort_perm (map Z.to_nat el)). rewrite E in HP. apply Permutation_nil in HP. destruct el; [congruence|discriminate].
      * apply Forall_forall. intros x Hx. apply (Permutation_in _ (isort_perm _)) in Hx. apply in_map_iff in Hx. destruct Hx as (z & <- & Hz).
        rewrite Forall_forall in Hel. specialize (Hel z Hz). lia.
  - unfold sort_word. clear Hl. induction HF as [|el els [_ Hel] _ IH]; cbn; constructor; auto.
    rewrite (isort_perm (map Z.to_nat el)), map_map. erewrite map_ext_in; [rewrite map_id; reflexivity|]. intros z Hz. rewrite Forall_forall in Hel.
    specialize (Hel z Hz). lia.
Qed.
Lemma occurrences_nat el d : 1 <= d -> occurrences (map Z.of_nat el) d = Z.of_nat (count_occ Nat.eq_dec el d).
Proof.
  intros Hd. unfold occurrences.
  assert (E0 : count_occ Z.eq_dec (map Z.of_nat el) (- Z.of_nat d)%Z = 0%nat).
  { apply count_occ_not_In. intros Hi. apply in_map_iff in Hi. destruct Hi as (x & E & _). lia. }
  rewrite E0. assert (E1 : count_occ Z.eq_dec (map Z.of_nat el) (Z.of_nat d) = count_occ Nat.eq_dec el d).
  { clear. induction el as [|x el IH]; [reflexivity|]. cbn. destruct (Z.eq_dec (Z.of_nat x) (Z.of_nat d)), (Nat.eq_dec x d); try lia. }
  rewrite E1. lia.
Qed.
Lemma raw_word_inj w w' d d' r r' : 1 <= w -> 1 <= w' -> raw_ok w d r -> raw_ok w' d' r' -> sw_eq (raw_word r) (raw_word r') = true -> r = r'.
Proof.
  intros Hw Hw' Hr Hr' E. destruct (raw_word_ok w d r Hw Hr) as [E1 S1]. destruct (raw_word_ok w' d' r' Hw' Hr') as [E2 S2].
  apply (words_equal_iff _ _ _ _ _ _ S1 S2) in E; [|eapply raw_no_zero; eauto|eapply raw_no_zero; eauto|exact E1|exact E2].
  destruct E as [_ HF]. destruct Hr as [_ Hr]. destruct Hr' as [_ Hr']. clear -HF Hr Hr'.
  revert r' HF Hr'. induction r as [|el r IH]; intros [|el' r'] HF Hr'; inversion HF as [|? ? ? ? Hcnt HF2]; subst; [reflexivity|].
  inversion Hr as [|? ? (_ & A1 & A2) Hrr]; subst. inversion Hr' as [|? ? (_ & B1 & B2) Hrr']; subst. f_equal; [|apply IH; auto].
  apply SS_perm_unique; auto. apply (Permutation_count_occ Nat.eq_dec). intros x. destruct x as [|x].
  - rewrite !(proj1 (count_occ_not_In _ _ _)); [reflexivity| |]; intros Hi; [rewrite Forall_forall in B2; specialize (B2 0 Hi)|rewrite Forall_forall in A2; specialize (A2 0 Hi)]; lia.
  - specialize (Hcnt (S x) ltac:(lia)). rewrite !occurrences_nat in Hcnt by lia. lia.
Qed.

Lemma of_weight_spec so w d : (forall x, Permutation (so x) x) -> 1 <= w ->
  exists ws : list (sword T), of_weight so w d = Ok ws /\
    (forall x, In x ws -> simple_word (sw_name x) = Ok x /\ exists els, spells (sw_name x) els /\ weight_word w d els) /\
    (forall s els (x : sword T), spells s els -> weight_word w d els -> simple_word s = Ok x ->
       exists j y, nth_error ws j = Some y /\ sw_eq y x = true /\
         forall j' y', nth_error ws j' = Some y' -> sw_eq y' x = true -> j' = j) /\
    (forall j j' y y', nth_error ws j = Some y -> nth_error ws j' = Some y' -> sw_eq y y' = true -> j = j').
Proof.
  intros Hso Hw. set (raws := of_weight_raw so w d).
  assert (HA : forall raw, In raw raws <-> raw_ok w d raw) by (intros raw; now apply of_weight_raw_In).
  assert (HN : NoDup raws) by now apply of_weight_raw_NoDup.
  assert (HU : forall j j' y y', nth_error (map raw_word raws) j = Some y -> nth_error (map raw_word raws) j' = Some y' -> sw_eq y y' = true -> j = j').
  { intros j j' y y' Hj Hj' E. rewrite nth_error_map in Hj, Hj'. destruct (nth_error raws j) as [r|] eqn:R; [|discriminate].
    destruct (nth_error raws j') as [r'|] eqn:R'; [|discriminate]. injection Hj as <-. injection Hj' as <-.
    assert (r = r'). { eapply raw_word_inj; [exact Hw|exact Hw| | |exact E]; apply HA; eapply nth_error_In; eauto. }
    subst r'. apply (proj1 (NoDup_nth_error raws) HN); [apply nth_error_Some; congruence|congruence]. }
  exists (map raw_word raws). split; [now apply of_weight_eq|]. split; [|split; [|assumption]].
  - intros x Hx. apply in_map_iff in Hx. destruct Hx as (r & <- & Hr). apply HA in Hr. destruct (raw_word_ok w d r Hw Hr) as [E1 S1].
    split; [exact E1|]. exists (map (map Z.of_nat) r). split; [exact S1|]. destruct Hr as [Hs HF]. split.
    + rewrite <- list_sum_concat, map_map. rewrite <- Hs. f_equal. apply map_ext. intros; apply map_length.
    + apply Forall_map. eapply Forall_impl; [|exact HF]. intros el (Hne & _ & Hel). split; [destruct el; [congruence|discriminate]|].
      apply Forall_map. eapply Forall_impl; [|exact Hel]. cbn. lia.
  - intros s els x Hsp Hww Hx. destruct (sort_word_ok w d els Hww) as [Hok HP].
    destruct (raw_word_ok w d _ Hw Hok) as [E1 S1].
    assert (Heq : sw_eq x (raw_word (sort_word els)) = true).
    { eapply words_equal_perm; [exact Hsp|exact S1| |exact HP|exact Hx|exact E1].
      destruct Hww as [_ HF]. eapply Forall_impl; [|exact HF]. intros el [_ Hel]. eapply Forall_impl; [|exact Hel]. cbn. lia. }
    assert (sw_sym : forall a b : sword T, sw_eq a b = true -> sw_eq b a = true).
    { intros a b Hab. apply sw_eq_iff. apply sw_eq_iff in Hab. auto. }
    assert (sw_tr : forall a b e : sword T, sw_eq a b = true -> sw_eq b e = true -> sw_eq a e = true).
    { intros a b e Hab Hbe. apply sw_eq_iff. apply sw_eq_iff in Hab, Hbe. congruence. }
    assert (Hin : In (sort_word els) raws) by now apply HA. apply In_nth_error in Hin. destruct Hin as (j & Hj).
    exists j, (raw_word (sort_word els)). split; [now apply map_nth_error|]. split; [auto|].
    intros j' y' Hj' E'. symmetry. eapply HU; [apply map_nth_error; exact Hj|exact Hj'|]. eapply sw_tr; [|apply sw_sym; exact E']. auto.
Qed.

(** Number of words. *)
Lemma of_weight_count so w d (ws : list (sword T)) : (forall x, Permutation (so x) x) -> 1 <= w ->
  of_weight so w d = Ok ws -> length ws = length (all_words w w d).
Proof. intros Hso Hw. rewrite of_weight_eq by assumption. intros E. injection E as <-. now rewrite map_length, of_weight_raw_count. Qed.
Lemma of_weight_recurrence d : exists N : nat -> nat,
  (N 0 = 1)%nat /\ (forall w, 1 <= w -> N w = list_sum (map (fun i => binomial (d + i - 1) i * N (w - i)) (seq 1 w))) /\
  forall so w (ws : list (sword T)), (forall x, Permutation (so x) x) -> 1 <= w -> of_weight so w d = Ok ws -> length ws = N w.
Proof.
  exists (fun w => length (all_words w w d)). split; [reflexivity|]. split.
  - intros w Hw. rewrite (all_words_length w w d) by lia. destruct w; [lia|reflexivity].
  - intros so w ws Hso Hw E. eapply of_weight_count; eauto.
Qed.
End Api.
Lemma binomial_same n : binomial n n = 1.
Proof.
  assert (Hz : forall n k, n < k -> binomial n k = 0).
  { clear n. intros n. induction n as [|n IH]; intros [|k] Hk; try lia; try reflexivity. cbn. rewrite !IH by lia. reflexivity. }
  induction n as [|n IH]; [reflexivity|]. cbn. rewrite IH, Hz by lia. reflexivity.
Qed.
Lemma pow2_recurrence (N : nat -> nat) : N 0 = 1 ->
  (forall w, 1 <= w -> N w = list_sum (map (fun i => binomial (1 + i - 1) i * N (w - i)) (seq 1 w))) ->
  forall w, 1 <= w -> N w = 2 ^ (w - 1).
Proof.
  intros N0 NS.
  assert (NS' : forall w, N (S w) = list_sum (map N (seq 0 (S w)))).
  { intros w. rewrite NS by lia.
    replace (map N (seq 0 (S w))) with (rev (map (fun i => N (S w - i)) (seq 1 (S w)))).
    2:{ apply nth_ext with (d := 0) (d' := 0).
        - now rewrite rev_length, !map_length, !seq_length.
        - intros j Hj. rewrite rev_length, map_length, seq_length in Hj. rewrite rev_nth by now rewrite map_length, seq_length.
          rewrite map_length, seq_length.
          rewrite (nth_indep _ 0 (N (S w - 0))) by (rewrite map_length, seq_length; lia).
          rewrite (map_nth (fun i => N (S w - i))), seq_nth by lia.
          rewrite (nth_indep _ 0 (N 0)) by (rewrite map_length, seq_length; lia). rewrite map_nth, seq_nth by lia. f_equal. lia. }
    rewrite <- (list_sum_perm _ _ (Permutation_rev _)). f_equal. apply map_ext. intros i. replace (1 + i - 1) with i by lia. rewrite binomial_same. lia. }
  intros w Hw. destruct w as [|w]; [lia|]. clear Hw. replace (S w - 1) with w by lia.
  induction w as [|w IH].
  - rewrite NS'. cbn. lia.
  - rewrite NS'. rewrite seq_S, map_app, list_sum_app. cbn [map Nat.add]. rewrite <- NS', IH. cbn [list_sum fold_right Nat.pow]. lia.
Qed.
Lemma of_weight_dim1 {T} `{Num T} so w (ws : list (sword T)) : (forall x, Permutation (so x) x) -> 1 <= w ->
  of_weight so w 1 = Ok ws -> length ws = 2 ^ (w - 1).
Proof.
  intros Hso Hw E. destruct (@of_weight_recurrence T _ 1) as (N & N0 & NS & C). rewrite (C so w ws Hso Hw E). now apply pow2_recurrence.
Qed.
