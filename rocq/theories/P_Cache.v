(** * C31, C32: the shared cache, standalone sieves *)
From Coq Require Import Ascii String List Arith ZArith Bool Reals Lia Lra.
From Verif Require Import Num Arr M_Str M_Np M_Prep M_Cache M_Sieve S_ISS S_Prep S_Sieve
  L_Arr L_Tuples L_Str L_Np L_Prep L_Prep2 L_Sieve L_Sieve2 L_RComp.
Import ListNotations.

(** ** C31 *)
(** A request: type, key and the optional array argument. *)
Definition request T : Type := ctype * pystr * option (ndarr T).
(** The answers to a history of requests and the cache after it. *)
Fixpoint answers {T} `{Num T} (parse : pystr -> res T) (c : cache T) (h : list (request T))
  : list (res (cval T)) * cache T :=
  match h with
  | [] => ([], c)
  | (t, k, X) :: r =>
      let (a, c') := cache_get parse c t k X in
      let (as_, c'') := answers parse c' r in (a :: as_, c'')
  end.
(** What a brand-new cache with input [a] answers to its very first request. *)
Definition first_answer {T} `{Num T} parse (a : ndarr T) (q : request T) : res (cval T) :=
  fst (cache_get parse (cache_new (Some a)) (fst (fst q)) (snd (fst q)) None).

Section Generic.
Context {T : Type} `{Num T}.
Variable parse : pystr -> res T.
Definition sound (inp : dataset T) (c : cache T) : Prop :=
  c_input c = Some inp /\
  forall t k v, dict_get k (dict_of c t) = Some v -> compute parse t k inp = Ok (Some v).
Lemma sound_new a : sound (to3 a) (cache_new (Some a)).
Proof. split; [reflexivity|]. intros [|] k v; discriminate. Qed.
Lemma eqs_true_iff a b : eqs a b = true <-> a = b.
Proof. unfold eqs. destruct (list_eq_dec ascii_dec a b); split; congruence. Qed.
Lemma sound_get inp c t k X : sound inp c ->
  fst (cache_get parse c t k X) = cache_fresh parse inp t k /\ sound inp (snd (cache_get parse c t k X)).
Proof.
  intros [HI HS]. unfold cache_get, cache_fresh.
  destruct (dict_get k (dict_of c t)) as [v|] eqn:E.
  - rewrite (HS t k v E). split; [reflexivity|split; assumption].
  - rewrite HI. destruct (compute parse t k inp) as [[v|]|e] eqn:C; (split; [reflexivity|]); try (split; assumption).
    split; [destruct t; exact HI|].
    intros t' k' v' G.
    destruct t, t'; cbn [snd dict_put dict_of c_coq c_iss dict_get] in G; try (now apply (HS _ k' v'));
      (destruct (eqs k' k) eqn:Ek; [apply eqs_true_iff in Ek; subst; congruence|]); [apply (HS COQUANTILE)|apply (HS CISS)]; exact G.
Qed.
Lemma answers_sound inp h : forall c, sound inp c ->
  fst (answers parse c h) = map (fun q => cache_fresh parse inp (fst (fst q)) (snd (fst q))) h.
Proof.
  induction h as [|[[t k] X] h IH]; intros c Hc; [reflexivity|].
  cbn [answers]. destruct (sound_get inp c t k X Hc) as [E HS].
  destruct (cache_get parse c t k X) as [a c'] eqn:G. cbn [fst snd] in *.
  specialize (IH c' HS). destruct (answers parse c' h) as [l c'']. cbn [fst] in *. cbn [map fst snd]. congruence.
Qed.
(** Every history: each request is answered as by a brand-new cache on the same
    input, whatever was asked before and whatever array is passed along. *)
Theorem C31_transparent (a : ndarr T) (h : list (request T)) :
  fst (answers parse (cache_new (Some a)) h) = map (first_answer parse a) h.
Proof.
  rewrite (answers_sound (to3 a) h _ (sound_new a)). apply map_ext. intros [[t k] X].
  unfold first_answer. symmetry. apply (proj1 (sound_get _ _ t k None (sound_new a))).
Qed.
(** A stored value is never changed by later requests. *)
Lemma stored_stays c t k v h : dict_get k (dict_of c t) = Some v ->
  forall i X, nth_error h i = Some (t, k, X) -> nth_error (fst (answers parse c h)) i = Some (Ok v).
Proof.
  revert c. induction h as [|[[t' k'] X'] h IH]; intros c G i X Hi; [destruct i; discriminate|].
  cbn [answers].
  assert (G' : dict_get k (dict_of (snd (cache_get parse c t' k' X')) t) = Some v).
  { unfold cache_get. destruct (dict_get k' (dict_of c t')) eqn:E; [exact G|].
    destruct (match c_input c with Some inp => Some inp | None => option_map to3 X' end) as [inp|]; [|exact G].
    destruct (compute parse t' k' inp) as [[v'|]|e]; [|exact G|exact G].
    cbn [snd]. destruct t, t'; cbn [dict_put dict_of c_coq c_iss dict_get] in *; try exact G;
      (destruct (eqs k k') eqn:Ek; [apply eqs_true_iff in Ek; subst; congruence|exact G]). }
  destruct i as [|i].
  - cbn [nth_error] in Hi. injection Hi as -> -> ->. unfold cache_get. rewrite G. cbn [fst].
    destruct (answers parse c h). reflexivity.
  - cbn [nth_error] in Hi. destruct (cache_get parse c t' k' X') as [a c'] eqn:Gc. cbn [snd] in G'.
    specialize (IH c' G' i X Hi). destruct (answers parse c' h). exact IH.
Qed.
Theorem C31_no_input (t : ctype) (k : pystr) (a : ndarr T) (v : cval T) (h : list (request T)) :
  first_answer parse a (t, k, None) = Ok v ->
  nth_error (fst (answers parse (cache_new None) ((t, k, Some a) :: h))) 0 = Some (Ok v) /\
  forall i X, nth_error h i = Some (t, k, X) ->
    nth_error (fst (answers parse (cache_new None) ((t, k, Some a) :: h))) (S i) = Some (Ok v).
Proof.
  intros Hv.
  assert (Hc : cache_get parse (cache_new None) t k (Some a) = (Ok v, dict_put (cache_new None) t k v)).
  { unfold first_answer in Hv. cbn [fst snd] in Hv. unfold cache_get in *.
    destruct t; cbn [cache_new dict_of c_coq c_iss dict_get c_input option_map] in *;
      destruct (compute parse _ k (to3 a)) as [[w|]|e]; cbn [fst] in Hv; try discriminate; injection Hv as ->; reflexivity. }
  cbn [answers]. rewrite Hc.
  assert (G : dict_get k (dict_of (dict_put (cache_new None) t k v) t) = Some v).
  { destruct t; cbn [dict_put dict_of c_coq c_iss dict_get]; rewrite eqs_refl; reflexivity. }
  pose proof (stored_stays (dict_put (cache_new None) t k v) t k v h G) as S'.
  destruct (answers parse (dict_put (cache_new None) t k v) h) as [l c''] eqn:Ea. cbn [fst] in *.
  split; [reflexivity|]. intros i X Hi. exact (S' i X Hi).
Qed.
Theorem C31_no_input_at_all (t : ctype) (k : pystr) :
  fst (cache_get parse (cache_new (T := T) None) t k None) = Err RuntimeError.
Proof. destruct t; reflexivity. Qed.
End Generic.
Print Assumptions C31_transparent.
Print Assumptions C31_no_input.

(** What the first answer is. *)
Open Scope R_scope.
(** How an array argument is read: a vector is one series of one dimension, a
    matrix has one one-dimensional series per row. *)
Definition reads (a : ndarr R) (X : dataset R) : Prop :=
  match a with
  | Arr1 x => X = [[x]]
  | Arr2 M => length X = length M /\ forall i, (i < length M)%nat -> nth i X [] = [nth i M []]
  | Arr3 Y => X = Y
  end.
Lemma reads_to3 a X : reads a X -> X = to3 a.
Proof.
  destruct a as [x|M|Y]; cbn [reads to3]; auto. intros [L N]. apply (list_ext []); [now rewrite map_length|].
  intros i Hi. rewrite N by lia. rewrite (nth_indep (map (fun x => [x]) M) [] ((fun x => [x]) [])) by (rewrite map_length; lia).
  exact (eq_sym (map_nth (fun x => [x]) M [] i)).
Qed.
Theorem C31_answer_iss parse a X n d l (norm : pystr) q : reads a X ->
  has_shape X n d l -> (1 <= d)%nat -> (1 <= l)%nat ->
  (norm = str "L1" \/ norm = str "L2" ->
     first_answer parse a (CISS, norm, q) = Ok (VSum (tab n (fun i => tab l (variation (norm_fn norm) (entry X i 0)))))) /\
  (norm <> str "L1" -> norm <> str "L2" -> first_answer parse a (CISS, norm, q) = Err KeyError).
Proof.
  intros E0%reads_to3 HX Hd Hl. subst X. unfold first_answer. cbn [fst snd]. unfold cache_get.
  cbn [cache_new dict_of c_iss dict_get c_input option_map compute]. split.
  - intros Hn.
    assert (E : (if eqs norm (str "L1") then L1_sum (to3 a) else L2_sum (to3 a))
                = tab n (fun i => tab l (variation (norm_fn norm) (entry (to3 a) i 0)))).
    { assert (HY : length (if eqs norm (str "L1") then L1_sum (to3 a) else L2_sum (to3 a)) = n /\
        forall i, (i < n)%nat -> nth i (if eqs norm (str "L1") then L1_sum (to3 a) else L2_sum (to3 a)) []
                               = tab l (variation (norm_fn norm) (entry (to3 a) i 0))).
      { unfold norm_fn. destruct (eqs norm (str "L1")).
        - apply (L1_sum_spec _ n d l HX Hd). - apply (L2_sum_spec _ n d l HX Hd). }
      destruct HY as [LY NY]. apply (list_ext []); [now rewrite tab_length|]. intros i Hi. rewrite NY, tab_nth by lia. reflexivity. }
    destruct Hn as [-> | ->].
    + rewrite eqs_refl in *. cbn [fst]. now rewrite E.
    + change (eqs (str "L2") (str "L1")) with false in *. cbv iota in *. rewrite eqs_refl. cbn [fst]. now rewrite E.
  - intros N1 N2. destruct (eqs norm (str "L1")) eqn:E1; [now apply eqs_true_iff in E1|].
    destruct (eqs norm (str "L2")) eqn:E2; [now apply eqs_true_iff in E2|]. reflexivity.
Qed.
Print Assumptions C31_answer_iss.
Theorem C31_answer_coquantile parse a X n d l (r norm : pystr) q : reads a X ->
  has_shape X n d l -> (1 <= d)%nat -> (1 <= l)%nat -> ~ In ":"%char r ->
  (forall c, norm = str "L1" \/ norm = str "L2" -> parse r = Ok c ->
     exists p : nat -> nat,
       first_answer parse a (COQUANTILE, r ++ str ":" ++ norm, q) = Ok (VCoq (tab n p)) /\
       forall i, (i < n)%nat -> (p i <= l)%nat /\ forall t, (t < l)%nat ->
         ((t < p i)%nat <-> variation (norm_fn norm) (entry X i 0) t <= c * variation (norm_fn norm) (entry X i 0) (l - 1))) /\
  (forall e, norm = str "L1" \/ norm = str "L2" -> parse r = Err e ->
     first_answer parse a (COQUANTILE, r ++ str ":" ++ norm, q) = Err e) /\
  (~ In ":"%char norm -> norm <> str "L1" -> norm <> str "L2" ->
     first_answer parse a (COQUANTILE, r ++ str ":" ++ norm, q) = Err KeyError) /\
  (first_answer parse a (COQUANTILE, r, q) = Err ValueError) /\
  (forall s, first_answer parse a (COQUANTILE, r ++ str ":" ++ s ++ str ":" ++ norm, q) = Err ValueError).
Proof.
  intros E0%reads_to3 HX Hd Hl Hr. subst X.
  assert (F : forall key, first_answer parse a (COQUANTILE, key, q) = cache_fresh parse (to3 a) COQUANTILE key).
  { intros key. apply (proj1 (sound_get parse _ _ COQUANTILE key None (sound_new parse a))). }
  change (str ":") with [colon]. cbn [app]. repeat split.
  - intros c Hn Hc. rewrite F. exact (coq_column parse norm (to3 a) n d l r c HX Hd Hl Hr Hn Hc).
  - intros e Hn He. rewrite F. unfold cache_fresh, compute. rewrite split_on_sep by exact Hr.
    destruct Hn as [-> | ->].
    + change (split_on colon (str "L1")) with [str "L1"]. cbv beta iota. now rewrite eqs_refl, He.
    + change (split_on colon (str "L2")) with [str "L2"]. cbv beta iota. change (eqs (str "L2") (str "L1")) with false.
      cbv iota. now rewrite eqs_refl, He.
  - intros Hn N1 N2. rewrite F. unfold cache_fresh, compute. rewrite split_on_sep by exact Hr.
    rewrite (split_on_none colon norm Hn).
    destruct (eqs norm (str "L1")) eqn:E1; [now apply eqs_true_iff in E1|].
    destruct (eqs norm (str "L2")) eqn:E2; [now apply eqs_true_iff in E2|]. reflexivity.
  - rewrite F. unfold cache_fresh, compute. rewrite (split_on_none colon r Hr). reflexivity.
  - intros s. rewrite F. unfold cache_fresh, compute. rewrite split_on_sep by exact Hr.
    assert (G : forall s, exists x y z, split_on colon (s ++ colon :: norm) = x :: y :: z).
    { clear. intros s. induction s as [|c s IH].
      - cbn [app split_on]. rewrite Ascii.eqb_refl. destruct (split_on colon norm) as [|y z] eqn:E; [now apply split_on_ne in E|].
        now exists [], y, z.
      - destruct IH as (x & y & z & E). cbn [app split_on]. destruct (Ascii.eqb c colon).
        + rewrite E. now exists [], x, (y :: z).
        + rewrite E. now exists (c :: x), y, z. }
    destruct (G s) as (x & y & z & E). rewrite E. reflexivity.
Qed.
Print Assumptions C31_answer_coquantile.

(** Two requests with different arrays: a cache without input answers the
    second one with the value for the first array. *)
Theorem C31_stale_refuted parse :
  fst (answers parse (cache_new None) [(CISS, str "L1", Some (Arr1 [0; 1])); (CISS, str "L1", Some (Arr1 [0; 5]))])
  = [Ok (VSum [[0; 1]]); Ok (VSum [[0; 1]])] /\
  first_answer parse (Arr1 [0; 5]) (CISS, str "L1", None) = Ok (VSum [[0; 5]]).
Proof. split; rcompute. Qed.
Print Assumptions C31_stale_refuted.
Example C31_example parse :
  fst (answers parse (cache_new (Some (Arr1 [0; 1])))
       [(CISS, str "L1", None); (CISS, str "L2", Some (Arr1 [7; 9])); (CISS, str "L1", Some (Arr1 [7; 9])); (CISS, str "L3", None)])
  = [Ok (VSum [[0; 1]]); Ok (VSum [[0; 1]]); Ok (VSum [[0; 1]]); Err KeyError].
Proof. rcompute. Qed.
