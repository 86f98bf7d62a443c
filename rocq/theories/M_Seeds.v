(** The seeds of the library as an implementation of the interface [kit] of
    M_Fruit.v: preparateurs (M_PrepObj), ISS (M_ISS with the weightings of
    M_Prep), CosWISS (M_Cos) and sieves (M_Sieve).

    numpy.random is an arbitrary oracle; its state is the number of calls made
    so far, where one call of [fit] counts as one call.  Labels contain
    printed floats; how they are printed is arbitrary ([show_*]). *)
From Coq Require Import Ascii String List Arith ZArith Bool.
From Verif Require Import Num Arr M_Str M_Semiring M_Words M_ISS M_Np M_Prep M_Cache M_Sieve M_PrepObj M_Cos M_Fruit.
Import ListNotations.

Section Seeds.
Context {T : Type} `{Num T}.

Record oracles := {
  o_int : nat -> nat -> nat;                              (* randint(0, n) *)
  o_choice : nat -> nat -> nat -> list nat;               (* choice(n, size, replace=False) *)
  o_rand : nat -> rand T;                                 (* what a fit of a preparateur or sieve draws *)
  o_net : nat -> nat -> nat -> ffn_state (T := T);        (* CosWISS networks, per word and frequency *)
  o_idx : nat -> nat -> nat -> nat -> list nat            (* CosWISS dropout indices, per word, frequency, letter *)
}.
Variable W : oracles.
Variable parse : pystr -> res T.            (* float() *)
Variable powf : T -> T -> T.                (* ** on floats *)
Variable qf : T -> list T -> T.             (* np.quantile *)
Variable eps5 : T.                          (* 1e-5 *)
Variable order : list T -> list T.          (* iteration order of a set of floats *)
Variable show_prep : prep T -> pystr.
Variable show_cut : cut_arg -> pystr.
Variable show_q : q_arg -> pystr.
Variable show_num : T -> pystr.
Variable show_ppv : ppv_cfg T -> pystr.

(** ** weighting.py *)
Inductive wkind :=
| WIndices (relative : bool) (tr : option (T -> pynum T)) (scale : T)                  (* weighting.py 69-110 *)
| WLp (two on_prepared relative : bool) (tr : option (T -> pynum T)) (scale : T)       (* 113-160 L1, 163-210 L2 *)
| WPlateaus (n : nat) (rev_ : bool) (scale : T)                                    (* 213-256 *)
| WCustom (f : dataset T -> res (list (series T))).                                (* 41-66 *)
(** [get_lookup]; [inp] is the input of the cache (which ignores the argument
    X of [get], cache.py 97-112). *)
Definition wt_lookup (inp : dataset T) (k : wkind) (X : dataset T) : res (list (series T)) :=
  match k with
  | WIndices rel tr sc => indices_lookup rel tr sc X
  | WLp two prepared rel tr sc =>
      let Y := if prepared then X else inp in
      lp_lookup rel eps5 tr sc (if two then L2_sum Y else L1_sum Y)
  | WPlateaus n r sc => plateaus_lookup n r sc X
  | WCustom f => f X
  end.
Definition wt_name (k : wkind) : pystr :=
  match k with WIndices _ _ _ => "Indices" | WLp two _ _ _ _ => if two then "L2" else "L1"
             | WPlateaus _ _ _ => "Plateaus" | WCustom _ => "Custom" end%string.

(** ** ISS objects (iss.py 92-204, cos.py 119-351) *)
Record iss_obj := { io_words : list (iword T); io_mode : issmode; io_sr : semiring; io_wt : option (wkind * bool) }.
Inductive issO :=
| IPlain (c : iss_obj) (ca : option (dataset T))
| ICos (c : cos_cfg T) (st : cos_state T) (ca : option (dataset T)).
Definition iss_cache (i : issO) : option (dataset T) := match i with IPlain _ ca => ca | ICos _ _ ca => ca end.
Definition iss_set_cache (ca : option (dataset T)) (i : issO) : issO :=
  match i with IPlain c _ => IPlain c ca | ICos c st _ => ICos c st ca end.
(** The ISS of M_ISS for a given input of the cache.  A lookup that raises
    (only for series of length 0) is dealt with in [plain_gen]. *)
Definition io_cfg (inp : dataset T) (c : iss_obj) : iss_cfg T :=
  {| is_words := io_words c; is_mode := io_mode c; is_sr := io_sr c;
     is_wt := option_map (fun kt => {| wg_lookup := fun X => match wt_lookup inp (fst kt) X with Ok l => l | Err _ => [] end;
                                       wg_total := snd kt |}) (io_wt c);
     is_wt_name := match io_wt c with Some (k, _) => wt_name k | None => [] end |}.
Definition is_simple (w : iword T) : bool := match iw_val w with WSimple _ _ => true | WGeneral _ => false end.
(** iss.py 21-67 with batch_size 1: the batches, one word each. *)
Fixpoint plain_gen (inp : dataset T) (c : iss_obj) (X : dataset T) (i : nat) (ws : list (iword T)) : list (res (list (mts T))) :=
  match ws with
  | [] => []
  | w :: r =>
      let cfg := io_cfg inp c in
      let rows :=
        if (match is_plan_opt cfg with None => is_argmax (io_sr c) | Some _ => false end) then Err NotImplementedError
        else
          let! _ := (match io_wt c with
                     | Some (k, _) => if is_simple w then wt_lookup inp k X else Ok []
                     | None => Ok [] end) in
          batch_rows (io_sr c) X (is_wt cfg) (is_plan_opt cfg) i [iw_val w] in
      match rows with
      | Err e => [Err e]
      | Ok b => Ok b :: plain_gen inp c X (S i) r
      end
  end.
(** iss.py 152-185 resp. cos.py 288-333 [batch_transform] with its default
    batch size 1 (which is larger than the number of words for an ISS without
    words). *)
Definition iss_batches (i : issO) (X : dataset T) : list (res (list (mts T))) :=
  match i with
  | IPlain c ca =>
      match io_words c with
      | [] => [Err ValueError]
      | ws => plain_gen (match ca with Some inp => inp | None => X end) c X 0 ws
      end
  | ICos c st _ => cos_batches c st X 1
  end.
(** seed.py 26-35 around iss.py 115-116 resp. cos.py 243-259. *)
Definition iss_fit (g : nat) (X : dataset T) (i : issO) : res unit * issO * nat :=
  match i with
  | IPlain c ca => (Ok tt, i, g)
  | ICos c st ca =>
      match cos_fit c (o_net W g) (o_idx W g) X st with
      | (Ok _, st') => (Ok tt, ICos c st' ca, S g)
      | (Err e, st') => (Err e, ICos c st' (Some (match ca with Some inp => inp | None => X end)), S g)
      end
  end.
(** iss.py 111-113, cos.py 239-241 *)
Definition iss_requires (i : issO) : bool := match i with IPlain _ _ => false | ICos c _ _ => cos_requires c end.
(** iss.py 135-150, cos.py 233-237 *)
Definition iss_n (i : issO) : res nat :=
  match i with IPlain c _ => n_iterated_sums (io_cfg [] c) | ICos c _ _ => Ok (cos_n c) end.
(** iss.py 187-193, cos.py 335-343 [_copy] *)
Definition iss_copy (i : issO) : issO :=
  match i with IPlain c _ => IPlain c None | ICos c _ _ => ICos (cos_copy c) cos_fresh None end.
(** iss.py 195-204, cos.py 345-351 *)
Definition iss_name (i : issO) (k : nat) : res pystr :=
  match i with IPlain c _ => iss_label (io_cfg [] c) k | ICos c _ _ => cos_label show_num c k end.

(** ** Sieves: labels (segment.py 96-101, increment.py 90-92, sieving/wrapper.py 60-61,
    100-101, seed.py 68-69 for PPV and CPV) *)
Definition seg_name (k : seg_kind) : pystr :=
  match k with KMAX => "MAX" | KMIN => "MIN" | KEND => "END" | KCUR => "CUR" | KAVG => "AVG" | KSTD => "STD"
             | KNPI _ => "NPI" | KMPI _ => "MPI" | KXPI _ => "XPI" | KLPI _ => "LPI" end%string.
Definition seg_label (kind : seg_kind) (cuts : list cut_arg) (quantiles : list q_arg) (index : nat) : res pystr :=
  match quantiles with
  | [] => Err IndexError
  | [_] => Err ZeroDivisionError
  | q => let nb := length q - 1 in
         let m := index mod nb in
         match nth_error cuts (index / nb), nth_error q m, nth_error q (m + 1) with
         | Some cut, Some a, Some b =>
             Ok (seg_name kind ++ (match is_inc_kind kind with
                                          | Some i => str "[inc=" ++ str_Z i ++ str "]" | None => [] end)
                 ++ str "!" ++ show_cut cut ++ str "![" ++ show_q a ++ str ", " ++ show_q b ++ str "]")
         | _, _, _ => Err IndexError
         end
  end.
Fixpoint sv_label (s : sieve T) (index : nat) : res pystr :=
  match s with
  | SSeg c _ _ => seg_label (sg_kind c) (sg_cut c) (sg_q c) index
  | SPpv c _ _ => Ok (show_ppv c)
  | SInc i _ _ _ => let! l := sv_label i index in Ok (str "INC of " ++ l)
  | SInt i _ => let! l := sv_label i index in Ok (str "INT of " ++ l)
  end.

(** The sieves of the kit.
    Fitted attributes have as many entries as there are thresholds (an
    invariant of fit, transform and copy).  Left out are: an END sieve whose
    argument q has not two entries (its number of columns is not nfeatures(),
    C50); segmented PPVs and CPVs whose copies have other flags: they are given
    their thresholds through a set, and the flags are paired with the elements
    of that set in the order of iteration (implicit.py 78-80, 131-137; C30 and
    C52 deal with them). *)
Fixpoint regular (s : sieve T) : Prop :=
  match s with
  | SSeg c st _ => (sg_kind c = KEND -> length (sg_q c) = 2) /\
                   match st with Some e => length e = length (sg_q c) | None => True end
  | SPpv c st _ => (pv_segments c = true -> qc_sort (combine (order (map fst (pv_qc c))) (map snd (pv_qc c))) = pv_qc c) /\
                   match st with Some q => length q = length (pv_qc c) | None => True end
  | SInc i _ _ _ => regular i | SInt i _ => regular i
  end.
Lemma xinsert_length x l : length (xinsert (T := T) x l) = S (length l).
Proof. induction l as [|y l IH]; cbn; [reflexivity|]. destruct (xleb x y); cbn; congruence. Qed.
Lemma xsort_length l : length (xsort (T := T) l) = length l.
Proof. unfold xsort. induction l as [|x l IH]; cbn; [reflexivity|]. now rewrite xinsert_length, IH. Qed.
Lemma mapM_length {A B} (f : A -> res B) l r : mapM f l = Ok r -> length r = length l.
Proof.
  revert r. induction l as [|x l IH]; intros r E; cbn in E; [now injection E as <-|].
  destruct (f x) as [y|e]; [|discriminate]. cbn in E. destruct (mapM f l) as [ys|e]; [|discriminate]. injection E as <-. cbn. f_equal. now apply IH.
Qed.
Lemma ppv_fit_length qc : forall i sel X, length (snd (ppv_fit_from qf i qc sel X)) = length qc.
Proof.
  induction qc as [|[q b] qc IH]; intros i sel X; cbn; [reflexivity|]. specialize (IH (S i) sel X).
  destruct b; [|destruct (is_prob_value q)]; cbn; [| |now rewrite map_length];
    destruct (ppv_fit_from qf (S i) qc sel X); cbn in *; congruence.
Qed.
Lemma combine_id {A B} (l : list (A * B)) : combine (map fst l) (map snd l) = l.
Proof. induction l as [|[a b] l IH]; cbn; congruence. Qed.
Lemma regular_ppv_copy c c' : (pv_segments c = true -> qc_sort (combine (order (map fst (pv_qc c))) (map snd (pv_qc c))) = pv_qc c) ->
  ppv_new (pv_components c) (map fst (pv_qc c)) (map snd (pv_qc c)) (pv_segments c) (order (map fst (pv_qc c))) = Ok c' -> c' = c.
Proof.
  intros Hr. unfold ppv_new. destruct (negb _); [discriminate|]. destruct (negb _); [discriminate|].
  rewrite combine_id. destruct c as [cp qc sg]. cbn [pv_components pv_qc pv_segments] in *. destruct sg; cbn [andb].
  - rewrite (Hr eq_refl). destruct (_ =? 1); [discriminate|]. intros E. now injection E.
  - intros E. now injection E.
Qed.
Lemma regular_copy s : forall s', regular s -> sv_copy order s = Ok s' -> regular s'.
Proof.
  induction s as [c st ca|c st ca|i IH d k ca|i IH ca]; intros s' Hr E; cbn [sv_copy regular] in *.
  - injection E as <-. exact (conj (proj1 Hr) I).
  - destruct (ppv_new _ _ _ _ _) as [c'|e] eqn:Ec; [|discriminate]. injection E as <-.
    rewrite (regular_ppv_copy c c' (proj1 Hr) Ec). exact (conj (proj1 Hr) I).
  - destruct (sv_copy order i) as [i'|e]; [|discriminate]. injection E as <-. cbn [regular]. eauto.
  - destruct (sv_copy order i) as [i'|e]; [|discriminate]. injection E as <-. cbn [regular]. eauto.
Qed.
Lemma regular_fit sel s : forall X, regular s -> regular (snd (sv_fit qf sel s X)).
Proof.
  induction s as [c st ca|c st ca|i IH d k ca|i IH ca]; intros X Hr; cbn [sv_fit regular] in *; auto.
  - split; [apply Hr|]. unfold seg_fit, edges_fit. now rewrite xsort_length, map_length.
  - pose proof (ppv_fit_length (pv_qc c) 0 sel X) as L. change (ppv_fit_from qf 0 (pv_qc c) sel X) with (ppv_fit qf c sel X) in L.
    destruct (ppv_fit qf c sel X) as [[[]|e] q]; cbn [snd] in *; (split; [apply Hr|exact L]).
  - destruct (wrap_inc d k X X) as [Y|e]; [|exact Hr]. specialize (IH Y Hr). now destruct (sv_fit qf sel i Y) as [[[]|e] i'].
  - specialize (IH (map cumsum X) Hr). now destruct (sv_fit qf sel i (map cumsum X)) as [[[]|e] i'].
Qed.
Lemma regular_transform s : forall X, regular s -> regular (snd (sv_transform parse s X)).
Proof.
  induction s as [c st ca|c st ca|i IH d k ca|i IH ca]; intros X Hr; cbn [sv_transform regular] in *; auto.
  - assert (L : match snd (seg_transform c (get_on parse match ca with Some inp => inp | None => map (fun x => [x]) X end) st X) with
                 Some e => length e = length (sg_q c) | None => True end).
    { unfold seg_transform. destruct (sg_kind c); try exact (proj2 Hr); (destruct (seg_requires c);
        [exact (proj2 Hr)|destruct (mapM edge_plain (sg_q c)) as [e|e] eqn:Em; [exact (mapM_length _ _ _ Em)|exact (proj2 Hr)]]). }
    cbn [sv_cache]. destruct (seg_transform c _ st X) as [[r|e] st']; cbn [snd] in *; (split; [apply Hr|exact L]).
  - now destruct (ppv_transform c st X).
  - destruct (wrap_inc d k X X) as [Y|e]; [|exact Hr]. specialize (IH Y Hr). now destruct (sv_transform parse i Y) as [[r|e] i'].
  - specialize (IH (map cumsum X) Hr). now destruct (sv_transform parse i (map cumsum X)) as [[r|e] i'].
Qed.
Lemma regular_set_cache s ca : regular s -> regular (sv_set_cache s ca).
Proof. now destruct s. Qed.
Definition sieveO := {s : sieve T | regular s}.
Definition so (s : sieveO) : sieve T := proj1_sig s.
Definition sieve_attach (c : dataset T) (s : sieveO) : sieveO :=
  exist _ (sv_set_cache (so s) (Some c)) (regular_set_cache _ _ (proj2_sig s)).
Definition sieve_fit (g : nat) (X : mts T) (s : sieveO) : res unit * sieveO * nat :=
  let r := sv_fit qf (r_idx (o_rand W g)) (so s) X in
  (fst r, exist _ (snd r) (regular_fit (r_idx (o_rand W g)) (so s) X (proj2_sig s)), S g).
Definition sieve_transform (X : mts T) (s : sieveO) : res (mts T) * sieveO :=
  let r := sv_transform parse (so s) X in
  (fst r, exist _ (snd r) (regular_transform (so s) X (proj2_sig s))).
Definition sieve_copy (s : sieveO) : res sieveO :=
  match sv_copy order (so s) as r return sv_copy order (so s) = r -> res sieveO with
  | Ok s' => fun E => Ok (exist _ s' (regular_copy (so s) s' (proj2_sig s) E))
  | Err e => fun _ => Err e
  end eq_refl.

(** ** The kit *)
Definition library : kit T := {|
  rng := nat;
  k_randint := fun g n => (o_int W g n, S g);
  k_choice := fun g n s => (o_choice W g n s, S g);
  prepT := prep T; issT := issO; sieveT := sieveO;
  p_attach := fun c p => pr_set_cache p (Some c);
  i_attach := fun c i => iss_set_cache (Some c) i;
  s_attach := sieve_attach;
  p_fit := fun g X p => (fst (pr_fit eps5 (o_rand W g) p X), snd (pr_fit eps5 (o_rand W g) p X), S g);
  i_fit := iss_fit;
  s_fit := sieve_fit;
  i_requires := iss_requires;
  s_requires := fun s => sv_requires (so s);
  p_transform := fun X p => pr_transform parse powf p X;
  s_transform := sieve_transform;
  i_batches := iss_batches;
  p_copy := fun p => Ok (pr_copy eps5 p);
  i_copy := fun i => Ok (iss_copy i);
  s_copy := sieve_copy;
  i_n := iss_n;
  s_nf := fun s => sv_nfeatures (so s);
  p_label := fun p => show_prep (pr_set_cache p None);
  i_label := iss_name;
  s_label := fun s => sv_label (so s)
|}.
End Seeds.
Arguments oracles T : clear implicits.
Arguments issO T : clear implicits.
