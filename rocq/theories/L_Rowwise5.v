(** ISS and CosWISS treat every series on its own (C76). *)
From Coq Require Import Ascii String List Arith ZArith Bool RelationClasses Lia.
From Verif Require Import Num Arr M_Str M_Semiring M_Words M_ISS M_Np M_Prep M_Cache M_Sieve M_PrepObj M_Cos M_Fruit M_Seeds
  L_API L_Gen S_Fruit S_Rowwise S_Rowwise2 L_Arr L_Np L_Fruit L_Fruit10 P_Copy L_Seeds L_Seeds2 P_Seeds L_Seeds3 L_Rowwise L_Rowwise2 L_Rowwise3 L_Rowwise4.
Import ListNotations.

Section Iss.
Context {T : Type} `{N : Num T}.
Variable eps5 : T.
Notation shp := (map (@length T)).
Notation dset := (list (list (list T))).

Lemma const_rows (row : nat -> res (list T)) : rowlookup (fun X => let! r := row (lenX X) in Ok (map (fun _ => r) X)).
Proof.
  intros X sel l SX P E. destruct (lenX_pick sel X SX P) as (-> & _). destruct (row (lenX X)) as [r|e]; [|discriminate]. cbn [bind] in *. injection E as <-.
  split; [apply map_length|]. split; [intros a b Ha Hb; apply in_map_iff in Ha as (? & <- & _); apply in_map_iff in Hb as (? & <- & _); reflexivity|].
  f_equal. symmetry. apply pick_map. apply P.
Qed.
Lemma lp_row_len rel e tr (y : list T) : length (snd (lp_row rel e tr y)) = length y.
Proof. unfold lp_row. cbv zeta. destruct rel, tr; unfold vectorize; cbn [snd]; rewrite ?map_length; reflexivity. Qed.
Lemma nrm_scale_len sc (dy : dtype * list T) (s : list T) : nrm_scale sc dy = Ok s -> length s = length (snd dy).
Proof. destruct dy as [dt y]. unfold nrm_scale. destruct (vmin y); [|discriminate]. cbn. destruct (vmax y); [|discriminate]. cbn. intros E. injection E as <-. cbn [snd]. now rewrite !map_length, nrm_row_len. Qed.
Lemma lp_rows (two rel : bool) tr sc : rowlookup (fun X => lp_lookup rel eps5 tr sc (if two then L2_sum X else L1_sum X)).
Proof.
  assert (G : forall h : T -> T, rowlookup (fun X => lp_lookup rel eps5 tr sc (map (fun x => cumsum (map h (inc_first x))) X))).
  { intros h X sel l SX (P1 & P2) E. unfold lp_lookup in *. split; [rewrite (mapM_length _ _ _ E); apply map_length|]. split.
    - intros a b Ha Hb. destruct (mapM_In _ _ _ _ E Ha) as (x & Hx & Ex). destruct (mapM_In _ _ _ _ E Hb) as (y & Hy & Ey).
      apply in_map_iff in Hx as (u & <- & Hu). apply in_map_iff in Hy as (v & <- & Hv).
      rewrite (nrm_scale_len _ _ _ Ex), (nrm_scale_len _ _ _ Ey), !lp_row_len, !cumsum_len, !map_length. apply inc_first_len. now apply SX.
    - rewrite <- (pick_map [] [] (fun x : mts T => cumsum (map h (inc_first x))) sel X P2). apply mapM_pick with (1 := E). intros i Hi. rewrite map_length. auto. }
  destruct two; [exact (G (fun v => nmul v v))|exact (G nabs)].
Qed.
Lemma lookup_rows k : row_wt k -> forall (c X : dset) sel l, same_shapes c -> same_shapes X -> length c = length X -> picks (length X) sel -> wt_lookup eps5 c k X = Ok l ->
  length l = length X /\ same_lengths l /\ wt_lookup eps5 (pick [] sel c) k (pick [] sel X) = Ok (pick [] sel l).
Proof.
  intros Hk c X sel l Sc SX L P. destruct k as [rel tr sc|two pr rel tr sc|n r sc|f]; cbn [wt_lookup].
  - apply (const_rows (fun len => nrm_scale sc (indices_row rel tr len))); assumption.
  - destruct pr; [apply (lp_rows two rel tr sc); assumption|]. intros E. destruct (lp_rows two rel tr sc c sel l Sc) with (2 := E) as (A & B & D); [now rewrite L|].
    split; [now rewrite A|]. split; [exact B|exact D].
  - apply (const_rows (fun len => nrm_scale sc (TFloat, plateaus_row n r len))); assumption.
  - apply Hk; assumption.
Qed.

(** ** One word *)
(** All samples of an array (n, k, l) have the same number of rows of the same length. *)
Definition even (A : list (list (list T))) : Prop := forall a b, In a A -> In b A -> eqls a b.
Lemma swap01_pick_any ext sel (A : list (list (list T))) : (forall i, In i sel -> i < length A) -> swap01 ext (pick [] sel A) = map (pick [] sel) (swap01 ext A).
Proof.
  intros Hs. unfold swap01. rewrite map_map. apply map_ext. intros r. symmetry. apply pick_map. exact Hs.
Qed.
Lemma swap01_even ext (A : list (list (list T))) s : even A -> In s (swap01 ext A) -> length s = length A /\ same_lengths s.
Proof.
  intros HA Hs. unfold swap01 in Hs. apply in_map_iff in Hs as (r & <- & _). split; [apply map_length|].
  intros a b Ha Hb. apply in_map_iff in Ha as (x & <- & Hx). apply in_map_iff in Hb as (y & <- & Hy). apply Forall2_nth_eql. now apply HA.
Qed.
Lemma sums_rows s (X : dset) w ext wt sel (wt' : option (weighting T)) : same_shapes X -> picks (length X) sel -> shaped_word w ->
  (match w, wt, wt' with
   | WSimple _ _, Some g, Some g' => wg_total g = wg_total g' /\ length (wg_lookup g X) = length X /\ same_lengths (wg_lookup g X) /\ wg_lookup g' (pick [] sel X) = pick [] sel (wg_lookup g X)
   | _, None, None => True | WGeneral _, _, _ => True | _, _, _ => False end) ->
  length (iterated_sums s X w ext wt) = length X /\ even (iterated_sums s X w ext wt) /\
  iterated_sums s (pick [] sel X) w ext wt' = pick [] sel (iterated_sums s X w ext wt).
Proof.
  intros SX (P1 & P2) Hw Hwt. destruct w as [e a|e]; cbn [iterated_sums].
  - destruct wt as [g|], wt' as [g'|]; try contradiction.
    + destruct Hwt as (Et & Lg & Sg & Eg). rewrite Eg, <- Et. split; [rewrite map2_len; lia|]. split.
      * intros x y Hx Hy. apply In_nth with (d := []) in Hx as (i & Hi & <-). apply In_nth with (d := []) in Hy as (j & Hj & <-). rewrite map2_len in Hi, Hj.
        rewrite !(map2_nth _ _ _ _ [] [] []) by lia. apply fast_len; [apply SX|apply Sg]; apply nth_In; lia.
      * apply map2_pick. intros i Hi. specialize (P2 i Hi). lia.
    + split; [rewrite map2_len, map_length; lia|]. split.
      * intros x y Hx Hy. apply In_nth with (d := []) in Hx as (i & Hi & <-). apply In_nth with (d := []) in Hy as (j & Hj & <-). rewrite map2_len, map_length in Hi, Hj.
        rewrite !(map2_nth _ _ _ _ [] [] []) by (rewrite ?map_length; lia). apply fast_len; [apply SX; apply nth_In; lia|].
        rewrite !(nth_indep _ [] ((fun Z : mts T => zeros (tlen Z)) [])) by (rewrite map_length; lia). rewrite !(map_nth (fun Z : mts T => zeros (tlen Z))).
        apply eql_zeros. apply SX; apply nth_In; lia.
      * rewrite <- (pick_map [] [] (fun Z : mts T => zeros (tlen Z)) sel X P2). apply map2_pick. intros i Hi. specialize (P2 i Hi). rewrite map_length. lia.
  - split; [apply map_length|]. split.
    + intros x y Hx Hy. apply in_map_iff in Hx as (u & <- & Hu). apply in_map_iff in Hy as (v & <- & Hv). apply general_len; [now apply SX|exact Hw].
    + symmetry. apply pick_map. exact P2.
Qed.
Lemma assign_rows_in m (A B : list (list (list T))) s : assign_rows m A = Ok B -> In s B -> In s A.
Proof.
  unfold assign_rows. destruct (length A =? m); [intros E; now injection E as <-|]. destruct A as [|r [|]]; try discriminate. intros E. injection E as <-. intros Hs. apply repeat_spec in Hs. now left.
Qed.

Lemma plain_rows o (c X : dset) sel : (match io_wt o with Some (k, _) => row_wt k | None => True end) -> same_shapes c -> same_shapes X -> length c = length X -> picks (length X) sel ->
  forall ws, Forall (fun w : iword T => shaped_word (iw_val w)) ws -> forall i bs, plain_gen eps5 c o X i ws = map Ok bs ->
  (forall b s, In b bs -> In s b -> length s = length X /\ same_lengths s) /\
  plain_gen eps5 (pick [] sel c) o (pick [] sel X) i ws = map Ok (map (map (pick [] sel)) bs).
Proof.
  intros Hwt Sc SX L P ws F. induction F as [|w ws Hw F IH]; intros i bs E; cbn [plain_gen] in *.
  - destruct bs; [|discriminate]. split; [intros b s []|reflexivity].
  - change (is_plan_opt (io_cfg eps5 (pick [] sel c) o)) with (is_plan_opt (io_cfg eps5 c o)). set (plan := is_plan_opt (io_cfg eps5 c o)) in *.
    destruct (match plan with None => is_argmax (io_sr o) | Some _ => false end); [destruct bs; discriminate|].
    assert (Lk : match (match io_wt o with Some (k, _) => if is_simple w then wt_lookup eps5 c k X else Ok [] | None => Ok [] end) with
       | Ok l => (exists l', (match io_wt o with Some (k, _) => if is_simple w then wt_lookup eps5 (pick [] sel c) k (pick [] sel X) else Ok [] | None => Ok [] end) = Ok l') /\
          let wt := is_wt (io_cfg eps5 c o) in let wt' := is_wt (io_cfg eps5 (pick [] sel c) o) in
          (match iw_val w, wt, wt' with
           | WSimple _ _, Some g, Some g' => wg_total g = wg_total g' /\ length (wg_lookup g X) = length X /\ same_lengths (wg_lookup g X) /\ wg_lookup g' (pick [] sel X) = pick [] sel (wg_lookup g X)
           | _, None, None => True | WGeneral _, _, _ => True | _, _, _ => False end)
       | Err e => True end).
    { unfold io_cfg. cbn [is_wt]. destruct (io_wt o) as [[k tot]|]; cbn [option_map]; [|split; [now exists []|now destruct (iw_val w)]]. unfold is_simple. destruct (iw_val w) as [e a|e]; [|split; [now exists []|exact Logic.I]].
      destruct (wt_lookup eps5 c k X) as [l|e0] eqn:El; [|exact Logic.I]. destruct (lookup_rows k Hwt c X sel l Sc SX L P El) as (A & B & D). split; [exists (pick [] sel l); exact D|].
      cbn [wg_lookup wg_total fst snd]. rewrite El, D. auto. }
    match type of Lk with match ?q with _ => _ end => destruct q as [l|e]; [|destruct bs; discriminate] end. destruct Lk as ((l' & ->) & Lk). cbn [bind batch_rows] in *.
    destruct (sums_rows (io_sr o) X (iw_val w) (word_ext plan i) _ sel _ SX P Hw Lk) as (A & B & D). rewrite D.
    rewrite swap01_pick_any by (rewrite A; apply P). rewrite assign_rows_pick.
    destruct (assign_rows _ (swap01 (sr_rows (io_sr o) (iw_val w) (word_ext plan i)) (iterated_sums (io_sr o) X (iw_val w) (word_ext plan i) _))) as [blk|e] eqn:Ea; [|destruct bs; discriminate].
    cbn [bind res_map] in *. destruct bs as [|b bs]; [discriminate|]. cbn [map] in E. injection E as <- E. destruct (IH (S i) bs E) as (Q1 & Q2). rewrite Q2. cbn [map]. rewrite map_app. split; [|reflexivity].
    intros b s [<-|Hb] Hs; [|now apply (Q1 b)]. rewrite app_nil_r in Hs. apply (assign_rows_in _ _ _ _ Ea) in Hs. rewrite <- A. now apply (swap01_even _ _ _ B) in Hs.
Qed.
Lemma ffn_sample_shp c st (x x' : mts T) : shp x = shp x' -> shp (ffn_sample c st x) = shp (ffn_sample c st x').
Proof.
  intros E. unfold ffn_sample. set (z := if ffn_center c then map center_row x else x). set (z' := if ffn_center c then map center_row x' else x').
  assert (Ez : shp z = shp z') by (unfold z, z'; destruct (ffn_center c); [rewrite !map_shp; [exact E| |]; intros r; unfold center_row; apply map_length|exact E]).
  rewrite !map_map. apply map_ext. intros o. now rewrite !tab_shp, (tlen_shp z z' Ez).
Qed.
Lemma cos_word_rows o st (X : dset) sel w word rows : same_shapes X -> picks (length X) sel -> cos_word o st X w word = Ok rows ->
  (forall s, In s rows -> length s = length X /\ same_lengths s) /\ cos_word o st (pick [] sel X) w word = Ok (map (pick [] sel) rows).
Proof.
  intros SX (P1 & P2) E. unfold cos_word in *. set (W := get_weightings (cw_exp o) (cw_total o) (length (sw_exts word))) in *.
  set (jf := combine (seq 0 (length (cw_freqs o))) (cw_freqs o)) in *.
  assert (G : forall g : nat -> T -> mts T -> list T, (forall j f x x', shp x = shp x' -> eql (g j f x) (g j f x')) -> Ok (map (fun p => map (g (fst p) (snd p)) X) jf) = Ok rows ->
    (forall s, In s rows -> length s = length X /\ same_lengths s) /\ Ok (map (fun p => map (g (fst p) (snd p)) (pick [] sel X)) jf) = Ok (map (pick [] sel) rows)).
  { intros g Hg Q. injection Q as <-. split.
    - intros s Hs. apply in_map_iff in Hs as (p & <- & _). split; [apply map_length|]. intros a b Ha Hb. apply in_map_iff in Ha as (x & <- & Hx). apply in_map_iff in Hb as (y & <- & Hy). now apply Hg, SX.
    - f_equal. rewrite map_map. apply map_ext. intros p. symmetry. apply pick_map. exact P2. }
  destruct (cw_ffn o).
  - destruct (cs_ffn st) as [net|]; [|discriminate]. refine (G (fun j f x => cos_single (cos_ffn (net w j) x) (sw_exts word) f W (fun _ => [])) _ E).
    intros j f x x' Ex. apply cos_single_len. now apply ffn_sample_shp.
  - destruct (cw_drop o).
    + destruct (cs_drop st) as [idx|]; [|discriminate]. refine (G (fun j f x => cos_single x (sw_exts word) f W (idx w j)) _ E). intros j f x x' Ex. now apply cos_single_len.
    + refine (G (fun _ f x => cos_single x (sw_exts word) f W (fun _ => [])) _ E). intros j f x x' Ex. now apply cos_single_len.
Qed.
Lemma cos_rows o st (X : dset) sel : same_shapes X -> picks (length X) sel -> forall ws b w R bs,
  (forall r s, In r R -> In s r -> length s = length X /\ same_lengths s) -> cos_gen o st X b w ws R = map Ok bs ->
  (forall b s, In b bs -> In s b -> length s = length X /\ same_lengths s) /\
  cos_gen o st (pick [] sel X) b w ws (map (map (pick [] sel)) R) = map Ok (map (map (pick [] sel)) bs).
Proof.
  intros SX P. induction ws as [|word ws IH]; intros b w R bs HR E; cbn [cos_gen] in *.
  - destruct R as [|r R]; [destruct bs; [|discriminate]; split; [intros ? ? []|reflexivity]|]. destruct bs as [|b0 [|]]; try discriminate. injection E as <-. split.
    + intros b1 s [<-|[]] Hs. change (r ++ concat R) with (concat (r :: R)) in Hs. apply in_concat in Hs as (x & Hx & Hs). exact (HR x s Hx Hs).
    + cbn [map concat]. now rewrite map_app, (concat_map (pick [] sel)).
  - destruct (cos_word o st X w word) as [rows|e] eqn:Ew; [|destruct bs; discriminate].
    destruct (cos_word_rows o st X sel w word rows SX P Ew) as (A & B). rewrite B.
    replace (map (map (pick [] sel)) R ++ [map (pick [] sel) rows]) with (map (map (pick [] sel)) (R ++ [rows])) by (now rewrite map_app). rewrite map_length.
    assert (HR' : forall r s, In r (R ++ [rows]) -> In s r -> length s = length X /\ same_lengths s) by (intros r s Hr Hs; apply in_app_iff in Hr as [Hr|[<-|[]]]; [exact (HR r s Hr Hs)|now apply A]).
    destruct (length (R ++ [rows]) =? b); [|now apply IH].
    destruct bs as [|b0 bs]; [discriminate|]. cbn [map] in E. injection E as <- E. destruct (IH b (S w) [] bs (fun r s (h : In r []) => match h with end) E) as (Q1 & Q2). cbn [map] in Q2. rewrite Q2. cbn [map]. rewrite <- (concat_map (pick [] sel)). split; [|reflexivity].
    intros b1 s [<-|Hb] Hs; [|exact (Q1 b1 s Hb Hs)]. apply in_concat in Hs as (x & Hx & Hs). exact (HR' x s Hx Hs).
Qed.
Lemma iss_rows i (c X : dset) sel bs : row_iss i -> same_shapes c -> same_shapes X -> length c = length X -> picks (length X) sel ->
  iss_batches eps5 (iss_set_cache (Some c) i) X = map Ok bs ->
  (forall b s, In b bs -> In s b -> length s = length X /\ same_lengths s) /\
  iss_batches eps5 (iss_set_cache (Some (pick [] sel c)) i) (pick [] sel X) = map Ok (map (map (pick [] sel)) bs).
Proof.
  intros Hi Sc SX L P E. destruct i as [o ca|o st ca]; cbn [iss_set_cache iss_batches] in *.
  - destruct (io_words o) as [|w ws] eqn:Ew; [destruct bs; discriminate|]. destruct Hi as (H1 & H2). rewrite Ew in H1. exact (plain_rows o c X sel H2 Sc SX L P (w :: ws) H1 0 bs E).
  - unfold cos_batches in *. apply (cos_rows o st X sel SX P (cw_words o) 1 0 [] bs); [intros ? ? []|exact E].
Qed.
End Iss.
