(** Properties C08 (letter order), C13, C18, C58, C59. *)
From Coq Require Import Ascii String List Arith ZArith Bool Lia Reals Lra Permutation.
From Verif Require Import Num Arr S_ISS S_Plan S_Words S_Shuffle S_Weight M_Str M_Semiring M_Words M_ISS
  L_Words L_Gen L_Rows L_ISS L_Single L_Ext L_Word2 L_General L_Algebra L_Homog L_Argmax L_Weight L_RComp.
Import ListNotations.
Open Scope R_scope.

(** C13: the product of two iterated sums is the sum over the quasi-shuffle. *)
Theorem C13_quasi_shuffle : forall (c : iss_cfg R) (wu wv : sword R) (ws : list (sword R)) u v X n,
  is_words c = map simple_iword (wu :: wv :: ws) -> is_mode c = SINGLE -> is_sr c = Reals -> is_wt c = None ->
  wf_dataset X n -> no_zero u -> no_zero v ->
  simple_word (sw_name wu) = Ok wu -> spells (sw_name wu) u ->
  simple_word (sw_name wv) = Ok wv -> spells (sw_name wv) v ->
  Forall2 (fun w els => simple_word (sw_name w) = Ok w /\ spells (sw_name w) els) ws (quasi_shuffle u v) ->
  Forall (fun x => fits x n u /\ fits x n v) X ->
  exists ru rv rws, iss_transform c X = Ok (ru :: rv :: rws) /\
    forall i t, (i < length X)%nat -> (t < n)%nat ->
      nth t (nth i ru []) 0 * nth t (nth i rv []) 0 = Rsum (map (fun r => nth t (nth i r []) 0) rws).
Proof. exact quasi_shuffle_api. Qed.
Print Assumptions C13_quasi_shuffle.
(** The words of the quasi-shuffle always exist as SimpleWords. *)
Theorem C13_words_exist : forall u v, u <> [] -> v <> [] -> no_zero u -> no_zero v ->
  Forall (fun el => el <> []) u -> Forall (fun el => el <> []) v ->
  exists ws : list (sword R), Forall2 (fun w els => simple_word (sw_name w) = Ok w /\ spells (sw_name w) els) ws (quasi_shuffle u v).
Proof.
  intros u v Hu Hv Zu Zv Eu Ev.
  assert (A : forall w, In w (quasi_shuffle u v) -> w <> [] /\ no_zero w /\ Forall (fun el => el <> []) w).
  { clear Hv. revert v Zv Ev Zu Hu Eu. induction u as [|a u IHu]; [congruence|]. intros v Zv Ev Zu _ Eu.
    inversion Zu; inversion Eu; subst.
    induction v as [|b v IHv]; intros w Hw.
    - destruct Hw as [<-|[]]. split; [discriminate|]. split; assumption.
    - inversion Zv; inversion Ev; subst.
      assert (K : forall v w, no_zero v -> Forall (fun el => el <> []) v -> In w (quasi_shuffle u v) -> no_zero w /\ Forall (fun el => el <> []) w).
      { intros v0 w0 Z0 E0 H0. destruct u as [|a' u'].
        - destruct v0; destruct H0 as [<-|[]]; split; assumption.
        - destruct (IHu v0 Z0 E0 ltac:(assumption) ltac:(discriminate) ltac:(assumption) w0 H0) as (_ & ? & ?). split; assumption. }
      cbn [quasi_shuffle] in Hw. apply in_app_or in Hw. destruct Hw as [Hw|Hw]; [|apply in_app_or in Hw; destruct Hw as [Hw|Hw]];
        apply in_map_iff in Hw; destruct Hw as (w' & <- & Hw); (split; [discriminate|]).
      + destruct (K (b :: v) w' ltac:(assumption) ltac:(assumption) Hw). split; constructor; assumption.
      + destruct (IHv ltac:(assumption) ltac:(assumption) w' Hw) as (_ & ? & ?). split; constructor; assumption.
      + destruct (K v w' ltac:(assumption) ltac:(assumption) Hw). split; constructor; try assumption.
        * apply Forall_app. split; assumption.
        * destruct a; [congruence|discriminate]. }
  induction (quasi_shuffle u v) as [|w l IH]; [exists []; constructor|].
  destruct IH as (ws & Hws); [intros; apply A; now right|]. destruct (A w (or_introl eq_refl)) as (H1 & H2 & H3).
  destruct (spells_exists w H1 H3) as (s & Hs). exists ({| sw_name := s; sw_maxdim := top_dim w; sw_exts := map (table (top_dim w)) w; sw_alpha := None |} :: ws).
  constructor; [|assumption]. cbn [sw_name]. split; [|assumption]. now apply simple_word_nz'.
Qed.
Print Assumptions C13_words_exist.
(** [1] and [2-1]: 3 quasi-shuffle words. *)
Example C13_nonvacuous : quasi_shuffle [[1]]%Z [[2; -1]]%Z = [[[1]; [2; -1]]; [[2; -1]; [1]]; [[1; 2; -1]]]%Z /\
  spells (str "[1]") [[1]]%Z /\ spells (str "[2-1]") [[2; -1]]%Z /\
  fits [[1; 2; 3]; [5; 0; 1]] 3 [[1]]%Z /\ fits [[1; 2; 3]; [5; 0; 1]] 3 [[2; -1]]%Z.
Proof.
  split; [reflexivity|]. split; [|split].
  - exists [[TShort false "1"%char]]. split; [|split; reflexivity]. split; [discriminate|]. repeat constructor; discriminate.
  - exists [[TShort false "2"%char; TShort true "1"%char]]. split; [|split; reflexivity]. split; [discriminate|]. repeat constructor; discriminate.
  - assert (P : forall i, (i < 3)%nat -> at_ [[1; 2; 3]; [5; 0; 1]] 0 i <> 0).
    { intros [|[|[|i]]] Hi; cbn; try lra; lia. }
    split; (split; [cbn; lia|]); intros i Hi; constructor; try constructor; intros d Hd Hneg.
    + destruct d as [|[|d]]; [lia|now apply P|]. exfalso. revert Hneg. unfold occurrences. cbn [count_occ]. repeat destruct (Z.eq_dec _ _); cbn; lia.
    + destruct d as [|[|d]]; [lia|now apply P|]. exfalso. revert Hneg. unfold occurrences. cbn [count_occ]. repeat destruct (Z.eq_dec _ _); cbn; lia.
Qed.

(** C59. *)
Theorem C59_reals_scaling : forall (c : iss_cfg R) (words : list (sword R)) X n d k,
  is_words c = map simple_iword words -> is_mode c = SINGLE -> is_sr c = Reals -> is_wt c = None ->
  words <> [] -> wf_dataset X n -> k <> 0 ->
  Forall (fun w => sw_exts w <> [] /\
      Forall (fun x => letters_in (length x) (sw_exts w) /\ nonzero_where_neg x n (sw_exts w)) X) words ->
  exists rows rows', iss_transform c X = Ok rows /\ iss_transform c (map (scale_dim d k) X) = Ok rows' /\
    forall r w i t, nth_error words r = Some w -> (i < length X)%nat -> (t < n)%nat ->
      nth t (nth i (nth r rows' []) []) 0
      = powerRZ k (total_exponent d (sw_exts w)) * nth t (nth i (nth r rows []) []) 0.
Proof. exact reals_scaling. Qed.
Print Assumptions C59_reals_scaling.
Theorem C59_reals_negated_exponents : forall (c c' : iss_cfg R) (words words' : list (sword R)) X n,
  is_words c = map simple_iword words -> is_mode c = SINGLE -> is_sr c = Reals -> is_wt c = None ->
  is_words c' = map simple_iword words' -> is_mode c' = SINGLE -> is_sr c' = Reals -> is_wt c' = None ->
  map (@sw_exts R) words' = map (fun w => negated (sw_exts w)) words ->
  words <> [] -> wf_dataset X n -> Forall (Forall (Forall (fun v => v <> 0))) X ->
  Forall (fun w => sw_exts w <> [] /\ Forall (fun x => letters_in (length x) (sw_exts w)) X) words ->
  iss_transform c' X = iss_transform c (map invert X).
Proof. exact reals_inversion. Qed.
Print Assumptions C59_reals_negated_exponents.
Theorem C59_arctic_scaling : forall (c : iss_cfg R) (words : list (sword R)) X n k,
  is_words c = map simple_iword words -> is_mode c = SINGLE -> is_sr c = Arctic false -> is_wt c = None ->
  words <> [] -> wf_dataset X n -> 0 < k ->
  Forall (fun w => sw_exts w <> [] /\ Forall (fun x => tables_in (length x) (sw_exts w)) X) words ->
  exists rows rows', iss_transform c X = Ok rows /\ iss_transform c (map (scale_all k) X) = Ok rows' /\
    length rows = length words /\ length rows' = length words /\
    forall r i t, (r < length words)%nat -> (i < length X)%nat -> (t < n)%nat ->
      nth t (nth i (nth r rows' []) []) 0 = k * nth t (nth i (nth r rows []) []) 0.
Proof. exact arctic_scaling. Qed.
Print Assumptions C59_arctic_scaling.
Theorem C59_arctic_negated_exponents : forall (c c' : iss_cfg R) (words words' : list (sword R)) X n,
  is_words c = map simple_iword words -> is_mode c = SINGLE -> is_sr c = Arctic false -> is_wt c = None ->
  is_words c' = map simple_iword words' -> is_mode c' = SINGLE -> is_sr c' = Arctic false -> is_wt c' = None ->
  map (@sw_exts R) words' = map (fun w => negated (sw_exts w)) words ->
  words <> [] -> wf_dataset X n ->
  Forall (fun w => sw_exts w <> [] /\ Forall (fun x => tables_in (length x) (sw_exts w)) X) words ->
  iss_transform c' X = iss_transform c (map (scale_all (-1)) X).
Proof. exact arctic_negation. Qed.
Print Assumptions C59_arctic_negated_exponents.
Definition ex_word : sword R := {| sw_name := str "[12][-1]"; sw_maxdim := 2; sw_exts := [[1; 1]; [-1; 0]]%Z; sw_alpha := None |}.
Definition ex_neg_word : sword R := {| sw_name := str "[-1-2][1]"; sw_maxdim := 2; sw_exts := [[-1; -1]; [1; 0]]%Z; sw_alpha := None |}.
Definition ex_X : dataset R := [[[1; 2; 3]; [4; 5; 6]]].
Example C59_nonvacuous : simple_word (str "[12][-1]") = Ok ex_word /\ simple_word (str "[-1-2][1]") = Ok ex_neg_word /\
  map (@sw_exts R) [ex_neg_word] = map (fun w => negated (sw_exts w)) [ex_word] /\
  wf_dataset ex_X 3 /\ Forall (Forall (Forall (fun v => v <> 0))) ex_X /\
  letters_in 2 (sw_exts ex_word) /\ tables_in 2 (sw_exts ex_word) /\ nonzero_where_neg (nth 0 ex_X []) 3 (sw_exts ex_word) /\
  total_exponent 0 (sw_exts ex_word) = 0%Z /\ total_exponent 1 (sw_exts ex_word) = 1%Z.
Proof.
  split; [reflexivity|]. split; [reflexivity|]. split; [reflexivity|].
  unfold ex_X, wf_dataset, wf_series, letters_in, tables_in, nonzero_where_neg. cbn [sw_exts ex_word].
  split; [repeat constructor; discriminate|]. split; [repeat constructor; lra|].
  split; [apply Forall_cons; [|apply Forall_cons; [|apply Forall_nil]]; cbn [length]; intros; lia|].
  split; [apply Forall_cons; [|apply Forall_cons; [|apply Forall_nil]]; cbn [length]; lia|].
  split; [|split; reflexivity].
  apply Forall_cons; [|apply Forall_cons; [|apply Forall_nil]]; cbn [length]; intros [|[|j]] i Hj Hneg Hi; cbn in Hneg; try lia.
  destruct i as [|[|[|i]]]; cbn; try lra; lia.
Qed.

(** C08, "all orders of the letters": reordering the letters inside the extended
    letters of general words changes nothing (any semiring, mode, weighting). *)
Theorem C08_letter_order : forall (c c' : iss_cfg R) X,
  Forall2 same_letters (map iw_val (is_words c)) (map iw_val (is_words c')) ->
  is_sr c' = is_sr c -> is_wt c' = is_wt c -> is_plan_opt c' = is_plan_opt c ->
  iss_transform c X = iss_transform c' X.
Proof. exact letter_order. Qed.
Print Assumptions C08_letter_order.

(** C58. *)
Theorem C58_argmax : forall (c : iss_cfg R) (words : list (sword R)) X n,
  is_words c = map simple_iword words -> is_mode c = EXTENDED -> is_sr c = Arctic true -> is_wt c = None ->
  words <> [] -> wf_dataset X n -> (0 < n)%nat ->
  Forall (fun w => Forall (fun e => ~ Forall (fun z => z = 0%Z) e) (sw_exts w)
                   /\ Forall (fun x => tables_in (length x) (sw_exts w)) X) words ->
  exists blocks, iss_transform c X = Ok (concat blocks) /\ length blocks = length words /\
    n_iterated_sums c = Ok (length (concat blocks)) /\
    forall j w, nth_error words j = Some w ->
      let at_row r i t := nth t (nth i (nth r (nth j blocks []) []) []) 0 in
      length (nth j blocks []) = argmax_rows (length (sw_exts w)) /\
      forall k i x, (k < length (sw_exts w))%nat -> nth_error X i = Some x ->
        let first := (k + k * (k + 1) / 2)%nat in
        (forall t, (t < n)%nat -> is_max (nondec_upto (S k) t) (word_val_plus x (firstn (S k) (sw_exts w))) (at_row first i t)) /\
        exists tau, nondec_upto (S k) (n - 1) tau
          /\ (forall s, (s <= k)%nat -> at_row (first + 1 + s)%nat i (n - 1)%nat = INR (nth s tau 0%nat))
          /\ word_val_plus x (firstn (S k) (sw_exts w)) tau = at_row first i (n - 1)%nat.
Proof. exact argmax_api. Qed.
Print Assumptions C58_argmax.
Definition am_cfg (wt : option (weighting R)) (s : sword R) : iss_cfg R :=
  {| is_words := [simple_iword s]; is_mode := EXTENDED; is_sr := Arctic true; is_wt := wt; is_wt_name := [] |}.
(** At an earlier time step the reported positions need not be a chain: word
    [1][-1-1] on 0,1,0 reports at time 1 the positions (1, 0). *)
Theorem C58_earlier_times_refuted : exists w : sword R, simple_word (str "[1][-1-1]") = Ok w /\
  exists v1 i1 v2 p1 p2, iss_transform (am_cfg None w) [[[0; 1; 0]]] = Ok [v1; i1; v2; p1; p2] /\
    nth 1 (nth 0 p1 []) 0 = 1 /\ nth 1 (nth 0 p2 []) 0 = 0.
Proof.
  exists {| sw_name := str "[1][-1-1]"; sw_maxdim := 1; sw_exts := [[1]; [-2]]%Z; sw_alpha := None |}.
  split; [reflexivity|]. do 5 eexists. split.
  - rcompute.
  - split; cbn; reflexivity.
Qed.
Print Assumptions C58_earlier_times_refuted.
(** With a weighting not even the last time step: word [1][2], g = 0, 2. *)
Definition am_wt : weighting R := {| wg_lookup := fun X => map (fun _ => [0; 2]) X; wg_total := false |}.
Theorem C58_weighting_refuted : exists w : sword R, simple_word (str "[1][2]") = Ok w /\
  exists v1 i1 v2 p1 p2, iss_transform (am_cfg (Some am_wt) w) [[[1; 1/2]; [0; 10]]] = Ok [v1; i1; v2; p1; p2] /\
    nth 1 (nth 0 v2 []) 0 = 21/2 /\ nth 1 (nth 0 p1 []) 0 = 0 /\ nth 1 (nth 0 p2 []) 0 = 1 /\
    word_val_plus [[1; 1/2]; [0; 10]] (sw_exts w) [0; 1]%nat + weight_exp (get_alpha w) [0; 2] [0; 1]%nat = 9.
Proof.
  exists {| sw_name := str "[1][2]"; sw_maxdim := 2; sw_exts := [[1; 0]; [0; 1]]%Z; sw_alpha := None |}.
  split; [reflexivity|]. do 5 eexists. split.
  - rcompute.
  - repeat split; rcbv; lra.
Qed.
Print Assumptions C58_weighting_refuted.

(** C18. [so] is the unspecified iteration order of a Python set. *)
Theorem C18_of_weight : forall so w d, (forall x, Permutation (so x) x) -> (1 <= w)%nat ->
  exists ws : list (sword R), of_weight so w d = Ok ws /\
    (forall x, In x ws -> simple_word (sw_name x) = Ok x /\ exists els, spells (sw_name x) els /\ weight_word w d els) /\
    (forall s els (x : sword R), spells s els -> weight_word w d els -> simple_word s = Ok x ->
       exists j y, nth_error ws j = Some y /\ sw_eq y x = true /\
         forall j' y', nth_error ws j' = Some y' -> sw_eq y' x = true -> j' = j) /\
    (forall j j' y y', nth_error ws j = Some y -> nth_error ws j' = Some y' -> sw_eq y y' = true -> j = j').
Proof. intros. now apply of_weight_spec. Qed.
Print Assumptions C18_of_weight.
Theorem C18_count : forall d, exists N : nat -> nat,
  N 0%nat = 1%nat /\
  (forall w, (1 <= w)%nat -> N w = list_sum (map (fun i => binomial (d + i - 1) i * N (w - i))%nat (seq 1 w))) /\
  forall so w (ws : list (sword R)), (forall x, Permutation (so x) x) -> (1 <= w)%nat -> of_weight so w d = Ok ws -> length ws = N w.
Proof. exact of_weight_recurrence. Qed.
Print Assumptions C18_count.
Theorem C18_count_dim1 : forall so w (ws : list (sword R)), (forall x, Permutation (so x) x) -> (1 <= w)%nat ->
  of_weight so w 1 = Ok ws -> length ws = (2 ^ (w - 1))%nat.
Proof. intros so w ws. exact (of_weight_dim1 so w ws). Qed.
Print Assumptions C18_count_dim1.
Example C18_nonvacuous :
  match of_weight (T := R) (fun x => x) 2 2 with Ok ws => map (@sw_name R) ws | Err _ => [] end
  = map str ["[11]"; "[12]"; "[22]"; "[1][1]"; "[1][2]"; "[2][1]"; "[2][2]"]%string.
Proof. vm_compute. reflexivity. Qed.
Example C18_weight_zero : of_weight (T := R) (fun x => x) 0 2 = Err IndexError.
Proof. reflexivity. Qed.
