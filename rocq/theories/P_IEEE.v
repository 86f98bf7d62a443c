(** Floating point: C75, and C06 bit for bit. *)
From Coq Require Import Ascii String List Arith ZArith Bool Lia Floats.SpecFloat.
From Verif Require Import Num Arr M_Str M_Semiring M_Words M_ISS M_Np M_Prep M_Cache M_Sieve M_PrepObj M_Cos M_Fruit M_Seeds M_IEEE
  S_ISS S_Plan S_Words S_IEEE S_Fruit L_ISS P_ISS L_Gen L_Bits L_Bits2 L_Fruit5.
Import ListNotations.
Open Scope nat_scope.

(** * C75 *)
Lemma dfin_finite x : finite (dfin x).
Proof. destruct x as [s|s| |s m e]; split; try intros s'; discriminate. Qed.
(** Whatever the seeds are and whatever was called before. *)
Theorem C75_features_are_finite : forall exp sin cos,
  let N := IEEE exp sin cos in
  forall (K : kit spec_float) h f X cbs cache A h',
  @fruit_transform _ N K f X cbs cache h = (Ok A, h') \/ @fruit_fit_transform _ N K f X cbs h = (Ok A, h') ->
  forall row v, In row A -> In v row -> finite v.
Proof.
  intros ex si co N K h f X cbs cache A h' E.
  assert (G : forall c h0 h1, @fruit_transform _ N K f X cbs c h0 = (Ok A, h1) -> forall row v, In row A -> In v row -> finite v).
  { clear E. intros c h0 h1 E row v Hr Hv. unfold fruit_transform in E. apply bind_inv in E as (x & h2 & _ & E).
    destruct (negb (f_fitted x)); [discriminate|]. apply bind_inv in E as (n & h3 & _ & E). apply bind_inv in E as (A0 & h4 & _ & E).
    cbn in E. injection E as <- _. unfold nan_to_num in Hr. apply in_map_iff in Hr as (r0 & <- & _). apply in_map_iff in Hv as (v0 & <- & _). apply dfin_finite. }
  destruct E as [E|E]; [exact (G _ _ _ E)|]. unfold fruit_fit_transform in E. apply bind_inv in E as (u & h2 & _ & E). exact (G _ _ _ E).
Qed.
Print Assumptions C75_features_are_finite.
(** Finite values are not touched (library_fruit_features and fruit_features say
    that the columns are those of the slices, through [nfin] = [dfin]). *)
Theorem C75_replacement : 
  (forall x, finite x -> dfin x = x) /\ dfin S754_nan = S754_zero false /\
  (forall s, dfin (S754_infinity s) = S754_finite s (2 ^ 53 - 1) 971).
Proof.
  split; [|split; reflexivity]. intros [s|s| |s m e] [H1 H2]; try reflexivity; [exfalso; now apply (H2 s)|exfalso; now apply H1].
Qed.
Print Assumptions C75_replacement.

(** A run of the library with doubles. *)
Definition idf (x : spec_float) : spec_float := x.
#[local] Instance dnum : Num spec_float := IEEE (fun _ => dofZ 1) idf idf.
Definition d_oracles : oracles spec_float := {|
  o_int := fun _ n => n - 1;
  o_choice := fun _ n size => rev (skipn (n - size) (seq 0 n));
  o_rand := fun g => {| r_nat := fun _ => g; r_idx := fun _ => [0]; r_mat := fun _ r c => repeat (repeat (dofZ 0) c) r |};
  o_net := fun _ _ _ => {| ffn_w1 := []; ffn_b := []; ffn_w2 := [] |};
  o_idx := fun _ _ _ _ => []
|}.
Definition dlib : kit spec_float :=
  library d_oracles (fun _ => Err ValueError) (fun x _ => x) (fun x _ => x) (dofZ 0) (fun l => l)
    (fun _ => str "p") (fun _ => str "c") (fun _ => str "q") (fun _ => str "x") (fun _ => str "PPV").
Definition d_end : sieveT dlib := exist (regular (fun l => l)) (SSeg (seg_new KEND [CutI (-1)] None (str "L2")) None None) (conj (fun _ => eq_refl) Logic.I).
Definition d_iss : issT dlib :=
  IPlain {| io_words := match simple_word (str "[11]") with Ok w => [simple_iword w] | Err _ => [] end; io_mode := SINGLE; io_sr := Reals; io_wt := None |} None.
Definition two600 : spec_float := S754_finite false (2 ^ 52) 548.
(** Three series: ordinary numbers, numbers whose squares overflow, a NaN. *)
Definition XD : dataset spec_float := [[[dofZ 3; dofZ 4]]; [[two600; two600]]; [[dofZ 1; S754_nan]]].
Definition dprog : list (op dlib) :=
  [ONewIss dlib d_iss; ONewSieve dlib d_end; ONewFruit dlib (str "F"); FAdd dlib 0 [ArgI dlib 0; ArgS dlib 0]; FFit dlib 0 XD None].
Definition dstate : heap dlib := run dlib (heap0 dlib 0) dprog.
(** The slice returns an infinity and a NaN, the fruit the largest number and 0. *)
Theorem C75_slices_are_not_finite_refuted :
  fst (slice_transform dlib 0 XD 0 None dstate) = Ok [[dofZ 25]; [S754_infinity false]; [S754_nan]] /\
  fst (fruit_transform dlib 0 XD 0 None dstate) = Ok [[dofZ 25]; [dmax false]; [dofZ 0]].
Proof. split; vm_compute; reflexivity. Qed.
Print Assumptions C75_slices_are_not_finite_refuted.

(** * C06 for any numbers *)
(** Reals and Bayesian semirings: no law of arithmetic is used, so that the
    rows agree bit for bit in floating point, also with NaN and infinities. *)
Theorem C06_extended_is_single_any_numbers : forall {T} (N : Num T) (c : iss_cfg T) (words : list (sword T)) X,
  is_words c = map simple_iword words -> is_mode c = EXTENDED -> (is_sr c = Reals \/ is_sr c = Bayesian) ->
  words <> [] ->
  Forall (fun w => simple_word (sw_name w) = Ok w /\ exists els, spells (sw_name w) els /\ no_zero els) words ->
  length (lookups (is_wt c) X) = length X ->
  exists rows, iss_transform c X = Ok rows /\ n_iterated_sums c = Ok (length rows) /\
    forall r, r < length rows -> exists s w,
      iss_label c r = Ok (s ++ label_tail c) /\ simple_word (T := T) s = Ok w /\
      iss_transform {| is_words := [simple_iword w]; is_mode := SINGLE; is_sr := is_sr c; is_wt := is_wt c;
                       is_wt_name := is_wt_name c |} X = Ok [nth r rows []].
Proof.
  intros T N c words X Hw Hm Hs Hne Hp Hl. apply (extended_is_single c words X Hw Hm); auto. destruct Hs as [-> | ->]; exact Logic.I.
Qed.
Print Assumptions C06_extended_is_single_any_numbers.
(** In the Arctic semiring a row is computed with all dimensions of its word
    (times exponent 0): a NaN in dimension 2 spoils the row of [1]. *)
Definition dword (s : string) : list (iword spec_float) := match simple_word (str s) with Ok w => [simple_iword w] | Err _ => [] end.
Theorem C06_arctic_nan_refuted :
  let cfg ws m := {| is_words := ws; is_mode := m; is_sr := Arctic false; is_wt := None; is_wt_name := [] |} in
  let X := [[[dofZ 1; dofZ 5]; [S754_nan; dofZ 2]]] in
  iss_label (cfg (dword "[1][2]"%string) EXTENDED) 0 = Ok (str "[1] : Arctic") /\
  (exists rows, iss_transform (cfg (dword "[1][2]"%string) EXTENDED) X = Ok rows /\ nth 0 rows [] <> [[dofZ 1; dofZ 5]]) /\
  iss_transform (cfg (dword "[1]"%string) SINGLE) X = Ok [[[dofZ 1; dofZ 5]]].
Proof.
  cbn zeta. split; [vm_compute; reflexivity|]. split; [|vm_compute; reflexivity].
  eexists. split; [vm_compute; reflexivity|]. vm_compute. discriminate.
Qed.
Print Assumptions C06_arctic_nan_refuted.
