(** C79: a run that meets the hypotheses, and a witness. *)
From Coq Require Import Ascii String List Arith ZArith QArith Bool Lia.
From Verif Require Import Num Arr M_Str M_Semiring M_Words M_ISS M_Np M_Prep M_Cache M_Sieve M_PrepObj M_Cos M_Fruit M_Seeds
  S_Fruit S_Train L_Fruit10 L_Seeds2 L_Seeds3 P_Seeds P_Train T_Run.
Import ListNotations.
Open Scope nat_scope.

(** INC, then QTC with its threshold taken from the training data. *)
Definition program79 (ids : list nat) : list (op qlib) :=
  [ONewPrep qlib p_qtc; ONewPrep qlib p_inc; ONewPrep qlib p_qtc; ONewIss qlib i_two; ONewSieve qlib s_npi; ONewSieve qlib s_end; ONewSlice qlib;
   OAdd qlib 0 (map (ArgP qlib) ids ++ [ArgI qlib 0; ArgS qlib 0; ArgS qlib 1]); OSampleSize qlib 0 (SFrac (fun n => n))].
Definition state79 (ids : list nat) : heap qlib := run qlib (heap0 qlib 0) (program79 ids).
Definition X79 : dataset Q := [[[1; 2; 4]; [0; 1; 1]]; [[2; 2; 5]; [1; 0; 3]]]%Q.
Definition learned (h : heap qlib) : list (option Q) := map (fun p : prep Q => match p with PLeaf (LQTC _ _ _ _ v) _ => v | _ => None end) (h_p qlib h).

Example C79_hypotheses :
  Forall (brings qlib (local_prep : prepT qlib -> Prop) (covers_rows : issT qlib -> Prop) (fun _ => True)) (program79 [1; 2]) /\
  (forall g n k, k <= n -> length (o_choice q_oracles g n k) = k) /\ full X79 /\
  option_map sl_p (nth_error (h_sl qlib (state79 [1; 2])) 0) = Some [1; 2] /\ NoDup [1; 2] /\ NoDup [0] /\
  fst (slice_fit qlib 0 X79 None (state79 [1; 2])) = Ok tt /\
  (exists A, fst (slice_transform qlib 0 X2 0 None (snd (slice_fit qlib 0 X79 None (state79 [1; 2])))) = Ok A).
Proof.
  split; [|split; [|split; [|split; [|split; [|split; [|split]]]]]].
  - repeat constructor; cbn [brings keeps_rows covers_rows p_win i_one io_wt]; intros a Ha;
      repeat (destruct Ha as [<-|Ha]; [exact Logic.I|]); destruct Ha.
  - intros g n k Hk. cbn. rewrite rev_length, skipn_length, seq_length. lia.
  - intros x Hx. repeat (destruct Hx as [<-|Hx]; [discriminate|]). destruct Hx.
  - reflexivity.
  - repeat constructor; cbn; intuition discriminate.
  - repeat constructor; cbn; intuition discriminate.
  - vm_compute. reflexivity.
  - eexists. vm_compute. reflexivity.
Qed.
(** QTC alone learns the median of the sample; after INC, the median of the
    increments of the sample. *)
Example C79_learned : learned (snd (slice_fit qlib 0 X79 None (state79 [2]))) = [None; None; Some (3 # 2)%Q] /\
  learned (snd (slice_fit qlib 0 X79 None (state79 [1; 2]))) = [None; None; Some 0%Q].
Proof. split; vm_compute; reflexivity. Qed.
(** One preparateur object added twice is not like two equal preparateurs: it
    is fitted twice, and [transform] uses what it learned last at both places
    (hence [NoDup] above). *)
Definition X80 : dataset Q := [[[4; 2; 1]; [1; 1; 0]]]%Q.
Theorem C79_one_object_twice_refuted :
  learned (snd (slice_fit qlib 0 X79 None (state79 [0; 1; 2]))) = [Some (3 # 2); None; Some 0]%Q /\
  learned (snd (slice_fit qlib 0 X79 None (state79 [0; 1; 0]))) = [Some 0; None; None]%Q /\
  (let t ids := fst (slice_transform qlib 0 X80 0 None (snd (slice_fit qlib 0 X79 None (state79 ids)))) in
   nth_error (h_p qlib (state79 [0; 1; 2])) 0 = nth_error (h_p qlib (state79 [0; 1; 2])) 2 /\
   (exists A, t [0; 1; 2] = Ok A) /\ (exists A, t [0; 1; 0] = Ok A) /\ t [0; 1; 2] <> t [0; 1; 0]).
Proof.
  split; [vm_compute; reflexivity|]. split; [vm_compute; reflexivity|]. cbv zeta. split; [reflexivity|].
  split; [eexists; vm_compute; reflexivity|]. split; [eexists; vm_compute; reflexivity|]. vm_compute. discriminate.
Qed.
Print Assumptions C79_one_object_twice_refuted.
