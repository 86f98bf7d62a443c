(** Specification vocabulary for C83 and C84: integer datasets. *)
From Coq Require Import List Arith ZArith Reals Bool.
From Verif Require Import Num Arr M_Np M_Prep M_PrepObj.
Import ListNotations.

(** Every entry of X is an integer. *)
Definition integral (X : list (list (list R))) : Prop :=
  forall x row v, In x X -> In row x -> In v row -> exists z : Z, v = IZR z.
(** What an array of dtype int64 is. *)
Definition array_of (dt : dtype) (X : list (list (list R))) : Prop := dt = TInt -> integral X.

Section S.
Context {T : Type}.
(** The preparateurs that give back an array with the dtype of their input.
    (INC with depth 0 cannot be constructed.) *)
Definition keeps_dtype (f : leaf T) : bool :=
  match f with
  | LNRM _ | LCTS _ _ | LDIL _ _ | LWIN _ _ | LPDD _ _ _ _ _ => true
  | LINC c => inc_depth c =? 0
  | _ => false
  end.
(** The dtype of the result for an input of dtype [dt]. *)
Fixpoint out_dtype (p : prep T) (dt : dtype) : dtype :=
  match p with
  | PLeaf f _ => if keeps_dtype f then dt else TFloat
  | PDim q _ _ => match dt, out_dtype q dt with TInt, TInt => TInt | _, _ => TFloat end
  | PNew0 _ | PNew _ _ => dt
  end.
(** No fractional number has to be stored in an integer array: NRM does this to
    an integer array, and NEW(q) if q makes a float array of it. *)
Fixpoint lossless (p : prep T) (dt : dtype) : bool :=
  match dt with
  | TFloat => true
  | TInt => match p with
            | PLeaf (LNRM _) _ => false
            | PLeaf _ _ | PNew0 _ => true
            | PDim q _ _ => lossless q TInt
            | PNew q _ => lossless q TInt && match out_dtype q TInt with TInt => true | TFloat => false end
            end
  end.
Fixpoint lossless_chain (ps : list (prep T)) (dt : dtype) : bool :=
  match ps with [] => true | p :: r => lossless p dt && lossless_chain r (out_dtype p dt) end.
Definition out_chain (ps : list (prep T)) (dt : dtype) : dtype := fold_left (fun d p => out_dtype p d) ps dt.
(** The preparateurs whose transform is a compiled function of X. *)
Definition compiled (f : leaf T) : bool :=
  match f with
  | LINC c => 0 <? inc_depth c
  | LMAV (WInt (-1)%Z) _ => false
  | LMAV _ (Some _) | LRIN _ _ _ _ _ (Some _) | LJLD _ _ _ (Some _) => true
  | _ => false
  end.
End S.
