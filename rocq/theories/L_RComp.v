(** Computing the model on real literals (for witnesses and examples). *)
From Coq Require Import List Arith ZArith Bool Lia Reals Lra.
From Verif Require Import Num.
Import ListNotations.
Open Scope R_scope.

Ltac rexp := repeat match goal with
  | |- context[exp ?x] => replace (exp x) with 1 by (symmetry; rewrite <- exp_0; f_equal; ring)
  end.
Ltac rdec := repeat match goal with
  | |- context[Rle_dec ?a ?b] =>
      lazymatch constr:((a, b)) with
      | context[Rle_dec _ _] => fail
      | context[Req_EM_T _ _] => fail
      | _ => destruct (Rle_dec a b); [try (exfalso; lra)|try (exfalso; lra)]
      end
  | |- context[Req_EM_T ?a ?b] =>
      lazymatch constr:((a, b)) with
      | context[Rle_dec _ _] => fail
      | context[Req_EM_T _ _] => fail
      | _ => destruct (Req_EM_T a b); [try (exfalso; lra)|try (exfalso; lra)]
      end
  end; cbv iota beta.
Ltac rlist := repeat match goal with
  | |- (_ :: _) = (_ :: _) => f_equal
  | |- [] = [] => reflexivity
  end.

(** Unfold the model completely, keeping the operations on real numbers. *)
Ltac rcbv := cbv -[Rle_dec Req_EM_T Rplus Rmult Ropp Rinv exp IZR Rminus Rdiv sqrt sin cos PI].
Ltac hd_of t := lazymatch t with ?f _ => hd_of f | _ => t end.
Ltac rcompute := rcbv; rexp; rdec;
  repeat match goal with
  | |- (_ :: _) = (_ :: _) => apply f_equal2
  | |- (_, _) = (_, _) => apply f_equal2
  | |- ?f _ = ?f _ => let h := hd_of f in is_constructor h; apply f_equal
  end; try reflexivity; try lra.
