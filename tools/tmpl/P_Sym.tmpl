(* P_Sym.v - property theorems about the order and the scale of hidden units (C111) *)
From Coq Require Import String List Arith Bool ZArith Reals.
From Flocq Require Import Core IEEE754.BinarySingleNaN.
From Verif Require Import Base Scalar Mat SpecMat Act LayMat Layer Net SpecNet SpecOrder SpecSym Sym1 Sym2.
Import ListNotations.
Local Open Scope nat_scope.

(** C111.  Listing the units of a hidden Dense layer in another order, and multiplying a unit by a factor that its activation lets through on the way in
    while dividing by it on the way out, does not change a single prediction, in exact arithmetic. *)
@thm C111_same_predictions = same_predictions | forall (jk : R), | F = (ROps jk)
(* the factor 1, so a mere reordering, works for every activation; positive factors work for the rectifiers, a change of sign for the odd functions *)
@thm C111_any_activation = passes_one | forall (jk : R), | F = (ROps jk)
@thm C111_positive_factor = passes_pos | forall (jk : R), | F = (ROps jk)
@thm C111_sign = passes_odd | forall (jk : R), | F = (ROps jk)
@thm C111_case = sym_case | forall (jk : R), | F = (ROps jk); syHeap = (syHeap jk)
(* the limits: a negative factor does not go through Relu, and in single precision the order of the units shows *)
@thm C111_negative_refuted = negative_refuted
@thm C111_order_float_refuted = order_float_refuted | forall (lm : libm -> b32 -> b32) (pw : b32 -> b32 -> b32) (jk : b32), | onOne = (onOne lm pw jk); sumHeap = (sumHeap lm pw jk)
