(* P_Fold.v - property theorems about rewriting a network for inference (C112) *)
From Coq Require Import String List Arith Bool ZArith Reals.
From Flocq Require Import Core IEEE754.BinarySingleNaN.
From Verif Require Import Base Scalar Mat SpecMat SpecReal Act LayMat LayImg Layer Net SpecNet SpecFold Fold1 Fold2.
Import ListNotations.
Local Open Scope nat_scope.

(** C112.  Rewriting a network for inference does not change a single prediction.
    In every arithmetic, bit for bit: leaving out a layer that is idle at inference; a Dense layer as Dot then Bias; an Affine layer as Gain then Bias. *)
@thm C112_drop_idle = drop_idle | forall (F : FOps),
@thm C112_dense_split = dense_split | forall (F : FOps),
@thm C112_affine_split = affine_split | forall (F : FOps),
(* in exact arithmetic: two Dense layers merge into one, and a Dense layer absorbs the Affine layer after it *)
@thm C112_dense_merge = dense_merge | forall (jk : R), | F = (ROps jk)
@thm C112_affine_merge = affine_merge | forall (jk : R), | F = (ROps jk)
@thm C112_drop_case = drop_case | forall (jk : R) (W B V C G D : nat -> nat -> R), | F = (ROps jk); foHeap = (foHeap jk W B V C G D)
@thm C112_split_case = split_case | forall (jk : R) (W B V C G D : nat -> nat -> R), | F = (ROps jk); foHeap = (foHeap jk W B V C G D)
@thm C112_merge_case = merge_case | forall (jk : R) (W B V C G D : nat -> nat -> R), | F = (ROps jk); foHeap = (foHeap jk W B V C G D)
@thm C112_affine_case = affine_case | forall (jk : R) (W B V C G D : nat -> nat -> R), | F = (ROps jk); foHeap = (foHeap jk W B V C G D)
(* merging is not exact in single precision: two weights of 2^-80 have the product 0 *)
@thm C112_merge_float_refuted = merge_float_refuted | forall (lm : libm -> b32 -> b32) (pw : b32 -> b32 -> b32) (jk : b32), | onBig = (onBig lm pw jk)
