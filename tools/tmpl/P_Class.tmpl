(* P_Class.v - property theorems about last layers that do not change the predicted classes (C113) *)
From Coq Require Import String List Arith Bool ZArith QArith Reals.
From Flocq Require Import Core IEEE754.BinarySingleNaN.
From Verif Require Import Base Scalar Mat SpecMat Act LayMat LayImg Layer Net SpecNet SpecAct SpecClass ActStrict Class1.
Import ListNotations.
Local Open Scope nat_scope.

(** C113.  With two outputs or more, leaving out a last layer that keeps the order of the outputs (Softmax, a strictly increasing activation, one positive gain, one bias) does not change a single predicted class. *)
@thm C113_same_classes = same_classes | forall (jk : R), | F = (ROps jk)
@thm C113_case = classes_case | forall (jk : R), | F = (ROps jk); clHeap = (clHeap jk)
(* among the monotone activations, exactly these are strictly increasing; any other as the last layer changes a class of some network *)
@thm C113_strict_iff = strict_iff
@thm C113_flat_changes = flat_changes | forall (jk : R), | F = (ROps jk); flHeap = (flHeap jk)
Example C113_flat_case : In ARelu monotone_kinds /\ ~ In ARelu strict_kinds /\ In ASigmoid monotone_kinds /\ In ASigmoid strict_kinds.
Proof. cbn [In monotone_kinds strict_kinds]. repeat split; try tauto. intro H. repeat (destruct H as [H|H]; [discriminate H|]). exact H. Qed.
(* not with a last layer that may make outputs equal, and not with a single output, which is rounded *)
@thm C113_relu_refuted = relu_refuted
@thm C113_single_refuted = single_refuted
(* nor in single precision, where Softmax may make outputs equal *)
@thm C113_softmax_float_refuted = softmax_float_refuted | forall (lm : libm -> b32 -> b32) (pw : b32 -> b32 -> b32) (jk : b32), | F = (B32Ops lm pw jk); small = (small lm pw jk); smHeap = (smHeap lm pw jk); smIn = (smIn lm pw jk)
Example C113_softmax_float_case : let lm := (fun _ _ => b32_of_Z 1) : libm -> b32 -> b32 in forall pw jk,
  lm Lexp (fsub (B32Ops lm pw jk) (b32_of_Z 0) (small lm pw jk)) = b32_of_Z 1 /\ lm Lexp (fsub (B32Ops lm pw jk) (small lm pw jk) (small lm pw jk)) = b32_of_Z 1.
Proof. split; reflexivity. Qed.
