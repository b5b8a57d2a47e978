(* P_Class.v - property theorems about last layers that do not change the predicted classes (C113) *)
From Coq Require Import String List Arith Bool ZArith QArith Reals.
From Flocq Require Import Core IEEE754.BinarySingleNaN.
From Verif Require Import Base Scalar Mat SpecMat Act LayMat LayImg Layer Net SpecNet SpecAct SpecClass ActStrict Class1.
Import ListNotations.
Local Open Scope nat_scope.

(** C113.  With two outputs or more, leaving out a last layer that keeps the order of the outputs (Softmax, a strictly increasing activation, one positive gain, one bias) does not change a single predicted class. *)
Theorem C113_same_classes : forall (jk : R), forall (h : heap (ROps jk)) n n' pre a l k m, detNet (ROps jk) h n k m -> 2 <= m -> nlay n = pre ++ [a] -> nlay n' = pre -> pre <> [] -> hget (ROps jk) h a = Ok l -> ordered l -> detNet (ROps jk) h n' k m /\ sameClasses h n n' k.
Proof. exact same_classes. Qed.
Print Assumptions C113_same_classes.

Theorem C113_case : forall (jk : R), forall W B, detNet (ROps jk) ((clHeap jk) W B) (mkNet [0] true false) 2 3 /\ sameClasses ((clHeap jk) W B) (mkNet [0; 1] true false) (mkNet [0] true false) 2 /\ sameClasses ((clHeap jk) W B) (mkNet [0; 2] true false) (mkNet [0] true false) 2.
Proof. exact classes_case. Qed.
Print Assumptions C113_case.

(* among the monotone activations, exactly these are strictly increasing; any other as the last layer changes a class of some network *)
Theorem C113_strict_iff : forall jk k, In k monotone_kinds -> (In k strict_kinds <-> forall x y : R, (x < y)%R -> (act_apply (ROps jk) k x < act_apply (ROps jk) k y)%R).
Proof. exact strict_iff. Qed.
Print Assumptions C113_strict_iff.

Theorem C113_flat_changes : forall (jk : R), forall a, In a monotone_kinds -> ~ In a strict_kinds -> detNet (ROps jk) ((flHeap jk) a) (mkNet [0; 1] true false) 2 2 /\ ~ sameClasses ((flHeap jk) a) (mkNet [0; 1] true false) (mkNet [0] true false) 2.
Proof. exact flat_changes. Qed.
Print Assumptions C113_flat_changes.

Example C113_flat_case : In ARelu monotone_kinds /\ ~ In ARelu strict_kinds /\ In ASigmoid monotone_kinds /\ In ASigmoid strict_kinds.
Proof. cbn [In monotone_kinds strict_kinds]. repeat split; try tauto. intro H. repeat (destruct H as [H|H]; [discriminate H|]). exact H. Qed.
(* not with a last layer that may make outputs equal, and not with a single output, which is rounded *)
Theorem C113_relu_refuted : exists x, loClass [0] x = Some [1%Q] /\ loClass [0; 1] x = Some [0%Q].
Proof. exact relu_refuted. Qed.
Print Assumptions C113_relu_refuted.

Theorem C113_single_refuted : exists x, loClass [0] x = Some [2%Q] /\ loClass [0; 2] x <> loClass [0] x.
Proof. exact single_refuted. Qed.
Print Assumptions C113_single_refuted.

(* nor in single precision, where Softmax may make outputs equal *)
Theorem C113_softmax_float_refuted : forall (lm : libm -> b32 -> b32) (pw : b32 -> b32 -> b32) (jk : b32), lm Lexp (fsub (B32Ops lm pw jk) (b32_of_Z 0) (small lm pw jk)) = b32_of_Z 1 -> lm Lexp (fsub (B32Ops lm pw jk) (small lm pw jk) (small lm pw jk)) = b32_of_Z 1 ->
  forall rs, exists h1 h2, predictClasses (B32Ops lm pw jk) rs (smHeap lm pw jk) (mkNet [0] true false) (mgen 1 2 (smIn lm pw jk)) (mempty (B32Ops lm pw jk)) = Ok (h1, mgen 1 1 (fun _ _ => fofN (B32Ops lm pw jk) 1)) /\
  predictClasses (B32Ops lm pw jk) rs (smHeap lm pw jk) (mkNet [0; 1] true false) (mgen 1 2 (smIn lm pw jk)) (mempty (B32Ops lm pw jk)) = Ok (h2, mgen 1 1 (fun _ _ => fofN (B32Ops lm pw jk) 0)).
Proof. exact softmax_float_refuted. Qed.
Print Assumptions C113_softmax_float_refuted.

Example C113_softmax_float_case : let lm := (fun _ _ => b32_of_Z 1) : libm -> b32 -> b32 in forall pw jk,
  lm Lexp (fsub (B32Ops lm pw jk) (b32_of_Z 0) (small lm pw jk)) = b32_of_Z 1 /\ lm Lexp (fsub (B32Ops lm pw jk) (small lm pw jk) (small lm pw jk)) = b32_of_Z 1.
Proof. split; reflexivity. Qed.
