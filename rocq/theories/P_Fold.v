(* P_Fold.v - property theorems about rewriting a network for inference (C112) *)
From Coq Require Import String List Arith Bool ZArith Reals.
From Flocq Require Import Core IEEE754.BinarySingleNaN.
From Verif Require Import Base Scalar Mat SpecMat SpecReal Act LayMat LayImg Layer Net SpecNet SpecFold Fold1 Fold2.
Import ListNotations.
Local Open Scope nat_scope.

(** C112.  Rewriting a network for inference does not change a single prediction.
    In every arithmetic, bit for bit: leaving out a layer that is idle at inference; a Dense layer as Dot then Bias; an Affine layer as Gain then Bias. *)
Theorem C112_drop_idle : forall (F : FOps), forall (h : heap F) n n' pre a post l k m, detNet F h n k m -> swapped n n' pre [a] [] post -> hget F h a = Ok l -> idle (lk l) -> detNet F h n' k m /\ samePredict h n n' k.
Proof. exact drop_idle. Qed.
Print Assumptions C112_drop_idle.

Theorem C112_dense_split : forall (F : FOps), forall (h : heap F) n n' pre a b c post l l1 l2 i o i' o' k m, detNet F h n k m -> swapped n n' pre [a] [b; c] post -> hget F h a = Ok l -> hget F h b = Ok l1 -> hget F h c = Ok l2 ->
  lk l = KDense i o -> lk l1 = KDot i' o' -> lk l2 = KBias -> lw l1 = lw l -> lb l2 = lb l -> 0 < msize (lb l) -> detNet F h n' k m /\ samePredict h n n' k.
Proof. exact dense_split. Qed.
Print Assumptions C112_dense_split.

Theorem C112_affine_split : forall (F : FOps), forall (h : heap F) n n' pre a b c post l l1 l2 k m, detNet F h n k m -> swapped n n' pre [a] [b; c] post -> hget F h a = Ok l -> hget F h b = Ok l1 -> hget F h c = Ok l2 ->
  lk l = KAffine -> lk l1 = KGain -> lk l2 = KBias -> lw l1 = lw l -> lb l2 = lb l -> 0 < msize (lb l) -> detNet F h n' k m /\ samePredict h n n' k.
Proof. exact affine_split. Qed.
Print Assumptions C112_affine_split.

(* in exact arithmetic: two Dense layers merge into one, and a Dense layer absorbs the Affine layer after it *)
Theorem C112_dense_merge : forall (jk : R), forall (h : heap (ROps jk)) n n' pre a b c post l1 l2 l i1 o1 i2 o2 i o k m r q s (W B V C : nat -> nat -> R), detNet (ROps jk) h n k m -> swapped n n' pre [a; b] [c] post -> hget (ROps jk) h a = Ok l1 -> hget (ROps jk) h b = Ok l2 -> hget (ROps jk) h c = Ok l ->
  lk l1 = KDense i1 o1 -> lk l2 = KDense i2 o2 -> lk l = KDense i o -> lw l1 = @mgen R r q W -> lb l1 = @mgen R 1 q B -> lw l2 = @mgen R q s V -> lb l2 = @mgen R 1 s C ->
  lw l = @mgen R r s (fun p j => rsum q (fun u => W p u * V u j)%R) -> lb l = @mgen R 1 s (fun _ j => rsum q (fun u => B 0%nat u * V u j) + C 0%nat j)%R -> detNet (ROps jk) h n' k m /\ samePredict h n n' k.
Proof. exact dense_merge. Qed.
Print Assumptions C112_dense_merge.

Theorem C112_affine_merge : forall (jk : R), forall (h : heap (ROps jk)) n n' pre a b c post l1 l2 l i1 o1 i o k m r q (W B G C : nat -> nat -> R), detNet (ROps jk) h n k m -> swapped n n' pre [a; b] [c] post -> hget (ROps jk) h a = Ok l1 -> hget (ROps jk) h b = Ok l2 -> hget (ROps jk) h c = Ok l ->
  lk l1 = KDense i1 o1 -> lk l2 = KAffine -> lk l = KDense i o -> lw l1 = @mgen R r q W -> lb l1 = @mgen R 1 q B -> lw l2 = @mgen R 1 q G -> lb l2 = @mgen R 1 q C ->
  lw l = @mgen R r q (fun p j => W p j * G 0%nat j)%R -> lb l = @mgen R 1 q (fun _ j => B 0%nat j * G 0%nat j + C 0%nat j)%R -> detNet (ROps jk) h n' k m /\ samePredict h n n' k.
Proof. exact affine_merge. Qed.
Print Assumptions C112_affine_merge.

Theorem C112_drop_case : forall (jk : R) (W B V C G D : nat -> nat -> R), detNet (ROps jk) (foHeap jk W B V C G D) (foNet [0; 2]) 2 1 /\ samePredict (foHeap jk W B V C G D) (foNet [0; 1; 2]) (foNet [0; 2]) 2.
Proof. exact drop_case. Qed.
Print Assumptions C112_drop_case.

Theorem C112_split_case : forall (jk : R) (W B V C G D : nat -> nat -> R), detNet (ROps jk) (foHeap jk W B V C G D) (foNet [4; 5; 2]) 2 1 /\ samePredict (foHeap jk W B V C G D) (foNet [0; 2]) (foNet [4; 5; 2]) 2.
Proof. exact split_case. Qed.
Print Assumptions C112_split_case.

Theorem C112_merge_case : forall (jk : R) (W B V C G D : nat -> nat -> R), detNet (ROps jk) (foHeap jk W B V C G D) (foNet [3]) 2 1 /\ samePredict (foHeap jk W B V C G D) (foNet [0; 2]) (foNet [3]) 2.
Proof. exact merge_case. Qed.
Print Assumptions C112_merge_case.

Theorem C112_affine_case : forall (jk : R) (W B V C G D : nat -> nat -> R), detNet (ROps jk) (foHeap jk W B V C G D) (foNet [7]) 2 2 /\ samePredict (foHeap jk W B V C G D) (foNet [0; 6]) (foNet [7]) 2 /\ detNet (ROps jk) (foHeap jk W B V C G D) (foNet [0; 8; 9]) 2 2 /\ samePredict (foHeap jk W B V C G D) (foNet [0; 6]) (foNet [0; 8; 9]) 2.
Proof. exact affine_case. Qed.
Print Assumptions C112_affine_case.

(* merging is not exact in single precision: two weights of 2^-80 have the product 0 *)
Theorem C112_merge_float_refuted : forall (lm : libm -> b32 -> b32) (pw : b32 -> b32 -> b32) (jk : b32), exists v, (onBig lm pw jk) [0; 1] = Some [v] /\ v <> SpecFloat.S754_zero false /\ (onBig lm pw jk) [2] = Some [SpecFloat.S754_zero false].
Proof. exact merge_float_refuted. Qed.
Print Assumptions C112_merge_float_refuted.

