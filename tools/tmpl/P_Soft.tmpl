(* P_Soft.v - property theorems about Softmax and the cross-entropies in single precision (C93) *)
From Coq Require Import List Arith ZArith Reals Lra Lia Bool.
From Flocq Require Import Core IEEE754.BinarySingleNaN.
From Verif Require Import Base Scalar Mat SpecMat B32Int Act Loss LayMat Layer SpecRound SpecNaN B32Kit NaNAct SpecSoft SoftProofs1 SoftProofs2 SoftProofs3 B32OfR.
Import ListNotations.
Local Open Scope R_scope.

(** C93.  [prob y]: a finite float in [0,1]; [softmaxR]: the exact softmax; u32 = 2^-24, eta32 = 2^-150; [expUnit], [expClose eps], [logUnit]:
    what is asked of expf (range, accuracy) and logf; [truthFor k n c T]: T is a truth matrix for the cross-entropy k. *)
@thm C93_softmax = softmax_forward | forall (lm : libm -> b32 -> b32) (pw : b32 -> b32 -> b32) (jk : b32), | F = (B32Ops lm pw jk)
@thm C93_softmin = softmin_forward | forall (lm : libm -> b32 -> b32) (pw : b32 -> b32 -> b32) (jk : b32), | F = (B32Ops lm pw jk)
@thm C93_loss = ce_finite | forall (lm : libm -> b32 -> b32) (pw : b32 -> b32 -> b32) (jk : b32), | F = (B32Ops lm pw jk)
@thm C93_head = head_finite | forall (lm : libm -> b32 -> b32) (pw : b32 -> b32 -> b32) (jk : b32), | F = (B32Ops lm pw jk)
(* correctly rounded expf and logf meet the hypotheses *)
Example C93_case : expUnit roundLm /\ expClose roundLm (u32 + eta32) /\ logUnit roundLm /\ 2 * INR 10 * u32 <= 1 /\ fin (b32_of_Z (-200)) /\
  truthFor LCategoricalCrossEntropy 1 2 (fun _ j => b32_of_Z (if (j =? 0)%nat then 1 else 0)) /\
  truthFor LSparseCategoricalCrossEntropy 1 3 (fun _ _ => b32_of_Z 2).
Proof.
  split; [exact round_unit|]. split; [exact round_close|]. split; [exact round_log|]. split; [unfold u32; simpl; lra|]. split; [reflexivity|]. split.
  - intros i j Hi Hj. destruct j as [|[|j]]; [| |lia]; cbn [Nat.eqb]; split; try reflexivity; [rewrite (proj2 (ofZ_val 1 ltac:(lia))) | rewrite (proj2 (ofZ_val 0 ltac:(lia)))]; lra.
  - intros i Hi. exists 2%nat. split; [lia|]. reflexivity.
Qed.
