(* P_Acc.v - property theorems about the accuracy in percent in single precision (C97) *)
From Coq Require Import String List Arith Bool ZArith Reals Lra Lia.
From Flocq Require Import Core IEEE754.BinarySingleNaN.
From Verif Require Import Base Scalar Mat SpecMat SpecData Loss Optim LayMat Layer Net NetTrain SpecNet SpecTrain SpecFit SpecRound LibmRound FitNet3 TrainFin4 SpecAcc AccProofs1 AccProofs2 AccProofs3.
Import ListNotations.
Local Open Scope R_scope.

(** C97.  Single precision; [percent g N] is the exact percentage, [maxExact] = 671088 samples, [correct] says whether a
    prediction is counted as right, [evaluated g N a]: compute_loss_accuracy reports a for a network of one Relu layer on
    N samples of which the first g are classified rightly and the others wrongly (see C97_case). *)
@thmr C97_accuracy = eval_exact | forall (lm : libm -> b32 -> b32) (pw : b32 -> b32 -> b32) (jk : b32), | F = (B32Ops lm pw jk)
@thmr C97_comparison = eval_order | forall (lm : libm -> b32 -> b32) (pw : b32 -> b32 -> b32) (jk : b32), | F = (B32Ops lm pw jk)
@thmr C97_history = fit_exact | forall (lm : libm -> b32 -> b32) (pw : b32 -> b32 -> b32) (jk : b32), | F = (B32Ops lm pw jk)
@thmr C97_history_large = fit_near | forall (lm : libm -> b32 -> b32) (pw : b32 -> b32 -> b32) (jk : b32), | F = (B32Ops lm pw jk)
@thmr C97_all_right_refuted = below_hundred
@thmr C97_at_most_100_refuted = above_hundred
@thmr C97_order_large_refuted = no_progress
Example C97_case : forall (lm : libm -> b32 -> b32) (pw : b32 -> b32 -> b32) (jk : b32) rr g N, (0 < N)%nat -> (g <= N)%nat -> detNet (B32Ops lm pw jk) (accHeap lm pw jk) accNet 2 2 /\
  (forall i rs out, mwf out -> exists h1 (o : nat -> B32Ops lm pw jk), predict (B32Ops lm pw jk) rs (accHeap lm pw jk) accNet (mgen 1 2 (fun _ j => bit (j =? 1)%nat)) out = Ok (h1, mgen 1 2 (fun _ => o)) /\
     correct (B32Ops lm pw jk) 2 2 o (fun j => bit (Bool.eqb (i <? g)%nat (j =? 1)%nat)) = (i <? g)%nat) /\
  exists h' l, lossAccuracy (B32Ops lm pw jk) (absFloat (B32Ops lm pw jk)) rr (accHeap lm pw jk) accNet (accTr lm pw jk) (accX lm pw jk N) (accY lm pw jk g N) = Ok (h', l, pct (B32Ops lm pw jk) g N).
Proof. exact acc_eval. Qed.
Example C97_trained : forall (lm : libm -> b32 -> b32) (pw : b32 -> b32 -> b32) (jk : b32) R, exists h' n' t' calls,
  fit (B32Ops lm pw jk) (absFloat (B32Ops lm pw jk)) R (demoHeap lm pw jk) demoNet (demoTr lm pw jk 3 true) = Ok (h', n', t', calls).
Proof. exact acc_trained. Qed.
