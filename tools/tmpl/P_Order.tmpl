(* P_Order.v - property theorems about the order of the training samples (C102) *)
From Coq Require Import String List Arith Bool ZArith QArith Reals Lia.
From Verif Require Import Base Scalar Mat SpecMat Loss Optim Regul Act LayMat LayImg Layer Net NetTrain SpecNet SpecFit SpecOrder Order1 Order4 NetProofs4 TrainProofs14 Order5.
Import ListNotations.
Local Open Scope nat_scope.

(** C102.  One batch holding all samples, real arithmetic: any order of the samples gives the same objects, network, history and callbacks. *)
@thm C102_order = real_order
@thm C102_case = real_case
(* any arithmetic in which two addends of a sum may be exchanged *)
@thm C102_any_arithmetic = any_order
@thm C102_run_case = run_case_q
(* with smaller batches the order matters *)
@thm C102_one_batch_needed = batches_matter
(* single precision rounds the sums: the order matters *)
@thm C102_single_precision_refuted = single_order | forall (lm : libm -> b32 -> b32) (pw : b32 -> b32 -> b32) (jk : b32), | F = (B32Ops lm pw jk); biasZero = (biasZero lm pw jk)
