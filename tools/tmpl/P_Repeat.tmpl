(* P_Repeat.v - property theorems about samples presented several times (C106) *)
From Coq Require Import String List Arith Bool ZArith QArith Reals Lia.
From Verif Require Import Base Scalar Mat SpecMat Loss Optim Regul Act LayMat LayImg Layer Net NetTrain SpecNet SpecFit SpecRepeat Order1 Rep1 Rep2 Rep4 NetProofs4 TrainProofs14 Rep5.
Import ListNotations.
Local Open Scope nat_scope.

(** C106.  One batch holding all samples, real arithmetic: presenting every sample r times trains the same network; only the recorded training loss may differ. *)
@thm C106_repeated = real_repeat | forall (jk : R), | F = (ROps jk)
(* any number of copies of the data one after the other is such a presentation *)
@thm C106_copies = times_copies
@thm C106_case = rep_case
@thm C106_runs_case = rep_run_case
(* smaller batches: more steps are made *)
@thm C106_one_batch_needed = rep_batches
(* the gradient of a Gain layer is not a mean over the samples *)
@thm C106_gain_case = rep_gain
(* single precision: presenting the samples twice may overflow the sum of their gradients *)
@thm C106_single_precision_refuted = single_repeat | forall (lm : libm -> b32 -> b32) (pw : b32 -> b32 -> b32) (jk : b32), | F = (B32Ops lm pw jk); biasFin = (biasFin lm pw jk)
