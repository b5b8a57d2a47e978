(* P_Dead.v - property theorems about units that no training sample makes react (C109) *)
From Coq Require Import String List Arith Bool ZArith QArith Reals.
From Verif Require Import Base Scalar Mat SpecMat Act Loss Optim Regul LayMat Layer Net NetTrain SpecTrain SpecFit SpecResume SpecFixed SpecZero SpecDead NetProofs4 Fixed4 Dead1 Dead2.
Import ListNotations.
Local Open Scope nat_scope.

(** C109.  A unit of a first Dense layer whose activation is flat at its value on every training sample keeps its weights and its bias through fit,
    in exact arithmetic, whatever the rest of the network learns. *)
@thm C109_unit_kept = unit_kept | forall (jk : R) (u : nat), | F = (ROps jk); cabs = (absFloat (ROps jk))
(* for Relu: a unit that is inactive on all the training data stays inactive on them *)
@thm C109_relu_stays_dead = dead_stays
@thm C109_case = dead_case
@thm C109_run_case = dead_run
(* penalties, AdamW, Step and leaky activations do move it *)
@thm C109_moved_refuted = moved_refuted
(* the first layer matters: a unit of a deeper layer may come back *)
@thm C109_deeper_refuted = deeper_refuted
