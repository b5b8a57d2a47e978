(* P_Fixed.v - property theorems about training a network that already reproduces its data (C104) *)
From Coq Require Import String List Arith Bool ZArith QArith Reals.
From Verif Require Import Base Scalar Mat SpecMat Act Loss Optim LayMat Layer Net NetTrain SpecTrain SpecFit SpecResume SpecFixed Fixed3 Fixed4.
Import ListNotations.
Local Open Scope R_scope.

(** C104.  If the predictions of the network on its training inputs are the training truth, then in exact arithmetic fit changes no parameter and
    every recorded training loss is zero: for the smooth regression losses, every optimiser but Step and AdamW, no regulariser, and layers that have their parameters. *)
@thm C104_fixed_point = fixed_point | forall (jk : R), | F = (ROps jk); cabs = (absFloat (ROps jk))
Local Open Scope nat_scope.
@thm C104_case = fixed_case
@thm C104_run_case = still_case
(* none of the conditions can be dropped *)
@thm C104_adamw_refuted = adamw_refuted
@thm C104_step_refuted = step_refuted
@thm C104_absolute_loss_refuted = absolute_refuted
@thm C104_learned_activation_refuted = learned_refuted
