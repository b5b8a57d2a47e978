(* P_Record.v - property theorems about the statistics that fit records for each epoch (C105) *)
From Coq Require Import String List Arith Bool ZArith QArith.
From Verif Require Import Base Scalar Mat SpecMat Act Loss Optim LayMat Layer Net NetTrain SpecFit SpecResume SpecFixed SpecRecord Record3 Record4 Fixed4.
Import ListNotations.
Local Open Scope nat_scope.

(** C105.  Compare fit with e epochs and with e + 1 epochs from the same state and the same draws.  The validation entries added by the last epoch are what
    compute_loss_accuracy gives for the network after it.  The training entries added, in full batch, are those of the network before it, the loss being divided once more by the number of samples. *)
@thm C105_one_more_epoch = one_more_epoch | forall (F : FOps), | cabs = (absFloat F)
(* so for the whole curves *)
@thm C105_curves = recorded_curves | forall (F : FOps), | cabs = (absFloat F)
@thm C105_case = record_case | forall (F : FOps), | rcTr = (rcTr F)
@thm C105_runs_case = three_runs
(* the training entries are not those of the network that fit leaves *)
@thm C105_training_refuted = training_refuted
(* nor is the training loss a mean over the samples, but for batches of one *)
@thm C105_mean_refuted = mean_refuted
@thm C105_batches_of_one_case = batches_of_one
