(* P_Watch.v - property theorems about the observers of a run: validation data and epoch callback (C101) *)
From Coq Require Import String List Arith Bool ZArith QArith Lia.
From Verif Require Import Base Scalar Mat Loss Optim Regul Act LayMat LayImg LayRnn Layer Net NetTrain SpecNet SpecTrain SpecSeed SpecWatch NetProofs4 TrainProofs14 Watch1 Watch2 Seed3 Watch3.
Import ListNotations.
Local Open Scope nat_scope.

(** C101.  All settings, failures included: without the callback everything else is the same. *)
@thm C101_callback = fit_callback_only | forall (F : FOps) (cabs : F -> res F),
@thm C101_callback_case = callback_case
(* without keep-best and patience: dropping the validation data changes neither the objects nor the training part of the results *)
@thm C101_no_validation = fit_no_validation | forall (F : FOps) (cabs : F -> res F),
@thm C101_two_validation_sets = fit_validations | forall (F : FOps) (cabs : F -> res F),
@thm C101_case = watch_case

(* with keep-best or patience the validation data choose the result *)
@thm C101_keep_best_needed = keep_matters
@thm C101_patience_needed = patience_matters
(* SimplestRNN: the weights after fit are those drawn when the validation data were evaluated *)
@thm C101_rnn_refuted = rnn_validation
