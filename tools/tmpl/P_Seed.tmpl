(* P_Seed.v - property theorems about the random draws of a run (C100) *)
From Coq Require Import String List Arith Bool ZArith QArith Lia.
From Verif Require Import Base Scalar Mat Loss Optim Regul Act LayMat LayImg LayRnn Layer Net NetTrain SpecNet SpecTrain SpecSeed NetProofs4 TrainProofs14 Seed2 Seed3.
Import ListNotations.
Local Open Scope nat_scope.

(** C100.  Equal results: heap, network, trainer, history, or the same error. *)
@thm C100_no_random_layer = seed_silent | forall (F : FOps) (cabs : F -> res F),
@thm C100_one_batch = seed_one_batch | forall (F : FOps) (cabs : F -> res F),
Example C100_case : allLayers QOps (silent QOps) oneHeap reg1 /\ oneBatch QOps (trOf seedConf 0 (Some data2) (Some data2)) /\
  weightsAfter (drawFR 3 0) 0 oneHeap reg1 = weightsAfter (drawFR 5 1) 0 oneHeap reg1 /\ weightsAfter (drawFR 3 0) 0 oneHeap reg1 <> None.
Proof. exact case_silent. Qed.
(* dropouts, noises, RRelu: the draws of evaluations and copies do not matter *)
@thm C100_random_layers = seed_calm | forall (F : FOps) (cabs : F -> res F),
@thm C100_predict = seed_predict | forall F : FOps,
Example C100_dropout_case : sameTraining QOps (evalFR 0) (evalFR 40000) /\ weightsAfter (evalFR 0) 0 dropHeap drop2 = weightsAfter (evalFR 40000) 0 dropHeap drop2 /\ weightsAfter (evalFR 0) 0 dropHeap drop2 <> None.
Proof. exact case_calm. Qed.

(* each hypothesis is needed *)
@thm C100_shuffle_needed = shuffle_matters
@thm C100_training_needed = dropout_matters
(* RandomFlip flips at random in prediction *)
@thm C100_predict_flip_refuted = predict_matters
(* SimplestRNN draws new weights when predicting two samples *)
@thm C100_predict_rnn_refuted = predict_rnn_matters
