(* P_Seed.v - property theorems about the random draws of a run (C100) *)
From Coq Require Import String List Arith Bool ZArith QArith Lia.
From Verif Require Import Base Scalar Mat Loss Optim Regul Act LayMat LayImg LayRnn Layer Net NetTrain SpecNet SpecTrain SpecSeed NetProofs4 TrainProofs14 Seed2 Seed3.
Import ListNotations.
Local Open Scope nat_scope.

(** C100.  Equal results: heap, network, trainer, history, or the same error. *)
Theorem C100_no_random_layer : forall (F : FOps) (cabs : F -> res F), forall R1 R2 h n t, allLayers F (silent F) h n -> sameShuffles F R1 R2 -> fit F cabs R1 h n t = fit F cabs R2 h n t.
Proof. exact seed_silent. Qed.
Print Assumptions C100_no_random_layer.

Theorem C100_one_batch : forall (F : FOps) (cabs : F -> res F), forall R1 R2 h n t, allLayers F (silent F) h n -> oneBatch F t -> fit F cabs R1 h n t = fit F cabs R2 h n t.
Proof. exact seed_one_batch. Qed.
Print Assumptions C100_one_batch.

Example C100_case : allLayers QOps (silent QOps) oneHeap reg1 /\ oneBatch QOps (trOf seedConf 0 (Some data2) (Some data2)) /\
  weightsAfter (drawFR 3 0) 0 oneHeap reg1 = weightsAfter (drawFR 5 1) 0 oneHeap reg1 /\ weightsAfter (drawFR 3 0) 0 oneHeap reg1 <> None.
Proof. exact case_silent. Qed.
(* dropouts, noises, RRelu: the draws of evaluations and copies do not matter *)
Theorem C100_random_layers : forall (F : FOps) (cabs : F -> res F), forall R1 R2 h n t, allLayers F (fun l => calm F l /\ (silent F l \/ ltrain l = false)) h n -> sameTraining F R1 R2 -> sameShuffles F R1 R2 \/ oneBatch F t ->
  fit F cabs R1 h n t = fit F cabs R2 h n t.
Proof. exact seed_calm. Qed.
Print Assumptions C100_random_layers.

Theorem C100_predict : forall F : FOps, forall rs1 rs2 h n x o, allLayers F (fun l => calm F l /\ (silent F l \/ ltrain l = false)) h n -> predict F rs1 h n x o = predict F rs2 h n x o.
Proof. exact seed_predict. Qed.
Print Assumptions C100_predict.

Example C100_dropout_case : sameTraining QOps (evalFR 0) (evalFR 40000) /\ weightsAfter (evalFR 0) 0 dropHeap drop2 = weightsAfter (evalFR 40000) 0 dropHeap drop2 /\ weightsAfter (evalFR 0) 0 dropHeap drop2 <> None.
Proof. exact case_calm. Qed.

(* each hypothesis is needed *)
Theorem C100_shuffle_needed : exists R1 R2, allLayers QOps (silent QOps) oneHeap reg1 /\ sameTraining QOps R1 R2 /\ weightsAfter R1 1 oneHeap reg1 <> weightsAfter R2 1 oneHeap reg1 /\
  weightsAfter R1 1 oneHeap reg1 <> None /\ weightsAfter R2 1 oneHeap reg1 <> None.
Proof. exact shuffle_matters. Qed.
Print Assumptions C100_shuffle_needed.

Theorem C100_training_needed : exists R1 R2, allLayers QOps (fun l => calm QOps l /\ ltrain l = false) dropHeap drop2 /\ sameShuffles QOps R1 R2 /\
  weightsAfter R1 0 dropHeap drop2 <> weightsAfter R2 0 dropHeap drop2 /\ weightsAfter R1 0 dropHeap drop2 <> None /\ weightsAfter R2 0 dropHeap drop2 <> None.
Proof. exact dropout_matters. Qed.
Print Assumptions C100_training_needed.

(* RandomFlip flips at random in prediction *)
Theorem C100_predict_flip_refuted : exists h x, allLayers QOps (fun l => ltrain l = false) h reg1 /\ outOf h reg1 0 x <> outOf h reg1 40000 x /\ outOf h reg1 0 x <> None /\ outOf h reg1 40000 x <> None.
Proof. exact predict_matters. Qed.
Print Assumptions C100_predict_flip_refuted.

(* SimplestRNN draws new weights when predicting two samples *)
Theorem C100_predict_rnn_refuted : allLayers QOps (fun l => ltrain l = false) rnnHeap reg1 /\
  outOf rnnHeap reg1 0 (mlist 2 3 [1; 2; 1; 1; 1; 1]%Q) = Some [2; 1]%Q /\ outOf rnnHeap reg1 5 (mlist 2 3 [1; 2; 1; 1; 1; 1]%Q) = Some [7; 6]%Q.
Proof. exact predict_rnn_matters. Qed.
Print Assumptions C100_predict_rnn_refuted.

