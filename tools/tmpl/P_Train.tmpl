(* P_Train.v - property theorems about training: batches, histories, keep-best, patience, reboost, accuracy, class weights (C18 - C29) *)
From Coq Require Import String List Arith Bool ZArith QArith Reals Permutation Lia.
From Flocq Require Import Core IEEE754.BinarySingleNaN.
From Verif Require Import Base Scalar B32Facts SpecReal Mat SpecMat SpecLayer SpecData MatFacts RSum Loss Optim Regul Act LayMat LayImg LayRnn Layer Net NetTrain SpecNet SpecTrain
  NetProofs4 TrainProofs4 TrainProofs5 TrainProofs6 TrainProofs7 TrainProofs8 TrainProofs9 TrainProofs10 TrainProofs11 TrainProofs12 TrainProofs13 TrainProofs14.
Import ListNotations.
Local Open Scope nat_scope.

(** The models of fit, epoch, epochTrain, lossAccuracy ... are in NetTrain.v; SpecTrain.v has the vocabulary.  A run is the sequence of states
    ss 0, ss 1 ... ss e: ss 0 after the initialisation (fitStart), ss (i+1) after epoch i. *)

(** C18.  One epoch: the shuffled sample numbers v are cut into batches, and each batch is trained with its own truths.
    The second theorem: the batch size of a run is the configured one, or the whole set when that is 0 or larger than it. *)
@thm C18_batches = epoch_batches | forall (F : FOps) (cabs : F -> res F), | rowsAt = rowsAt F
@thm C18_batch_size = run_batch_size | forall (F : FOps) (cabs : F -> res F),
Example C18_cut : cutInto 2 [4; 0; 3; 1; 2] [[4; 0]; [3; 1]; [2]].
Proof. split; [reflexivity|]. split; [intros x [<-|[<-|[<-|[]]]]; split; try discriminate; cbn; lia|]. intros [|[|i]] H; cbn in H |- *; lia. Qed.
Example C18_sizes : runBatch 2 5 = 2 /\ runBatch 0 5 = 5 /\ runBatch 9 5 = 5. Proof. auto. Qed.

(** C19 *)
@thm C19_histories_partial = fit_history | forall (F : FOps) (cabs : F -> res F),
@thm C19_validation_accuracy_refuted = history_refuted
Example C19_case : match runFit (mkConf true 2 (-1) (-1) "SGD" (1#10)) 1 oneHeap reg1 data2 (Some data2) with
  | Ok (h, n, t, c) => map (wbAt h) (nlay n) = [Some ([2027 # 1250], [417 # 1250])%Q] /\
      map Qred (hTL QOps (th QOps t)) = [52 # 25; 12149 # 31250]%Q /\ map Qred (hVL QOps (th QOps t)) = [274 # 625; 282977 # 3125000]%Q /\ List.length c = 2
  | Err _ => False end.
Proof. exact run_case. Qed.

(** C20.  Scores are those the trainer measures.  Without validation data the measured training loss is not that of the network kept. *)
@thm C20_best_measured_partial = keep_best | forall (jk : R) (cabs : ROps jk -> res (ROps jk)),
@thm C20_regression_refuted = keep_best_refuted

(** C21.  sized: a forward pass neither creates nor redraws the parameters of the layer. *)
@thm C21_unchanged_partial = zero_epochs | forall (F : FOps) (cabs : F -> res F), | sized = sized F; copyOf = copyOf F
@thm C21_lazy_refuted = zero_epochs_lazy_refuted
@thm C21_recurrent_refuted = zero_epochs_rnn_refuted
Example C21_case : match runFit (mkConf true 0 (-1) (-1) "SGD" (1#10)) 1 oneHeap reg1 data2 (Some data2) with
  | Ok (h, n, t, c) => map (wbAt h) (nlay n) = [Some ([1], [0])%Q] /\ c = []
  | Err _ => False end.
Proof. exact zero_case. Qed.

(** C22.  Without patience everything the optimisers touch is live.  A roll-back frees all of it, and the next epoch does not end well. *)
@thm C22_live_partial = registered_live | forall (F : FOps) (cabs : F -> res F),
@thm C22_rollback_frees = rollback_dangles | forall (F : FOps) (cabs : F -> res F),
@thm C22_freed_is_used = dangling_used | forall (F : FOps) (cabs : F -> res F),
@thm C22_patience_refuted = patience_refuted

(** C23 *)
@thm C23_layers_partial = fit_keeps_layers | forall (F : FOps) (cabs : F -> res F), | sameKindsAt = sameKindsAt F
@thm C23_no_layers_left_refuted = layers_lost_refuted

(** C25.  tpw, tpb: the layers whose weight, bias is registered. *)
@thm C25_registered_partial = registered | forall (F : FOps),
@thm C25_paired = optimizers_paired | forall (F : FOps) (cabs : F -> res F), | stepOf = stepOf F cabs
@thm C25_lazy_refuted = lazy_untrained_refuted
@thm C25_rnn_refuted = rnn_untrained_refuted
Example C25_case : match setNet QOps exHeap exNet (trNew QOps) with Ok (_, t) => tpw QOps t = [0; 3] /\ tpb QOps t = [0; 3] /\ List.length (topts QOps t) = 4 | Err _ => False end.
Proof. vm_compute. auto. Qed.

(** C26.  The period is N + 1. *)
@thm C26_period_partial = reboost_period | forall (F : FOps) (cabs : F -> res F),
@thm C26_period_refuted = reboost_refuted

(** C27 *)
@thm C27_accuracy = accuracy_counts | forall (F : FOps) (cabs : F -> res F),
@thm C27_any_batch_size = accuracy_batch_free | forall (F : FOps) (cabs : F -> res F),
@thm C27_range = accuracy_range
@thm C27_loss_refuted = loss_batch_refuted

(** C28 *)
@thmr C28_labels_partial = class_weights_labels
@thmr C28_categories_partial = class_weights_categories
@thm C28_absent_class_refuted = absent_class_refuted

(** C29 *)
@thm C29_assign_partial = trainer_assign | forall F : FOps,
@thm C29_validation_batch_refuted = assign_valbatch_refuted
@thm C29_rate_refuted = assign_rate_refuted
