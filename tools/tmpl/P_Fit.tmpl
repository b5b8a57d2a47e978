(* P_Fit.v - property theorems about training a network whose sizes chain (C88) *)
From Coq Require Import String List Arith Bool ZArith QArith Lia.
From Verif Require Import Base Scalar Mat SpecMat Act Loss Optim LayMat LayImg Layer Net NetTrain NetProofs4 TrainProofs14 SpecFit FitLay1 FitLay2 FitLay3 FitNet1 FitNet2 FitNet3.
Import ListNotations.
Local Open Scope nat_scope.

(** C88.  [plan]/[plans]: constructor arguments whose sizes chain; [fits]/[stack]: layer objects whose sizes chain;
    [trainable]: such a network with a trainer and data.  F is any arithmetic, so the results hold for binary32 too,
    whatever values (infinities, NaN) appear. *)
@thm C88_constructors = new_fits | forall (F : FOps), 
@thm C88_build = build_completes | forall (F : FOps), 
@thm C88_predict = predict_completes | forall (F : FOps), 
@thm C88_fit = fit_completes | forall (F : FOps), 
@thm C88_fit_again = fit_repeats | forall (F : FOps), 
@thm C88_default_trainer = default_completes | forall (F : FOps), 
@thm C88_end_to_end = end_to_end | forall (F : FOps), 
Example C88_case : forall F : FOps, @plans F [(KConv (mkConv 4 4 1 3 3 2 1 1) true, "HeUniform"%string, "Zeros"%string); (KAct (Some ARelu), ""%string, ""%string); (KDense 8 2, "GlorotUniform"%string, "Zeros"%string); (KSoftmax, ""%string, ""%string)] 16 2.
Proof. intro F. exists 8. split; [repeat split; try lia|]. exists 8. split; [repeat split; try lia; discriminate|]. exists 2. split; [repeat split; try lia; unfold knownInit; simpl; tauto|]. exists 2. repeat split; lia. Qed.
Example C88_trainable : trainable oneHeap reg1 (trOf (mkConf true 2 (-1) (-1) "SGD" (1#10)) 1 (Some data2) (Some data2)) 1 1.
Proof.
  unfold trainable. split; [constructor; [intros []|constructor]|]. split; [do 2 eexists; split; [reflexivity|]; split; [repeat split; auto|reflexivity]|]. split; [intros i a l E; destruct i; discriminate E|]. split; [discriminate|]. split; [reflexivity|]. split; [left; reflexivity|].
  split; [cbn; lia|]. split; [constructor|]. split; [constructor|]. split; [exists data2; split; [reflexivity|repeat split]|]. intros d E. injection E as <-. repeat split.
Qed.
Example C88_default : forall F : FOps, dataOk 1 1 LMeanSquaredError (@mkMat F 0 1 [], @mkMat F 0 1 []) /\ create_optimizer "Adam" <> None /\ create_optimizer "adam" = None.
Proof. intro F. repeat split. discriminate. Qed.
