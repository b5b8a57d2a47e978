(* P_Stale.v - property theorems about what earlier calls leave in buffers and trainers (C91) *)
From Coq Require Import String List Arith Bool ZArith QArith Lia.
From Verif Require Import Base Scalar Mat SpecMat Act Loss Optim LayMat LayImg Layer Net NetTrain NetProofs4 TrainProofs14 SpecFit FitLay1 FitLay2 FitLay3 FitNet1 FitNet2 FitNet3 SpecStale StaleLay StaleNet StaleRun StaleCase.
Import ListNotations.
Local Open Scope nat_scope.

(** C91.  [likewise t1 t2]: the same settings, data and callback, whatever else differs.  [asNew t]: a trainer just made and
    given those of t.  [trainable]/[stack]/[fits] as in C88 (SpecFit.v): sizes that chain, no recurrent layer.  F is any arithmetic. *)
@thm C91_fit = fit_same | forall (F : FOps), 
@thm C91_fit_as_new = fit_as_new | forall (F : FOps), 
@thm C91_fit_after_runs = fit_after | forall (F : FOps), 
@thm C91_predict = predict_stale | forall (F : FOps), 
@thm C91_layer_forward = fwd_same | forall (F : FOps), 
@thm C91_layer_backward = bwd_same | forall (F : FOps), 
(* recurrent layers on a single frame do not write their output *)
@thm C91_predict_refuted = predict_stale_refuted
@thm C91_fit_refuted = fit_stale_refuted
Example C91_case : let t := trOf (mkConf true 2 (-1) (-1) "SGD" (1#10)) 1 (Some data2) (Some data2) in
  trainable oneHeap reg1 t 1 1 /\ likewise t (setOnline QOps (setInOut QOps t [mlist 1 1 [9]%Q; mlist 2 2 [1; 2; 3; 4]%Q; mempty QOps]) 5%Q 3) /\ 0 < length (nlay reg1).
Proof.
  split; [|split; [unfold likewise; do 4 (split; [reflexivity|]); split; repeat constructor|cbn; lia]].
  unfold trainable. split; [constructor; [intros []|constructor]|]. split; [do 2 eexists; split; [reflexivity|]; split; [repeat split; auto|reflexivity]|]. split; [intros i a l E; destruct i; discriminate E|]. split; [discriminate|]. split; [reflexivity|]. split; [left; reflexivity|].
  split; [cbn; lia|]. split; [constructor|]. split; [constructor|]. split; [exists data2; split; [reflexivity|repeat split]|]. intros d E. injection E as <-. repeat split.
Qed.
