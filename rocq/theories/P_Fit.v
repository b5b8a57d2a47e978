(* P_Fit.v - property theorems about training a network whose sizes chain (C88) *)
From Coq Require Import String List Arith Bool ZArith QArith Lia.
From Verif Require Import Base Scalar Mat SpecMat Act Loss Optim LayMat LayImg Layer Net NetTrain NetProofs4 TrainProofs14 SpecFit FitLay1 FitLay2 FitLay3 FitNet1 FitNet2 FitNet3.
Import ListNotations.
Local Open Scope nat_scope.

(** C88.  [plan]/[plans]: constructor arguments whose sizes chain; [fits]/[stack]: layer objects whose sizes chain;
    [trainable]: such a network with a trainer and data.  F is any arithmetic, so the results hold for binary32 too,
    whatever values (infinities, NaN) appear. *)
Theorem C88_constructors : forall (F : FOps), forall r kd wi bi k m, plan kd wi bi k m -> exists l : layer F, layNew F r kd wi bi = Ok l /\ fits l k m /\ lk l = kd /\ ltrain l = false /\ lfirst l = false.
Proof. exact new_fits. Qed.
Print Assumptions C88_constructors.

Theorem C88_build : forall (F : FOps), forall rs ps k m h, plans ps k m ->
  exists h' n, build rs ps h netNew = Ok (h', n) /\ NoDup (nlay n) /\ length (nlay n) = length ps /\ stack h' (nlay n) k m /\
    forall a l, In a (nlay n) -> hget F h' a = Ok l -> lfirst l = false /\ ltrain l = false.
Proof. exact build_completes. Qed.
Print Assumptions C88_build.

Theorem C88_predict : forall (F : FOps), forall rs h n k m nb x out, NoDup (nlay n) -> 0 < length (nlay n) -> stack h (nlay n) k m -> shp nb k x -> mwf out ->
  exists h' o, predict F rs h n x out = Ok (h', o) /\ shp nb m o /\ stack h' (nlay n) k m.
Proof. exact predict_completes. Qed.
Print Assumptions C88_predict.

Theorem C88_fit : forall (F : FOps), forall (R : fitRnd F) h n (t : trainer F) k m, trainable h n t k m ->
  exists h' n' t' calls, fit F (absFloat F) R h n t = Ok (h', n', t', calls) /\ trainable h' n' t' k m /\
    length (nlay n') = length (nlay n) /\ nclass n' = nclass n /\ tc F t' = tc F t /\
    (cKeep F (tc F t) = true \/ (0 < cEpochs F (tc F t))%Z -> forall a l, In a (nlay n') -> hget F h' a = Ok l -> ltrain l = false).
Proof. exact fit_completes. Qed.
Print Assumptions C88_fit.

Theorem C88_fit_again : forall (F : FOps), forall (Rs : list (fitRnd F)) h n t k m, trainable h n t k m -> exists h' n' t', fitRuns Rs h n t = Ok (h', n', t') /\ trainable h' n' t' k m.
Proof. exact fit_repeats. Qed.
Print Assumptions C88_fit_again.

Theorem C88_default_trainer : forall (F : FOps), forall rs ps k m h0 x y, plans ps k m -> mwf x -> mwf y -> mcols x = k -> mcols y = m -> mrows y = mrows x ->
  exists h1 n1, build rs ps h0 netNew = Ok (h1, n1) /\ forall (R : fitRnd F), exists h2 n2 t2 calls, fit F (absFloat F) R h1 n1 (withData (trNew F) (x, y)) = Ok (h2, n2, t2, calls) /\ trainable h2 n2 t2 k m /\
    forall a l, In a (nlay n2) -> hget F h2 a = Ok l -> ltrain l = false.
Proof. exact default_completes. Qed.
Print Assumptions C88_default_trainer.

Theorem C88_end_to_end : forall (F : FOps), forall rs ps k m h0 (t : trainer F) d, plans ps k m -> 0 < length ps ->
  create_optimizer (cOpt F (tc F t)) <> None -> cPatience F (tc F t) = (-1)%Z -> cBalancing F (tc F t) = false -> 0 < cValBatch F (tc F t) -> tinOut F t = [] -> tgrad F t = [] ->
  ttrain F t = Some d -> dataOk k m (cLoss F (tc F t)) d -> (forall d, tval F t = Some d -> dataOk k m (cLoss F (tc F t)) d) ->
  exists h1 n1, build rs ps h0 netNew = Ok (h1, n1) /\ forall (R : fitRnd F), exists h2 n2 t2 calls, fit F (absFloat F) R h1 n1 t = Ok (h2, n2, t2, calls) /\
    forall rs2 nb x, shp nb k x -> exists h3 o, predict F rs2 h2 n2 x (mempty F) = Ok (h3, o) /\ shp nb m o.
Proof. exact end_to_end. Qed.
Print Assumptions C88_end_to_end.

Example C88_case : forall F : FOps, @plans F [(KConv (mkConv 4 4 1 3 3 2 1 1) true, "HeUniform"%string, "Zeros"%string); (KAct (Some ARelu), ""%string, ""%string); (KDense 8 2, "GlorotUniform"%string, "Zeros"%string); (KSoftmax, ""%string, ""%string)] 16 2.
Proof. intro F. exists 8. split; [repeat split; try lia|]. exists 8. split; [repeat split; try lia; discriminate|]. exists 2. split; [repeat split; try lia; unfold knownInit; simpl; tauto|]. exists 2. repeat split; lia. Qed.
Example C88_trainable : trainable oneHeap reg1 (trOf (mkConf true 2 (-1) (-1) "SGD" (1#10)) 1 (Some data2) (Some data2)) 1 1.
Proof.
  unfold trainable. split; [constructor; [intros []|constructor]|]. split; [do 2 eexists; split; [reflexivity|]; split; [repeat split; auto|reflexivity]|]. split; [intros i a l E; destruct i; discriminate E|]. split; [discriminate|]. split; [reflexivity|]. split; [left; reflexivity|].
  split; [cbn; lia|]. split; [constructor|]. split; [constructor|]. split; [exists data2; split; [reflexivity|repeat split]|]. intros d E. injection E as <-. repeat split.
Qed.
Example C88_default : forall F : FOps, dataOk 1 1 LMeanSquaredError (@mkMat F 0 1 [], @mkMat F 0 1 []) /\ create_optimizer "Adam" <> None /\ create_optimizer "adam" = None.
Proof. intro F. repeat split. discriminate. Qed.
