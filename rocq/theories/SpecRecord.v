(* SpecRecord.v - the statistics that fit records for each epoch: which layers are meant, and the setter used to evaluate a network on its training data in one batch *)
From Coq Require Import String List ZArith.
From Verif Require Import Base Scalar Mat LayMat LayImg Layer Net Loss Optim NetTrain.
Import ListNotations.
Local Open Scope nat_scope.

(* layers that compute the same in training and in inference mode and that can be trained on batches *)
Definition evenKind {F : FOps} (k : kind F) : Prop :=
  match k with
  | KDense _ _ | KDot _ _ | KBias | KGain | KAffine | KGlobalGain | KGlobalBias | KGlobalAffine | KChannelBias _ _ _
  | KAct _ | KGated _ _ | KCRelu | KPRelu | KPELU | KTERELU | KSoftmax | KSoftmin | KTDBias _ | KTDDot _ _ | KTDDense _ _
  | KAvgPool _ | KGlobalAvgPool _ _ _ | KZeroPad _ _ _ _ | KConv _ _ => True
  | _ => False
  end.
Definition allEven {F : FOps} (h : heap F) (n : net) : Prop := forall a l, In a (nlay n) -> hget F h a = Ok l -> evenKind (lk l).
(* set_validation_batchsize(b) *)
Definition withValBatch {F : FOps} (b : nat) (t : trainer F) : trainer F :=
  let c := tc F t in
  setSettings F t (mkSet F (cBatch F c) b (cKeep F c) (cEpochs F c) (cReboost F c) (cPatience F c) (cBalancing F c) (cOpt F c) (cLr F c) (cDecay F c) (cMom F c) (cLoss F c) (cReg F c)).
