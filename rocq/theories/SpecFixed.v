(* SpecFixed.v - networks that already reproduce their training data: which layers, losses and optimisers are meant *)
From Coq Require Import String List ZArith.
From Verif Require Import Base Scalar Mat LayMat LayImg Layer Net Loss Optim NetTrain.
Import ListNotations.
Local Open Scope nat_scope.

(* layers that compute the same in training and in inference and whose backward pass is meant to be linear in the gradient it gets *)
Definition plainKind {F : FOps} (k : kind F) : Prop :=
  match k with
  | KDense _ _ | KDot _ _ | KBias | KGain | KAffine | KGlobalGain | KGlobalBias | KGlobalAffine | KChannelBias _ _ _
  | KAct _ | KGated _ _ | KCRelu | KPRelu | KSoftmax | KSoftmin | KTDBias _ | KTDDot _ _ | KTDDense _ _
  | KAvgPool _ | KGlobalAvgPool _ _ _ | KZeroPad _ _ _ _ => True
  | _ => False
  end.
Definition allPlain {F : FOps} (h : heap F) (n : net) : Prop := forall a l, In a (nlay n) -> hget F h a = Ok l -> plainKind (lk l).
(* losses that are differentiable at a prediction equal to the truth: all the regression losses but MeanAbsoluteError and L1 *)
Definition smoothLoss (k : lossKind) : Prop :=
  match k with LMeanSquaredError | LL2 | LMeanCubicError | LL3 | LHuber | LPseudoHuber | LLogCosh => True | _ => False end.
(* optimisers meant to leave a weight alone when its gradient is zero from the start: neither a fixed step on the sign of the gradient nor weight decay *)
Definition rests (k : optKind) : Prop := k <> OStep /\ k <> OAdamW.
(* in the arithmetic F the network reproduces its training data, has no regulariser and its layers have their parameters *)
Definition reproduces {F : FOps} (h : heap F) (n : net) (t : trainer F) : Prop :=
  exists x y rs h1, ttrain F t = Some (x, y) /\ 0 < mrows x /\ predict F rs h n x (mempty F) = Ok (h1, y).
