(* SpecZero.v - training that cannot move: which layers and optimisers are meant *)
From Coq Require Import String List ZArith.
From Verif Require Import Base Scalar Mat LayMat LayImg Layer Net Loss Optim NetTrain SpecFixed.
Import ListNotations.
Local Open Scope nat_scope.

(* the layers whose passes are not meant to write their own parameters, once these exist *)
Definition passive {F : FOps} (k : kind F) : Prop := match k with KGaussianNoise _ | KUniformNoise _ | KTERELU => True | _ => plainKind k end.
Definition allPassive {F : FOps} (h : heap F) (n : net) : Prop := forall a l, In a (nlay n) -> hget F h a = Ok l -> passive (lk l).
(* optimisers whose step is meant to be proportional to the learning rate: not the resilient ones, which have step sizes of their own, nor AdamW, which also decays the weights *)
Definition scaled (k : optKind) : Prop := k <> ORPROPm /\ k <> OiRPROPm /\ k <> OAdamW.
