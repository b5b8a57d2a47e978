(* SpecDescent.v - vocabulary of the descent statement *)
From Coq Require Import List Arith Bool Reals.
From Verif Require Import Base Scalar Mat SpecMat Loss SpecLoss Optim LayMat Layer Net NetTrain SpecGrad.
Import ListNotations.
Local Open Scope R_scope.

(* optimisers whose first step goes against the gradient and is proportional to the learning rate, with sane decay and momentum (-1: default).
   Left out: None (no step), AdamW (also shrinks the weights), RPROP-, iRPROP- (no learning rate). *)
Definition descends (k : optKind) (dec mom : R) : Prop :=
  match k with
  | ONone | OAdamW | ORPROPm | OiRPROPm => False
  | ONesterov => -1 <= mom
  | ORMSProp => dec = -1 \/ 0 <= dec <= 1
  | _ => True
  end.

(* some partial derivative of the batch loss with respect to a weight (bias) of a layer of pw (pb) is not zero *)
Definition sloped (jk : R) (rs : nat -> rnd (ROps jk)) (kind : lossKind) (h : heap (ROps jk)) (nt : net) (x y : mat R) (pw pb : list nat) : Prop :=
  exists a l r c P i j d, hget (ROps jk) h a = Ok l /\ (i < r)%nat /\ (j < c)%nat /\ d <> 0 /\
    (In a pw /\ lw l = mgen r c P /\ isPartial (fun W' => batchLoss jk rs kind (withW jk h a (mgen r c W')) nt x y) P i j d \/
     In a pb /\ lb l = mgen r c P /\ isPartial (fun b' => batchLoss jk rs kind (withB jk h a (mgen r c b')) nt x y) P i j d).
