(* SpecSeed.v - which layer objects draw random numbers.  A layer is [silent] when it never draws in forward, [calm] when it
   draws none outside training.  The recurrent layers draw new weights in most forward calls, RandomFlip draws only outside training, and
   LayerBias fills its biases at the first forward call with its initializer. *)
From Coq Require Import String List.
From Verif Require Import Base Scalar Mat LayMat Layer Net NetTrain.
Import ListNotations.
Local Open Scope nat_scope.

Section Spec.
Variable F : FOps.
Definition calm (l : layer F) : Prop :=
  match lk l with
  | KFlip _ _ _ | KSimpleRnn _ _ | KSimplestRnn _ => False
  | KBias => lbi l = "Zeros"%string \/ lbi l = "Ones"%string
  | _ => True
  end.
Definition silent (l : layer F) : Prop :=
  calm l /\
  match lk l with
  | KRRelu _ _ | KDropout _ | KGaussianDropout _ | KGaussianNoise _ | KUniformNoise _ => False
  | _ => True
  end.
(* every layer of the network satisfies P *)
Definition allLayers (P : layer F -> Prop) (h : heap F) (n : net) : Prop := forall a l, In a (nlay n) -> hget F h a = Ok l -> P l.
Definition sameShuffles (R1 R2 : fitRnd F) : Prop := forall e i, oShuffle F R1 e i = oShuffle F R2 e i.
Definition sameTraining (R1 R2 : fitRnd F) : Prop := forall e b i, oTrain F R1 e b i = oTrain F R2 e b i.
(* all samples in one batch: fit does not shuffle *)
Definition oneBatch (t : trainer F) : Prop := exists x y, ttrain F t = Some (x, y) /\ (cBatch F (tc F t) = 0 \/ mrows x <= cBatch F (tc F t)).
End Spec.
