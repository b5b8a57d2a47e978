(* SpecOrder.v - the same samples in another order *)
From Coq Require Import String List Arith Bool ZArith.
From Verif Require Import Base Scalar Mat SpecMat Loss Optim LayMat LayImg Layer Net NetTrain SpecFit.
Import ListNotations.
Local Open Scope nat_scope.

(* a reordering of the numbers below n *)
Definition reorder (n : nat) (s : nat -> nat) : Prop :=
  (forall i, i < n -> s i < n) /\ (forall i j, i < n -> j < n -> s i = s j -> i = j).

Section Spec.
Variable F : FOps.
Notation M := (mat F).

(* row i of x' is row s(i) of x *)
Definition reordered (s : nat -> nat) (x x' : M) : Prop :=
  mwf x /\ mwf x' /\ mrows x' = mrows x /\ mcols x' = mcols x /\
  forall i j, i < mrows x -> j < mcols x -> mget2 x' i j = mget2 x (s i) j.

(* classes whose output row depends on one input row only, and on no random draw *)
Definition rowKind (k : kind F) : Prop :=
  match k with
  | KDense _ _ | KDot _ _ | KBias | KGain | KAffine | KGlobalGain | KGlobalBias | KGlobalAffine
  | KAct _ | KGated _ _ | KCRelu | KPRelu | KSoftmax | KSoftmin => True
  | _ => False
  end.
Definition rowWise (h : heap F) (ls : list nat) : Prop := forall a l, In a ls -> hget F h a = Ok l -> rowKind (lk l).

(* the samples of a data set fit in one batch; so do those used to judge the network before training, when they are the training samples *)
Definition oneBatch (t : trainer F) (n : nat) : Prop :=
  (cBatch F (tc F t) = 0 \/ n <= cBatch F (tc F t)) /\
  (cKeep F (tc F t) = false \/ tval F t <> None \/ n <= cValBatch F (tc F t)).

(* two trainers equal except for their data and their work matrices *)
Definition sameTrainer (t t' : trainer F) : Prop :=
  tc F t' = tc F t /\ tbal F t' = tbal F t /\ tadj F t' = tadj F t /\ tcur F t' = tcur F t /\ topts F t' = topts F t /\ tnl F t' = tnl F t /\
  tpw F t' = tpw F t /\ tpb F t' = tpb F t /\ th F t' = th F t /\ tonl F t' = tonl F t /\ tgood F t' = tgood F t /\ tval F t' = tval F t /\ tcallback F t' = tcallback F t.
End Spec.
