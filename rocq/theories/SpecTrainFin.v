(* SpecTrainFin.v - specification vocabulary: training data of ordinary size *)
From Coq Require Import List ZArith Reals.
From Flocq Require Import Core IEEE754.BinarySingleNaN.
From Verif Require Import Base Scalar Mat Act Loss LayMat LayImg Layer SpecRound SpecNaN SpecSoft SpecStay.
Import ListNotations.
Local Open Scope R_scope.

Section Spec.
Variable F : FOps.
(* a last layer whose outputs are probabilities *)
Definition outputs (kd : kind F) : Prop := kd = KSoftmax \/ kd = KAct (Some ASigmoid).
End Spec.
(* a cross-entropy and truth values it is made for: numbers in [0,1], or the class numbers that [trainable] asks for *)
Definition truths (k : lossKind) (y : mat b32) : Prop :=
  match k with
  | LCategoricalCrossEntropy | LBinaryCrossEntropy => forall x, In x (mdata y) -> prob x
  | LSparseCategoricalCrossEntropy => True
  | _ => False
  end.
(* at most 2^24 - 1 rows; inputs of magnitude at most 1024 *)
Definition smallData (k : lossKind) (d : mat b32 * mat b32) : Prop :=
  (Z.of_nat (mrows (fst d)) < 2 ^ 24)%Z /\ (forall x, In x (mdata (fst d)) -> within 10 x) /\ truths k (snd d).
(* a finite float in [0, 2^z] *)
Definition upTo (z : Z) (x : b32) : Prop := fin x /\ 0 <= val x <= p2 z.
