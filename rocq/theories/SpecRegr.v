(* SpecRegr.v - specification vocabulary: how large the numbers met while training a regression may become *)
From Coq Require Import List Arith ZArith Reals.
From Flocq Require Import Core IEEE754.BinarySingleNaN.
From Verif Require Import Base Scalar Mat Act Loss Optim Regul LayMat LayImg Layer Net NetTrain SpecRound SpecNaN SpecStay SpecMlp.
Import ListNotations.
Local Open Scope R_scope.

(* the regression losses but LogCosh *)
Definition measured (k : lossKind) : Prop := In k [LMeanSquaredError; LL2; LMeanAbsoluteError; LL1; LMeanCubicError; LL3; LHuber; LPseudoHuber].
(* errors (prediction minus target) within 2^z: exponents of the gradient and of the loss of a batch *)
Definition gradTo (k : lossKind) (z : Z) : Z :=
  match k with LMeanSquaredError | LL2 => z | LMeanAbsoluteError | LL1 | LHuber => 0 | LPseudoHuber => 1 | _ => 2 * z + 2 end.
Definition lossTo (k : lossKind) (z : Z) : Z :=
  match k with LMeanSquaredError => 2 * z | LL2 => 2 * z + 24 | LMeanAbsoluteError | LHuber => z | LL1 => z + 24 | LMeanCubicError => 3 * z | LL3 => 3 * z + 24 | _ => z + 1 end.
(* inputs within 2^z, targets within 2^w *)
Definition pairsUpTo (z w : Z) (d : mat b32 * mat b32) : Prop :=
  (Z.of_nat (mrows (fst d)) < 2 ^ 24)%Z /\ (forall x, In x (mdata (fst d)) -> within z x) /\ (forall x, In x (mdata (snd d)) -> within w x).
Section Spec.
Variables (lm : libm -> b32 -> b32) (pw : b32 -> b32 -> b32) (jk : b32).
Notation F := (B32Ops lm pw jk).
(* all layers stay within the budget, and so do the gradient of the loss and the loss; m outputs *)
Definition affordableFit (c : settings F) (k : optKind) (r : Z) (b : budget) (h : heap F) (ls : list nat) (m : nat) : Prop :=
  (Z.of_nat m < 2 ^ 24)%Z /\ (forall i a l, nth_error ls i = Some a -> hget F h a = Ok l -> affordable lm pw jk k (cReg F c) r b i l) /\
  (0 <= eX b (length ls) <= 62)%Z /\ (gradTo (cLoss F c) (eX b (length ls) + 1) <= eG b (length ls))%Z /\ (lossTo (cLoss F c) (eX b (length ls) + 1) <= 79)%Z.
End Spec.
(* losses whose slope is bounded *)
Definition robust (k : lossKind) : Prop := In k [LMeanAbsoluteError; LL1; LHuber; LPseudoHuber].
