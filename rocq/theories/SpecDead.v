(* SpecDead.v - a unit of the first layer that no training sample makes react *)
From Coq Require Import Reals Arith List.
From Verif Require Import Base Scalar SpecReal Act.

(* the activation is flat at the pre-activation of every sample: unit with weights w and bias b, N samples of k values *)
Definition flatUnit (jk : R) (a : actKind) (k N : nat) (X : nat -> nat -> R) (w : nat -> R) (b : R) : Prop :=
  forall s, (s < N)%nat -> act_deriv (ROps jk) a (rsum k (fun p => (X s p * w p)%R) + b)%R = 0%R.
(* for Relu: the unit is never active *)
Definition deadUnit (k N : nat) (X : nat -> nat -> R) (w : nat -> R) (b : R) : Prop := forall s, (s < N)%nat -> (rsum k (fun p => X s p * w p) + b <= 0)%R.
