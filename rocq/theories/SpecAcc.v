(* SpecAcc.v - the accuracy in percent *)
From Coq Require Import Arith ZArith Reals.
From Verif Require Import Base Scalar.

(* g right answers among N, in percent: the exact value, and the computation of NetTrain.cpp:378 and 483 in the scalars F *)
Definition percent (g N : nat) : R := (100 * INR g / INR N)%R.
Definition pct (F : FOps) (g N : nat) : F := fdiv F (fmul F (fofN F 100) (fofN F g)) (fofN F N).
(* the largest number of samples for which 100 times any count of them is a single-precision number (2^24 / 25) *)
Definition maxExact : nat := Z.to_nat 671088.
