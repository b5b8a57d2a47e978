(* P_Zero.v - property theorems about training with a learning rate of zero (C108) *)
From Coq Require Import String List Arith Bool ZArith QArith Reals.
From Flocq Require Import IEEE754.BinarySingleNaN.
From Verif Require Import Base Scalar Mat SpecMat Act Loss Optim LayMat Layer Net NetTrain SpecTrain SpecFit SpecResume SpecFixed SpecZero Fixed4 Zero2 Zero3.
Import ListNotations.
Local Open Scope R_scope.

(** C108.  With the learning rate 0, fit ends and leaves every weight and bias of the network as they were, in exact arithmetic: for every loss, regulariser,
    shuffling, batch size, number of epochs and data, and every optimiser but RPROP-, iRPROP- and AdamW. *)
@thm C108_zero_rate = zero_rate | forall (jk : R), | F = (ROps jk)
Local Open Scope nat_scope.
@thm C108_case = zero_case
(* with the optimiser "None" the same holds in any arithmetic, whatever the learning rate *)
@thm C108_none = none_opt
@thm C108_none_case = none_case
(* computed runs: at rate 0 nothing moves, at rate 0.1 the same call does move the weights, and -1 stands for the default rate *)
@thm C108_run_case = run_case
@thm C108_moves_case = moves_case
@thm C108_minus_one_case = minus_one
(* the exceptions are real *)
@thm C108_others_refuted = others_refuted
@thm C108_pelu_refuted = pelu_refuted
(* in single precision a gradient that overflows makes the weight NaN even with learning rate 0 *)
@thm C108_float_refuted = float_refuted | forall (lm : libm -> b32 -> b32) (pw : b32 -> b32 -> b32) (jk : b32), | F = (B32Ops lm pw jk)
