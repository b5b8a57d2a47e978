(* P_Rate.v - property theorems about the learning rate and patience (C24) *)
From Coq Require Import String List Arith Bool ZArith QArith Reals Lia.
From Flocq Require Import Core IEEE754.BinarySingleNaN.
From Verif Require Import Base Scalar Mat Loss Optim Regul Act LayMat LayImg LayRnn Layer Net NetTrain SpecNet SpecTrain SpecRound SpecNaN TrainProofs14 LrRule2.
Import ListNotations.
Local Open Scope R_scope.

(** C24.  imp i: epoch i improved on all scores before it; stagnation counts the roll-backs. *)
@thm C24_halving = lr_real | forall (jk : R) (cabs : ROps jk -> res (ROps jk)),
(* in single precision: exact down to 2^-126, never increasing, 0 at the end; a score that is not a number never improves *)
@thm C24_halving_float = lr_float | forall (lm : libm -> b32 -> b32) (pw : b32 -> b32 -> b32) (jk : b32) (cabs : B32Ops lm pw jk -> res (B32Ops lm pw jk)), | F = (B32Ops lm pw jk)
Example C24_case : match runFit (mkConf true 3 (-1) 0 "SGD"%string (1#10)) 1%nat reluHeap reg1 data2 (Some data2) with
  | Ok (h, n, t, c) => Qred (trGetLr QOps t) = (1#80)%Q /\ List.length (nlay n) = 1%nat /\ List.length c = 3%nat
  | Err _ => False end.
Proof. exact patience_case. Qed.
(* a regression, without keep-best *)
Example C24_plain_case : match runFit (mkConf false 4 (-1) 0 "SGD"%string (1#10)) 1%nat reluHeap reg1 data2 (Some data2) with
  | Ok (h, n, t, c) => Qred (trGetLr QOps t) = (1#80)%Q /\ List.length (nlay n) = 1%nat /\ List.length c = 4%nat
  | Err _ => False end.
Proof. vm_compute. auto. Qed.
Example C24_stagnation : map (fun i => snd (stagnation 1 (fun k => k =? 2)%nat i)) [0; 1; 2; 3; 4; 5; 6]%nat = [0; 0; 1; 1; 1; 2; 2]%nat.
Proof. reflexivity. Qed.
