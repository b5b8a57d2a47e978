(* SpecSym.v - the same network with its hidden units in another order and rescaled *)
From Coq Require Import Arith Reals.
From Verif Require Import Base Scalar Mat SpecMat Act LayMat Layer.

(* unit u of the second pair of layers is unit s u of the first one, multiplied by c u on its way in and divided by it on its way out *)
Definition rewired {jk : R} (s : nat -> nat) (c : nat -> R) (k q p : nat) (l0 l2 l0' l2' : layer (ROps jk)) : Prop :=
  lk l0' = lk l0 /\ lk l2' = lk l2 /\ lb l2' = lb l2 /\
  exists W B V : nat -> nat -> R, lw l0 = @mgen R k q W /\ lb l0 = @mgen R 1 q B /\ lw l2 = @mgen R q p V /\
  lw l0' = @mgen R k q (fun i u => (c u * W i (s u))%R) /\ lb l0' = @mgen R 1 q (fun i u => (c u * B i (s u))%R) /\ lw l2' = @mgen R q p (fun u j => (V (s u) j / c u)%R).
(* the activation lets the factor through *)
Definition passes (jk : R) (a : actKind) (c : R) : Prop := c <> 0%R /\ forall z, act_apply (ROps jk) a (c * z)%R = (c * act_apply (ROps jk) a z)%R.
