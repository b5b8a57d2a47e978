(* SpecRegul.v - specification vocabulary for the regularisers *)
From Coq Require Import Reals.
From Verif Require Import Base Scalar SpecReal Regul.
Local Open Scope R_scope.

(* the object as the trainer uses it: created, then set_parameter *)
Definition regulariser (jk : R) (k : regKind) (p : R) : regul (ROps jk) := set_parameter (ROps jk) (newReg (ROps jk) k) p.

(* Euclidean norm of a matrix *)
Definition norm2 (r c : nat) (f : nat -> nat -> R) : R := sqrt (rsum r (fun i => rsum c (fun j => f i j * f i j))).
(* the parameter used when the caller passes the default value -1 *)
Definition regDefault (k : regKind) : R := match k with RNone => -1 | RL1 | RL2 | RL1L2 | RNormClip => 1 / 100 | RClip | RClipTanh => 1 / 1000 end.
