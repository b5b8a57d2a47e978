(* P_Restart.v - property theorems about configuring an optimiser (C87) *)
From Coq Require Import List Arith Bool ZArith QArith Reals.
From Verif Require Import Base Scalar SpecReal Mat SpecMat Loss Optim SpecOpt SpecRestart OptProofs4.
Import ListNotations.

(** C87.  The clause "a created optimiser can be used at once" is false: it keeps the learning rate -1 and climbs the gradient. *)
@thmr C87_unset_refuted = unset_refuted | forall jk : R, | F = (ROps jk)
@thmr C87_unset_actual = unset_ascends | forall jk : R, | F = (ROps jk)
@thmr C87_unset_parameters = unset_rate | forall jk : R, | F = (ROps jk)
(* set_params drops the history of the object, in every arithmetic *)
@thm C87_restart = restart_same | forall F : FOps,
@thm C87_learning_rate_restart = rate_restart | forall F : FOps,
(* -1 stands for the default; other values are kept *)
@thmr C87_defaults = default_params | forall jk : R, | F = (ROps jk)
@thmr C87_given = given_params | forall jk : R, | F = (ROps jk)

Example C87_case : (* an object that has already moved, configured again, and a new one *)
  match optRun QOps (absFloat QOps) (set_params QOps (newOpt QOps OMomentum) (1#2) (-1) (1#4))%Q (mkMat 1 1 [0%Q]) [mkMat 1 1 [8%Q]] with
  | Ok (o, w) => match optRun QOps (absFloat QOps) (set_params QOps o (1#2) (-1) (1#4))%Q w [mkMat 1 1 [8%Q]], optRun QOps (absFloat QOps) o w [mkMat 1 1 [8%Q]] with
     | Ok (_, w1), Ok (_, w2) => Some (map Qred (mdata w), map Qred (mdata w1), map Qred (mdata w2)) | _, _ => None end
  | Err _ => None end = Some ([-4], [-8], [-9])%Q.
Proof. vm_compute. reflexivity. Qed.
