(* P_Regul.v - property theorems about the regularisers (C36, C37; the regulariser part of C35) *)
From Coq Require Import List Arith Bool ZArith QArith Reals String.
From Coquelicot Require Import Coquelicot.
From Verif Require Import Base Scalar Mat SpecMat SpecReal Loss Optim SpecOpt Regul SpecRegul RegulProofs.
Import ListNotations.
Local Open Scope R_scope.

(** C36 *)
@thm C36_gradient_clip = clip_bounds | forall jk : R,
(* norm clipping multiplies every entry by one factor s in (0,1], so the direction is kept *)
@thm C36_gradient_norm_clip = normclip_bounds | forall jk : R,
@thm C36_gradient_clip_tanh = cliptanh_bounds | forall jk : R,
Example C36_case : reg_apply QOps (set_parameter QOps (newReg QOps RClip) 2%Q) (mgen 1 3 (fun _ _ => 0%Q))
  (mgen 1 3 (fun _ j => inject_Z (Z.of_nat j * 3 - 3))) = Ok (mgen 1 3 (fun _ j => inject_Z (Z.of_nat j * 2 - 2))).
Proof. vm_compute. reflexivity. Qed.

(** C37.  The penalties are p|w|, p w^2/2 and their sum; apply takes the weights and returns the gradient only. *)
@thm C37_penalty_gradients = reg_penalty | forall jk : R,
@thm C37_penalty_values = reg_penalty_zero | forall jk : R,
@thm C37_default_parameter = reg_default | forall jk : R,
@thm C37_none_does_nothing = reg_none | forall jk : R,
Example C37_case : reg_apply QOps (set_parameter QOps (newReg QOps RL1L2) (1#2)%Q) (mgen 1 2 (fun _ j => if Nat.eqb j 0 then -4 else 6)%Q)
  (mgen 1 2 (fun _ _ => 1%Q)) = Ok (mgen 1 2 (fun _ j => if Nat.eqb j 0 then -(3#2) else 9#2)%Q).
Proof. vm_compute. reflexivity. Qed.

(** C35, regularisers *)
@thm C35_regularizers_listed = reg_registry
@thm C35_regularizers_complete = reg_registry_complete
@thm C35_regularizers_unknown = reg_registry_unknown
