(* P_Opt.v - property theorems about the optimisers (C30 - C34; the optimiser part of C35) *)
From Coq Require Import List Arith Bool ZArith QArith Reals String.
From Verif Require Import Base Scalar Mat SpecMat SpecReal Loss Optim OptProofs SpecOpt OptProofs2 OptProofs3.
Import ListNotations.
Local Open Scope nat_scope.

(** C30.  Training an r x c matrix is training each of its entries on its own (as a 1 x 1 matrix), for every kind of
    arithmetic - floats included - every shape, every hyper-parameter and every sequence of gradients. *)
@thm C30_coordinatewise = coordinatewise | forall F : FOps,
@thm C30_shape_kept = shape_kept | forall F : FOps,
(* a run of Nesterov on a 1 x 2 matrix with three gradients, in rational arithmetic *)
Example C30_case : match optRun QOps (absFloat QOps) (set_params QOps (newOpt QOps ONesterov) (1#10)%Q (-1)%Q (1#2)%Q)
    (mgen 1 2 (fun _ j => if j =? 0 then 1 else 2)%Q)
    (List.map (fun t => mgen 1 2 (fun _ j => if j =? 0 then inject_Z t else 1)%Q) [1%Z; (-1)%Z; 2%Z]) with
  Ok (_, w) => Some w | Err _ => None end = Some (mgen 1 2 (fun _ j => if j =? 0 then 11 # 16 else 119 # 80)%Q).
Proof. vm_compute. reflexivity. Qed.

Local Open Scope R_scope.
(** C31 *)
@thm C31_none_never_moves = none_closed | forall jk : R,
@thm C31_step_moves_by_lr = step_closed | forall jk : R,
@thm C31_sgd_closed_form = sgd_closed | forall jk : R,
@thm C31_momentum_closed_form = momentum_closed | forall jk : R,
(* Nesterov: theta is the parameter of the published scheme, the stored weight is the look-ahead point theta + mom * v *)
@thm C31_nesterov_recursion = nesterov_closed | forall jk : R,
@thm C31_momentumNg_recursion = momentumNg_closed | forall jk : R,

(** C32.  s_v is the matrix of step sizes of the RPROP classes. *)
@thm C32_rprop_step_bounds = rprop_bounds | forall jk : R,
(* the cap is reached: 50 after 46 gradients of one sign *)
Example C32_case : match optRun QOps (absFloat QOps) (newOpt QOps ORPROPm) (mgen 1 1 (fun _ _ => 0%Q)) (repeat (mgen 1 1 (fun _ _ => 1%Q)) 46) with
  Ok (o, _) => Some (s_v QOps o) | Err _ => None end = Some (mgen 1 1 (fun _ _ => 50%Q)).
Proof. vm_compute. reflexivity. Qed.

(** C33.  s_m, s_v: first and second moment (Adagrad: s_v is the cache; Amsgrad: s_p is the running maximum). *)
@thm C33_adam_constant_gradient = adam_constant_gradient | forall jk : R,
@thm C33_second_moment_nonneg = second_moment_nonneg | forall jk : R,
@thm C33_first_step_at_most_lr = first_step | forall jk : R,
@thm C33_adagrad_steps_at_most_lr = adagrad_step | forall jk : R,
@thm C33_denominators_never_decrease = denominators_grow | forall jk : R,
(* the bound on the first step is special to Adam, Adamax and Adagrad *)
@thm C33_nadam_first_step_refuted = first_step_refuted | forall jk : R,

(** C34.  Any object (any state) except iRPROP-, every arithmetic. *)
@thm C34_clone_same = clone_same | forall F : FOps,
(* a used object: its state matrix is not empty *)
Example C34_case : match optRun QOps (absFloat QOps) (set_params QOps (newOpt QOps ORMSProp) (1#2)%Q (1#4)%Q (-1)%Q) (mgen 1 1 (fun _ _ => 0%Q))
  [mgen 1 1 (fun _ _ => 3%Q)] with Ok (o, _) => Some (okind QOps o, s_m QOps o, s_v QOps o, s_p QOps o) | Err _ => None end =
  Some (ORMSProp, mempty QOps, mgen 1 1 (fun _ _ => 27 # 4)%Q, mempty QOps).
Proof. vm_compute. reflexivity. Qed.
@thm C34_irprop_clone_refuted = irprop_clone_refuted

(** C35, optimisers *)
@thm C35_optimizers_listed = opt_registry
@thm C35_optimizers_complete = opt_registry_complete
@thm C35_optimizers_unknown = opt_registry_unknown
