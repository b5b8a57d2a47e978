(* P_Act.v - property theorems about the activations (C58, C59; activation and loss parts of C35) *)
From Coq Require Import List Arith Bool ZArith QArith Reals String Lra.
From Coquelicot Require Import Coquelicot.
From Verif Require Import Base Scalar Loss Act SpecAct ActDeriv ActDeriv4 ActProofs ActMono.
Import ListNotations.
Local Open Scope R_scope.

(** C58.  For 58 of the 64 activations: derivation is the derivative wherever there is one. *)
@thm C58_derivation_is_derivative = act_derivation_right
(* and there is one everywhere but at the listed corners *)
@thm C58_differentiable_off_corners = act_derivative
@thm C58_corners_not_differentiable = act_corners
(* GELU and SoftSteps use decimal approximations of pi: right up to 2e-11 and 1e-8 *)
@thm C58_gelu_softsteps_close = act_derivation_close
(* four activations have a wrong derivative *)
@thm C58_derivation_refuted = act_derivation_wrong
(* where two of these four are right nevertheless *)
@thm C58_sqrbf_sinerelu_partial = act_derivation_odd_right
@thm C58_sqrbf_actual = SQRBF_actual
@thm C58_logit_actual = Logit_actual
@thm C58_sinerelu_actual = SineReLU_actual
@thm C58_tanhexp_actual = TanhExp_actual
Example C58_case : ~ odd_derivative AHardSwish /\ ~ In 1 (corners AHardSwish) /\ act_deriv (ROps 0) AHardSwish 1 = 5 / 6.
Proof.
  split; [unfold odd_derivative; cbn [In]; intros H; repeat (destruct H as [H|H]; [discriminate H|]); exact H|].
  split; [cbn [corners In]; intros [H|[H|[]]]; lra|]. act; br; lra.
Qed.

(** C59 *)
@thm C59_ranges = act_ranges
@thm C59_monotone = act_monotone
Example C59_case : In ASelu monotone_kinds /\ act_apply QOps AHardSigmoid (1#2)%Q == (6#10)%Q.
Proof. split; [cbn; tauto | vm_compute; reflexivity]. Qed.

(** C35, activations and losses *)
@thm C35_activations_listed = activations_listed
@thm C35_activations_complete = activations_complete
@thm C35_activations_unknown = activations_unknown
@thm C35_activations_no_duplicates = activations_nodup
@thm C35_losses_listed = losses_listed
@thm C35_losses_complete = losses_complete
@thm C35_losses_unknown = losses_unknown
