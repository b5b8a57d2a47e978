(* P_Act.v - property theorems about the activations (C58, C59; activation and loss parts of C35) *)
From Coq Require Import List Arith Bool ZArith QArith Reals String Lra.
From Coquelicot Require Import Coquelicot.
From Verif Require Import Base Scalar Loss Act SpecAct ActDeriv ActDeriv4 ActProofs ActMono.
Import ListNotations.
Local Open Scope R_scope.

(** C58.  For 58 of the 64 activations: derivation is the derivative wherever there is one. *)
Theorem C58_derivation_is_derivative : forall jk k x, ~ odd_derivative k -> ex_derive (act_apply (ROps jk) k) x ->
  act_deriv (ROps jk) k x = Derive (act_apply (ROps jk) k) x.
Proof. exact act_derivation_right. Qed.
Print Assumptions C58_derivation_is_derivative.

(* and there is one everywhere but at the listed corners *)
Theorem C58_differentiable_off_corners : forall jk k x, ~ odd_derivative k -> ~ In x (corners k) ->
  is_derive (act_apply (ROps jk) k) x (act_deriv (ROps jk) k x).
Proof. exact act_derivative. Qed.
Print Assumptions C58_differentiable_off_corners.

Theorem C58_corners_not_differentiable : forall jk k x, In x (corners k) -> ~ ex_derive (act_apply (ROps jk) k) x.
Proof. exact act_corners. Qed.
Print Assumptions C58_corners_not_differentiable.

(* GELU and SoftSteps use decimal approximations of pi: right up to 2e-11 and 1e-8 *)
Theorem C58_gelu_softsteps_close : forall jk x,
  (exists l, is_derive (act_apply (ROps jk) AGELU) x l /\ Rabs (act_deriv (ROps jk) AGELU x - l) <= 2 / 100000000000) /\
  (exists l, is_derive (act_apply (ROps jk) ASoftSteps) x l /\ Rabs (act_deriv (ROps jk) ASoftSteps x - l) <= 1 / 100000000).
Proof. exact act_derivation_close. Qed.
Print Assumptions C58_gelu_softsteps_close.

(* four activations have a wrong derivative *)
Theorem C58_derivation_refuted : forall jk k, In k [ASQRBF; ALogit; ASineReLU; ATanhExp] ->
  exists x l, is_derive (act_apply (ROps jk) k) x l /\ act_deriv (ROps jk) k x <> l.
Proof. exact act_derivation_wrong. Qed.
Print Assumptions C58_derivation_refuted.

(* where two of these four are right nevertheless *)
Theorem C58_sqrbf_sinerelu_partial : forall jk x,
  (1 < Rabs x -> is_derive (act_apply (ROps jk) ASQRBF) x (act_deriv (ROps jk) ASQRBF x)) /\
  (0 < x -> is_derive (act_apply (ROps jk) ASineReLU) x (act_deriv (ROps jk) ASineReLU x)).
Proof. exact act_derivation_odd_right. Qed.
Print Assumptions C58_sqrbf_sinerelu_partial.

Theorem C58_sqrbf_actual : forall jk x, -1 < x < 1 -> is_derive (act_apply (ROps jk) ASQRBF) x (- x) /\ act_deriv (ROps jk) ASQRBF x = 1 - x.
Proof. exact SQRBF_actual. Qed.
Print Assumptions C58_sqrbf_actual.

Theorem C58_logit_actual : forall jk x, 0 < x < 1 -> is_derive (act_apply (ROps jk) ALogit) x (1 / (x * (1 - x))) /\
  act_deriv (ROps jk) ALogit x = x / (1 - x).
Proof. exact Logit_actual. Qed.
Print Assumptions C58_logit_actual.

Theorem C58_sinerelu_actual : forall jk x, x < 0 -> is_derive (act_apply (ROps jk) ASineReLU) x (1 / 100 * (cos x + sin x)) /\
  act_deriv (ROps jk) ASineReLU x = 1 / 100 * (sin x - cos x).
Proof. exact SineReLU_actual. Qed.
Print Assumptions C58_sinerelu_actual.

Theorem C58_tanhexp_actual : forall jk x, is_derive (act_apply (ROps jk) ATanhExp) x
    (Rtanh (exp x) - x * exp x * (Rtanh (exp x) * Rtanh (exp x) - 1)) /\
  act_deriv (ROps jk) ATanhExp x = x * Rtanh (exp x) - x * (x * Rtanh (exp x) * (x * Rtanh (exp x)) - 1).
Proof. exact TanhExp_actual. Qed.
Print Assumptions C58_tanhexp_actual.

Example C58_case : ~ odd_derivative AHardSwish /\ ~ In 1 (corners AHardSwish) /\ act_deriv (ROps 0) AHardSwish 1 = 5 / 6.
Proof.
  split; [unfold odd_derivative; cbn [In]; intros H; repeat (destruct H as [H|H]; [discriminate H|]); exact H|].
  split; [cbn [corners In]; intros [H|[H|[]]]; lra|]. act; br; lra.
Qed.

(** C59 *)
Theorem C59_ranges : forall jk k x, act_range k (act_apply (ROps jk) k x).
Proof. exact act_ranges. Qed.
Print Assumptions C59_ranges.

Theorem C59_monotone : forall jk k, In k monotone_kinds -> forall x y, x <= y ->
  act_apply (ROps jk) k x <= act_apply (ROps jk) k y.
Proof. exact act_monotone. Qed.
Print Assumptions C59_monotone.

Example C59_case : In ASelu monotone_kinds /\ act_apply QOps AHardSigmoid (1#2)%Q == (6#10)%Q.
Proof. split; [cbn; tauto | vm_compute; reflexivity]. Qed.

(** C35, activations and losses *)
Theorem C35_activations_listed : forall s, In s list_activations_available -> exists k, get_activation s = Some k /\ act_name k = s.
Proof. exact activations_listed. Qed.
Print Assumptions C35_activations_listed.

Theorem C35_activations_complete : forall k, In (act_name k) list_activations_available /\ get_activation (act_name k) = Some k.
Proof. exact activations_complete. Qed.
Print Assumptions C35_activations_complete.

Theorem C35_activations_unknown : forall s, ~ In s list_activations_available -> get_activation s = None.
Proof. exact activations_unknown. Qed.
Print Assumptions C35_activations_unknown.

Theorem C35_activations_no_duplicates : NoDup list_activations_available.
Proof. exact activations_nodup. Qed.
Print Assumptions C35_activations_no_duplicates.

Theorem C35_losses_listed : forall s, In s list_loss_available -> exists k, create_loss s = Some k /\ loss_name k = s.
Proof. exact losses_listed. Qed.
Print Assumptions C35_losses_listed.

Theorem C35_losses_complete : forall k, In (loss_name k) list_loss_available /\ create_loss (loss_name k) = Some k.
Proof. exact losses_complete. Qed.
Print Assumptions C35_losses_complete.

Theorem C35_losses_unknown : forall s, ~ In s list_loss_available -> create_loss s = None.
Proof. exact losses_unknown. Qed.
Print Assumptions C35_losses_unknown.

