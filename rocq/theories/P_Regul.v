(* P_Regul.v - property theorems about the regularisers (C36, C37; the regulariser part of C35) *)
From Coq Require Import List Arith Bool ZArith QArith Reals String.
From Coquelicot Require Import Coquelicot.
From Verif Require Import Base Scalar Mat SpecMat SpecReal Loss Optim SpecOpt Regul SpecRegul RegulProofs.
Import ListNotations.
Local Open Scope R_scope.

(** C36 *)
Theorem C36_gradient_clip : forall jk : R, forall p r c (w dw : nat -> nat -> R), 0 < p -> exists g,
  reg_apply (ROps jk) (regulariser jk RClip p) (mgen r c w) (mgen r c dw) = Ok (mgen r c g) /\
  forall i j, - p <= g i j <= p /\ (- p <= dw i j <= p -> g i j = dw i j) /\ (dw i j > p -> g i j = p) /\ (dw i j < - p -> g i j = - p).
Proof. exact clip_bounds. Qed.
Print Assumptions C36_gradient_clip.

(* norm clipping multiplies every entry by one factor s in (0,1], so the direction is kept *)
Theorem C36_gradient_norm_clip : forall jk : R, forall p r c (w dw : nat -> nat -> R), 0 < p -> exists s,
  0 < s <= 1 /\
  reg_apply (ROps jk) (regulariser jk RNormClip p) (mgen r c w) (mgen r c dw) = Ok (mgen r c (fun i j => dw i j * s)) /\
  norm2 r c (fun i j => dw i j * s) <= p /\
  (norm2 r c dw <= p -> s = 1) /\ (norm2 r c dw > p -> norm2 r c (fun i j => dw i j * s) = p).
Proof. exact normclip_bounds. Qed.
Print Assumptions C36_gradient_norm_clip.

Theorem C36_gradient_clip_tanh : forall jk : R, forall p r c (w dw : nat -> nat -> R), 0 < p -> exists g,
  reg_apply (ROps jk) (regulariser jk RClipTanh p) (mgen r c w) (mgen r c dw) = Ok (mgen r c g) /\
  forall i j, - p < g i j < p /\ (0 < dw i j -> 0 < g i j) /\ (dw i j < 0 -> g i j < 0) /\ (dw i j = 0 -> g i j = 0).
Proof. exact cliptanh_bounds. Qed.
Print Assumptions C36_gradient_clip_tanh.

Example C36_case : reg_apply QOps (set_parameter QOps (newReg QOps RClip) 2%Q) (mgen 1 3 (fun _ _ => 0%Q))
  (mgen 1 3 (fun _ j => inject_Z (Z.of_nat j * 3 - 3))) = Ok (mgen 1 3 (fun _ j => inject_Z (Z.of_nat j * 2 - 2))).
Proof. vm_compute. reflexivity. Qed.

(** C37.  The penalties are p|w|, p w^2/2 and their sum; apply takes the weights and returns the gradient only. *)
Theorem C37_penalty_gradients : forall jk : R, forall k p r c (w dw : nat -> nat -> R), p <> -1 -> k = RL1 \/ k = RL2 \/ k = RL1L2 ->
  exists g, reg_apply (ROps jk) (regulariser jk k p) (mgen r c w) (mgen r c dw) = Ok (mgen r c (fun i j => dw i j + g (w i j))) /\
  forall x, x <> 0 ->
  is_derive (fun y => match k with RL1 => p * Rabs y | RL2 => p * y ^ 2 / 2 | _ => p * y ^ 2 / 2 + p * Rabs y end) x (g x).
Proof. exact reg_penalty. Qed.
Print Assumptions C37_penalty_gradients.

Theorem C37_penalty_values : forall jk : R, forall p r c (w dw : nat -> nat -> R), p <> -1 ->
  reg_apply (ROps jk) (regulariser jk RL1 p) (mgen r c w) (mgen r c dw) = Ok (mgen r c (fun i j => dw i j + p * sgn (w i j))) /\
  reg_apply (ROps jk) (regulariser jk RL2 p) (mgen r c w) (mgen r c dw) = Ok (mgen r c (fun i j => dw i j + p * w i j)) /\
  reg_apply (ROps jk) (regulariser jk RL1L2 p) (mgen r c w) (mgen r c dw) = Ok (mgen r c (fun i j => dw i j + p * w i j + p * sgn (w i j))).
Proof. exact reg_penalty_zero. Qed.
Print Assumptions C37_penalty_values.

Theorem C37_default_parameter : forall jk : R, forall k, regulariser jk k (-1) = regulariser jk k (regDefault k) /\ rparam (ROps jk) (regulariser jk k (-1)) = regDefault k.
Proof. exact reg_default. Qed.
Print Assumptions C37_default_parameter.

Theorem C37_none_does_nothing : forall jk : R, forall p r c w (dw : nat -> nat -> R), reg_apply (ROps jk) (regulariser jk RNone p) (mgen r c w) (mgen r c dw) = Ok (mgen r c dw).
Proof. exact reg_none. Qed.
Print Assumptions C37_none_does_nothing.

Example C37_case : reg_apply QOps (set_parameter QOps (newReg QOps RL1L2) (1#2)%Q) (mgen 1 2 (fun _ j => if Nat.eqb j 0 then -4 else 6)%Q)
  (mgen 1 2 (fun _ _ => 1%Q)) = Ok (mgen 1 2 (fun _ j => if Nat.eqb j 0 then -(3#2) else 9#2)%Q).
Proof. vm_compute. reflexivity. Qed.

(** C35, regularisers *)
Theorem C35_regularizers_listed : forall s, In s list_regularizer_available -> exists k, create_regularizer s = Some k /\ reg_name k = s.
Proof. exact reg_registry. Qed.
Print Assumptions C35_regularizers_listed.

Theorem C35_regularizers_complete : forall k, In (reg_name k) list_regularizer_available /\ create_regularizer (reg_name k) = Some k.
Proof. exact reg_registry_complete. Qed.
Print Assumptions C35_regularizers_complete.

Theorem C35_regularizers_unknown : forall s, ~ In s list_regularizer_available -> create_regularizer s = None.
Proof. exact reg_registry_unknown. Qed.
Print Assumptions C35_regularizers_unknown.

