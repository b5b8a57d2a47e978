(* P_Glu.v - property theorems about the gated linear units (C83) *)
From Coq Require Import String List Arith Bool Reals Lra QArith.
From Verif Require Import Base Scalar Mat SpecMat Act LayMat LayImg Layer SpecLayer LayGlu SpecGlu GluProofs.
Import ListNotations.
Local Open Scope R_scope.

(** C83.  The gradient of GEGLU is right up to the decimal approximation of pi in the GELU derivative (C58_gelu_softsteps_close). *)
@thm C83_formula = glu_formula
@thm C83_gradient = glu_gradient
@thm C83_clone = glu_clone
Example C83_case : match gluNew QOps (mkRnd QOps (fun _ => 0%Q) (fun _ => 0%Z)) GReGLU with
  | Ok l => match layForward QOps (mkRnd QOps (fun _ => 0%Q) (fun _ => 0%Z)) l (mkMat 1 4 [3; 5; 2; -4]%Q) (mempty QOps) with Ok (_, o) => Some (map Qred (mdata o)) | Err _ => None end
  | Err _ => None end = Some [6; 0]%Q /\ gluFormula GReGLU 3 2 = 6.
Proof. split; [vm_compute; reflexivity|]. cbn. rewrite Rmax_right by lra. lra. Qed.
