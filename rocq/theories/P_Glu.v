(* P_Glu.v - property theorems about the gated linear units (C83) *)
From Coq Require Import String List Arith Bool Reals Lra QArith.
From Verif Require Import Base Scalar Mat SpecMat Act LayMat LayImg Layer SpecLayer LayGlu SpecGlu GluProofs.
Import ListNotations.
Local Open Scope R_scope.

(** C83.  The gradient of GEGLU is right up to the decimal approximation of pi in the GELU derivative (C58_gelu_softsteps_close). *)
Theorem C83_formula : forall jk r g, exists l, gluNew (ROps jk) r g = Ok l /\ forall r' n h X out, mwf out ->
  layForward (ROps jk) r' l (mgen n (2 * h) X) out = Ok (l, mgen n h (fun i c => gluFormula g (X i c) (X i (c + h)%nat))).
Proof. exact glu_formula. Qed.
Print Assumptions C83_formula.

Theorem C83_gradient : forall jk r g, g <> GGEGLU -> exists l, gluNew (ROps jk) r g = Ok l /\ forall r' n h X G out gin, mwf out -> mwf gin ->
  (g = GReGLU \/ g = GSeGLU -> forall i j, (i < n)%nat -> (j < h)%nat -> X i (j + h)%nat <> 0) ->
  exists gi, layBackward (ROps jk) l (mgen n (2 * h) X) (mgen n h G) gin = Ok (l, mgen n (2 * h) gi) /\
  gradOf n (2 * h) 1 (fun X' => obj G (out_ (layForward (ROps jk) r' l (mgen n (2 * h) X') out))) X gi.
Proof. exact glu_gradient. Qed.
Print Assumptions C83_gradient.

Theorem C83_clone : forall F r r' g, exists l, gluNew F r g = Ok l /\ layClone F r' l = Ok l.
Proof. exact glu_clone. Qed.
Print Assumptions C83_clone.

Example C83_case : match gluNew QOps (mkRnd QOps (fun _ => 0%Q) (fun _ => 0%Z)) GReGLU with
  | Ok l => match layForward QOps (mkRnd QOps (fun _ => 0%Q) (fun _ => 0%Z)) l (mkMat 1 4 [3; 5; 2; -4]%Q) (mempty QOps) with Ok (_, o) => Some (map Qred (mdata o)) | Err _ => None end
  | Err _ => None end = Some [6; 0]%Q /\ gluFormula GReGLU 3 2 = 6.
Proof. split; [vm_compute; reflexivity|]. cbn. rewrite Rmax_right by lra. lra. Qed.
