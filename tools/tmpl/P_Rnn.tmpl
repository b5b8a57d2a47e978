(* P_Rnn.v - property theorems about the backward pass of the recurrent layers (C86) *)
From Coq Require Import String List Arith Bool ZArith Reals QArith.
From Verif Require Import Base Scalar SpecReal Mat SpecMat LayMat LayRnn Layer SpecRnn LayRnnProofs2.
Import ListNotations.

(** C86.  The full statement (the stored weight gradient is the derivative of the loss) is false for both classes: neither reads the
    gradient of its output, so a loss already at its minimum still gives SimplestRNN a non-zero weight gradient. *)
@thmn C86_zero_gradient_refuted = rnn_zero_gradient
@thmn C86_output_gradient_ignored = rnn_ignores_gradient | forall F : FOps,
(* what a training step of SimplestRNN does on sequences of three frames or more: the states, the stored gradient, and, unless it is
   the first layer, an assertion failure for every batch size but one *)
@thmn C86_simplest_actual = simplest_trains | forall jk : R, | F = (ROps jk)
(* SimpleRNN has no registered weights and never computes a gradient, but its backward pass always returns *)
@thmn C86_simple_actual = simple_never_learns | forall F : FOps,

Example C86_case : (* weight 2, frames 1, 10, 100, 1000: states 1, 12, 124; stored gradient (12 * 1 + 124 * 12) / 4 *)
  match layForward QOps (mkRnd QOps (fun _ => 2%Q) (fun _ => 0%Z)) (setFirst (setTrain (layBase QOps (KSimplestRnn 1) "" "") true) true) (mkMat 1 4 [1; 10; 100; 1000]%Q) (mempty QOps) with
  | Ok (l, o) => match layBackward QOps l (mkMat 1 4 [1; 10; 100; 1000]%Q) (mempty QOps) (mempty QOps) with
     | Ok (l2, _) => Some (map Qred (mdata o), map Qred (mdata (lgw l2))) | Err _ => None end | Err _ => None end = Some ([124], [375])%Q.
Proof. vm_compute. reflexivity. Qed.
