(* P_Logit.v - property theorems about training a dense layer and a Softmax on the cross-entropy (C96) *)
From Coq Require Import String List Arith Bool ZArith Reals Lra Lia.
From Verif Require Import Base Scalar Mat SpecMat SpecReal Loss SpecLoss Optim LayMat SpecLayer LayImg Layer Net NetTrain NetProofs4 SpecFit SpecLinear SpecLogit LogitProofs1 LogitProofs2 LogitProofs3.
Import ListNotations.
Local Open Scope R_scope.

(** C96.  [chance] gives the class probabilities of a linear model, [cross] is its mean cross-entropy on a data set, [run]
    is textbook gradient descent on it, [energy] the sum of the squares of the inputs (with the constant input 1), [alive]
    says that every sample's class has a probability of at least 1e-8.  Arithmetic is exact. *)
@thmr C96_fit_is_descent = logit_fit
@thmr C96_loss_goes_down = logit_loss_goes_down
@thmr C96_loss_converges = logit_loss_converges
@thmr C96_accuracy_reaches_100 = logit_accuracy
@thmr C96_score_gradient = logit_gradient
@thmr C96_descent_step = down_step | forall (N k m : nat) (X : nat -> nat -> R) (c : nat -> nat), (0 < N)%nat -> (0 < m)%nat -> (forall i, (i < N)%nat -> (c i < m)%nat) -> | cross = (cross N k m X c); down = (down N k m X c); energy = (energy N k X); slopeNorm = (slopeNorm N k m X c)
@thmr C96_separable_learned = run_separable | forall (N k m : nat) (X : nat -> nat -> R) (c : nat -> nat), (0 < N)%nat -> (0 < m)%nat -> (forall i, (i < N)%nat -> (c i < m)%nat) -> | energy = (energy N k X); run = (run N k m X c)
Example C96_case : forall jk : R, trainable [Some (logDense jk); Some (logSoft jk)] (mkNet [0%nat; 1%nat] true false) (logTr jk) 1 2 /\
  ttrain _ (logTr jk) = Some (mgen 2 1 (fun i _ => INR i), classTruth false 2 2 (fun i => i)) /\
  INR 2 * cross 2 1 2 (fun i _ => INR i) (fun i => i) (fun _ _ => 0, fun _ => 0) <= ln 100000000 /\
  cLr _ (tc _ (logTr jk)) * energy 2 1 (fun i _ => INR i) <= 2 * INR 2 /\
  allRight 2 1 2 (fun i _ => INR i) (fun i => i) (fun _ j => 2 * INR j, fun j => - INR j).
Proof. exact log_case. Qed.
