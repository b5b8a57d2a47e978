(* P_Linear.v - property theorems about training one dense layer on the squared error (C90) *)
From Coq Require Import String List Arith Bool ZArith Reals Lra Lia.
From Verif Require Import Base Scalar Mat SpecMat SpecReal Loss Optim LayMat LayImg Layer Net NetTrain NetProofs4 SpecFit SpecLinear LinProofs1 LinProofs2.
Import ListNotations.
Local Open Scope R_scope.

(** C90.  [mse] is the mean squared error of a linear model on a data set, [iterate] is textbook gradient descent,
    [energy] the sum of the squares of the inputs (with the constant input 1).  Arithmetic is exact. *)
@thmr C90_fit_is_descent = linear_fit
@thmr C90_loss_goes_down = linear_loss_goes_down
@thmr C90_loss_converges = linear_loss_converges
@thmr C90_descent_step = descent_step | forall (N k m : nat) (X T : nat -> nat -> R), (0 < N)%nat -> (0 < m)%nat -> | mse = (mse N k m X T); descend = (descend N k m X T); energy = (energy N k X); gradNorm = (gradNorm N k m X T)
@thmr C90_gradients_vanish = descent_sum | forall (N k m : nat) (X T : nat -> nat -> R), (0 < N)%nat -> (0 < m)%nat -> | mse = (mse N k m X T); descend = (descend N k m X T); energy = (energy N k X); gradNorm = (gradNorm N k m X T)
@thmr C90_rate_sharp = rate_sharp
Example C90_case : forall jk : R, trainable [Some (linLay jk)] (mkNet [0%nat] false false) (linTr jk) 1 1 /\ ttrain _ (linTr jk) = Some (mgen 2 1 (fun i _ => INR i + 1), mgen 2 1 (fun i _ => 2 * INR i + 2)) /\
  cLr _ (tc _ (linTr jk)) * energy 2 1 (fun i _ => INR i + 1) <= INR 2 * INR 1 /\ lk (linLay jk) = KDense 1 1 /\ cOpt _ (tc _ (linTr jk)) = "SGD"%string.
Proof.
  intro jk. split; [|split; [reflexivity|split; [unfold energy; cbn [linTr setSettings tc cLr rsum INR]; lra|split; reflexivity]]].
  unfold trainable. split; [constructor; [intros []|constructor]|]. split; [do 2 eexists; split; [reflexivity|]; split; [repeat split; auto|reflexivity]|]. split; [intros i a l E; destruct i; discriminate E|]. split; [discriminate|]. split; [reflexivity|]. split; [left; reflexivity|].
  split; [cbn; lia|]. split; [constructor|]. split; [constructor|]. split; [eexists; split; [reflexivity|repeat split]|]. intros d E. discriminate E.
Qed.
