(* P_Linear.v - property theorems about training one dense layer on the squared error (C90) *)
From Coq Require Import String List Arith Bool ZArith Reals Lra Lia.
From Verif Require Import Base Scalar Mat SpecMat SpecReal Loss Optim LayMat LayImg Layer Net NetTrain NetProofs4 SpecFit SpecLinear LinProofs1 LinProofs2.
Import ListNotations.
Local Open Scope R_scope.

(** C90.  [mse] is the mean squared error of a linear model on a data set, [iterate] is textbook gradient descent,
    [energy] the sum of the squares of the inputs (with the constant input 1).  Arithmetic is exact. *)
Theorem C90_fit_is_descent : (forall (jk : R) (R0 : fitRnd (ROps jk)) h n t k m N X T W b eta a l i o,
  trainable h n t k m -> nlay n = [a] -> hget (ROps jk) h a = Ok l -> lk l = KDense i o -> lw l = mgen k m W -> lb l = mgen 1 m (fun _ j => b j) ->
  ttrain (ROps jk) t = Some (mgen N k X, mgen N m T) -> (0 < N)%nat ->
  cLoss (ROps jk) (tc _ t) = LMeanSquaredError -> cReg (ROps jk) (tc _ t) = None -> cOpt (ROps jk) (tc _ t) = "SGD"%string -> cLr (ROps jk) (tc _ t) = eta -> eta <> -1 ->
  (cBatch (ROps jk) (tc _ t) = 0 \/ N <= cBatch (ROps jk) (tc _ t))%nat ->
  let E := Z.to_nat (cEpochs (ROps jk) (tc _ t)) in let it := iterate N k m X T eta (W, b) in
  exists h' n' t' calls, fit (ROps jk) (absFloat (ROps jk)) R0 h n t = Ok (h', n', t', calls) /\
    hTL (ROps jk) (th _ t') = map (fun e => mse N k m X T (it e) / INR N) (seq 0 E) /\
    (cKeep (ROps jk) (tc _ t) = false -> nlay n' = [a] /\ exists l', hget (ROps jk) h' a = Ok l' /\ lw l' = mgen k m (fst (it E)) /\ lb l' = mgen 1 m (fun _ j => snd (it E) j)))%R.
Proof. exact linear_fit. Qed.
Print Assumptions C90_fit_is_descent.

Theorem C90_loss_goes_down : (forall (jk : R) (R0 : fitRnd (ROps jk)) h n t k m N X T W b eta a l i o,
  trainable h n t k m -> nlay n = [a] -> hget (ROps jk) h a = Ok l -> lk l = KDense i o -> lw l = mgen k m W -> lb l = mgen 1 m (fun _ j => b j) ->
  ttrain (ROps jk) t = Some (mgen N k X, mgen N m T) -> (0 < N)%nat ->
  cLoss (ROps jk) (tc _ t) = LMeanSquaredError -> cReg (ROps jk) (tc _ t) = None -> cOpt (ROps jk) (tc _ t) = "SGD"%string -> cLr (ROps jk) (tc _ t) = eta ->
  (cBatch (ROps jk) (tc _ t) = 0 \/ N <= cBatch (ROps jk) (tc _ t))%nat -> 0 <= eta -> eta * energy N k X <= 2 * (INR N * INR m) ->
  exists h' n' t' calls, fit (ROps jk) (absFloat (ROps jk)) R0 h n t = Ok (h', n', t', calls) /\
    length (hTL (ROps jk) (th _ t')) = Z.to_nat (cEpochs (ROps jk) (tc _ t)) /\
    forall e q x y, (e <= q)%nat -> nth_error (hTL (ROps jk) (th _ t')) e = Some x -> nth_error (hTL (ROps jk) (th _ t')) q = Some y -> y <= x)%R.
Proof. exact linear_loss_goes_down. Qed.
Print Assumptions C90_loss_goes_down.

Theorem C90_loss_converges : (forall (jk : R) (R0 : fitRnd (ROps jk)) h n t k m N X T W b eta a l i o,
  trainable h n t k m -> nlay n = [a] -> hget (ROps jk) h a = Ok l -> lk l = KDense i o -> lw l = mgen k m W -> lb l = mgen 1 m (fun _ j => b j) ->
  ttrain (ROps jk) t = Some (mgen N k X, mgen N m T) -> (0 < N)%nat ->
  cLoss (ROps jk) (tc _ t) = LMeanSquaredError -> cReg (ROps jk) (tc _ t) = None -> cOpt (ROps jk) (tc _ t) = "SGD"%string -> cLr (ROps jk) (tc _ t) = eta ->
  (cBatch (ROps jk) (tc _ t) = 0 \/ N <= cBatch (ROps jk) (tc _ t))%nat -> 0 < eta -> eta * energy N k X <= INR N * INR m ->
  exists h' n' t' calls, fit (ROps jk) (absFloat (ROps jk)) R0 h n t = Ok (h', n', t', calls) /\
    length (hTL (ROps jk) (th _ t')) = Z.to_nat (cEpochs (ROps jk) (tc _ t)) /\
    forall e x (q : model), (0 < e)%nat -> nth_error (hTL (ROps jk) (th _ t')) e = Some x -> x * INR N <= mse N k m X T q + dist2 k m (W, b) q / (eta * INR e))%R.
Proof. exact linear_loss_converges. Qed.
Print Assumptions C90_loss_converges.

Theorem C90_descent_step : forall (N k m : nat) (X T : nat -> nat -> R), (0 < N)%nat -> (0 < m)%nat -> (forall eta p, (mse N k m X T) ((descend N k m X T) eta p) <= (mse N k m X T) p - eta * (2 - eta * (energy N k X) / (INR N * INR m)) * (gradNorm N k m X T) p)%R.
Proof. exact descent_step. Qed.
Print Assumptions C90_descent_step.

Theorem C90_gradients_vanish : forall (N k m : nat) (X T : nat -> nat -> R), (0 < N)%nat -> (0 < m)%nat -> (forall eta p E, 0 <= eta -> eta * (energy N k X) <= INR N * INR m -> eta * rsum E (fun e => (gradNorm N k m X T) (iterate N k m X T eta p e)) <= (mse N k m X T) p)%R.
Proof. exact descent_sum. Qed.
Print Assumptions C90_gradients_vanish.

Theorem C90_rate_sharp : (forall eta, 1 < eta -> energy 1 1 (fun _ _ => 1) = 2 /\
  mse 1 1 1 (fun _ _ => 1) (fun _ _ => 1) (fun _ _ => 0, fun _ => 0) < mse 1 1 1 (fun _ _ => 1) (fun _ _ => 1) (descend 1 1 1 (fun _ _ => 1) (fun _ _ => 1) eta (fun _ _ => 0, fun _ => 0)))%R.
Proof. exact rate_sharp. Qed.
Print Assumptions C90_rate_sharp.

Example C90_case : forall jk : R, trainable [Some (linLay jk)] (mkNet [0%nat] false false) (linTr jk) 1 1 /\ ttrain _ (linTr jk) = Some (mgen 2 1 (fun i _ => INR i + 1), mgen 2 1 (fun i _ => 2 * INR i + 2)) /\
  cLr _ (tc _ (linTr jk)) * energy 2 1 (fun i _ => INR i + 1) <= INR 2 * INR 1 /\ lk (linLay jk) = KDense 1 1 /\ cOpt _ (tc _ (linTr jk)) = "SGD"%string.
Proof.
  intro jk. split; [|split; [reflexivity|split; [unfold energy; cbn [linTr setSettings tc cLr rsum INR]; lra|split; reflexivity]]].
  unfold trainable. split; [constructor; [intros []|constructor]|]. split; [do 2 eexists; split; [reflexivity|]; split; [repeat split; auto|reflexivity]|]. split; [intros i a l E; destruct i; discriminate E|]. split; [discriminate|]. split; [reflexivity|]. split; [left; reflexivity|].
  split; [cbn; lia|]. split; [constructor|]. split; [constructor|]. split; [eexists; split; [reflexivity|repeat split]|]. intros d E. discriminate E.
Qed.
