(* P_Logit.v - property theorems about training a dense layer and a Softmax on the cross-entropy (C96) *)
From Coq Require Import String List Arith Bool ZArith Reals Lra Lia.
From Verif Require Import Base Scalar Mat SpecMat SpecReal Loss SpecLoss Optim LayMat SpecLayer LayImg Layer Net NetTrain NetProofs4 SpecFit SpecLinear SpecLogit LogitProofs1 LogitProofs2 LogitProofs3.
Import ListNotations.
Local Open Scope R_scope.

(** C96.  [chance] gives the class probabilities of a linear model, [cross] is its mean cross-entropy on a data set, [run]
    is textbook gradient descent on it, [energy] the sum of the squares of the inputs (with the constant input 1), [alive]
    says that every sample's class has a probability of at least 1e-8.  Arithmetic is exact. *)
Theorem C96_fit_is_descent : (forall (jk : R) (R0 : fitRnd (ROps jk)) h n t k m N X c sp W b eta a1 a2 l s i o,
  trainable h n t k m -> nlay n = [a1; a2] -> hget (ROps jk) h a1 = Ok l -> lk l = KDense i o -> lw l = mgen k m W -> lb l = mgen 1 m (fun _ j => b j) ->
  hget (ROps jk) h a2 = Ok s -> lk s = KSoftmax ->
  ttrain (ROps jk) t = Some (mgen N k X, classTruth sp N m c) -> (0 < N)%nat -> (forall i, (i < N)%nat -> (c i < m)%nat) ->
  cLoss (ROps jk) (tc _ t) = classLoss sp -> cReg (ROps jk) (tc _ t) = None -> cOpt (ROps jk) (tc _ t) = "SGD"%string -> cLr (ROps jk) (tc _ t) = eta -> eta <> -1 ->
  (cBatch (ROps jk) (tc _ t) = 0 \/ N <= cBatch (ROps jk) (tc _ t))%nat ->
  let E := Z.to_nat (cEpochs (ROps jk) (tc _ t)) in let it := run N k m X c eta (W, b) in
  (forall e, (e < E)%nat -> alive N k m X c (it e)) ->
  exists h' n' t' calls, fit (ROps jk) (absFloat (ROps jk)) R0 h n t = Ok (h', n', t', calls) /\
    hTL (ROps jk) (th _ t') = map (fun e => cross N k m X c (it e) / INR N) (seq 0 E) /\
    (nclass n = true -> hTA (ROps jk) (th _ t') = map (fun e => 100 * INR (hits jk N k m X c sp (it e)) / INR N) (seq 0 E)) /\
    (cKeep (ROps jk) (tc _ t) = false -> nlay n' = [a1; a2] /\ exists l', hget (ROps jk) h' a1 = Ok l' /\ lw l' = mgen k m (fst (it E)) /\ lb l' = mgen 1 m (fun _ j => snd (it E) j)))%R.
Proof. exact logit_fit. Qed.
Print Assumptions C96_fit_is_descent.

Theorem C96_loss_goes_down : (forall (jk : R) (R0 : fitRnd (ROps jk)) h n t k m N X c sp W b eta a1 a2 l s i o,
  trainable h n t k m -> nlay n = [a1; a2] -> hget (ROps jk) h a1 = Ok l -> lk l = KDense i o -> lw l = mgen k m W -> lb l = mgen 1 m (fun _ j => b j) ->
  hget (ROps jk) h a2 = Ok s -> lk s = KSoftmax ->
  ttrain (ROps jk) t = Some (mgen N k X, classTruth sp N m c) -> (0 < N)%nat -> (forall i, (i < N)%nat -> (c i < m)%nat) ->
  cLoss (ROps jk) (tc _ t) = classLoss sp -> cReg (ROps jk) (tc _ t) = None -> cOpt (ROps jk) (tc _ t) = "SGD"%string -> cLr (ROps jk) (tc _ t) = eta ->
  (cBatch (ROps jk) (tc _ t) = 0 \/ N <= cBatch (ROps jk) (tc _ t))%nat -> INR N * cross N k m X c (W, b) <= ln 100000000 -> 0 <= eta -> eta * energy N k X <= 4 * INR N ->
  exists h' n' t' calls, fit (ROps jk) (absFloat (ROps jk)) R0 h n t = Ok (h', n', t', calls) /\
    length (hTL (ROps jk) (th _ t')) = Z.to_nat (cEpochs (ROps jk) (tc _ t)) /\
    forall e q x y, (e <= q)%nat -> nth_error (hTL (ROps jk) (th _ t')) e = Some x -> nth_error (hTL (ROps jk) (th _ t')) q = Some y -> y <= x)%R.
Proof. exact logit_loss_goes_down. Qed.
Print Assumptions C96_loss_goes_down.

Theorem C96_loss_converges : (forall (jk : R) (R0 : fitRnd (ROps jk)) h n t k m N X c sp W b eta a1 a2 l s i o,
  trainable h n t k m -> nlay n = [a1; a2] -> hget (ROps jk) h a1 = Ok l -> lk l = KDense i o -> lw l = mgen k m W -> lb l = mgen 1 m (fun _ j => b j) ->
  hget (ROps jk) h a2 = Ok s -> lk s = KSoftmax ->
  ttrain (ROps jk) t = Some (mgen N k X, classTruth sp N m c) -> (0 < N)%nat -> (forall i, (i < N)%nat -> (c i < m)%nat) ->
  cLoss (ROps jk) (tc _ t) = classLoss sp -> cReg (ROps jk) (tc _ t) = None -> cOpt (ROps jk) (tc _ t) = "SGD"%string -> cLr (ROps jk) (tc _ t) = eta ->
  (cBatch (ROps jk) (tc _ t) = 0 \/ N <= cBatch (ROps jk) (tc _ t))%nat -> INR N * cross N k m X c (W, b) <= ln 100000000 -> 0 < eta -> eta * energy N k X <= 2 * INR N ->
  exists h' n' t' calls, fit (ROps jk) (absFloat (ROps jk)) R0 h n t = Ok (h', n', t', calls) /\
    length (hTL (ROps jk) (th _ t')) = Z.to_nat (cEpochs (ROps jk) (tc _ t)) /\
    forall e x (q : model), (0 < e)%nat -> nth_error (hTL (ROps jk) (th _ t')) e = Some x -> x * INR N <= cross N k m X c q + dist2 k m (W, b) q / (2 * eta * INR e))%R.
Proof. exact logit_loss_converges. Qed.
Print Assumptions C96_loss_converges.

Theorem C96_accuracy_reaches_100 : (forall k m N (X : nat -> nat -> R) c W b eta (q : model), (0 < N)%nat -> (1 < m)%nat -> (forall i, (i < N)%nat -> (c i < m)%nat) -> INR N * cross N k m X c (W, b) <= ln 100000000 -> 0 < eta -> eta * energy N k X <= 2 * INR N ->
  allRight N k m X c q -> exists E0, forall (jk : R) (R0 : fitRnd (ROps jk)) h n t sp a1 a2 l s i o,
  trainable h n t k m -> nlay n = [a1; a2] -> nclass n = true -> hget (ROps jk) h a1 = Ok l -> lk l = KDense i o -> lw l = mgen k m W -> lb l = mgen 1 m (fun _ j => b j) ->
  hget (ROps jk) h a2 = Ok s -> lk s = KSoftmax ->
  ttrain (ROps jk) t = Some (mgen N k X, classTruth sp N m c) ->
  cLoss (ROps jk) (tc _ t) = classLoss sp -> cReg (ROps jk) (tc _ t) = None -> cOpt (ROps jk) (tc _ t) = "SGD"%string -> cLr (ROps jk) (tc _ t) = eta ->
  (cBatch (ROps jk) (tc _ t) = 0 \/ N <= cBatch (ROps jk) (tc _ t))%nat ->
  exists h' n' t' calls, fit (ROps jk) (absFloat (ROps jk)) R0 h n t = Ok (h', n', t', calls) /\
    length (hTA (ROps jk) (th _ t')) = Z.to_nat (cEpochs (ROps jk) (tc _ t)) /\
    forall e x, (E0 <= e)%nat -> nth_error (hTA (ROps jk) (th _ t')) e = Some x -> x = 100)%R.
Proof. exact logit_accuracy. Qed.
Print Assumptions C96_accuracy_reaches_100.

Theorem C96_score_gradient : (forall (jk : R) n m (Z : nat -> nat -> R) c sp out gin, (0 < m)%nat -> (forall i, (i < n)%nat -> (c i < m)%nat) -> mwf out -> exists G D,
  compute_gradient (ROps jk) (classLoss sp) (noBalance (ROps jk)) (mgen n m (fun i => softmax m (Z i))) (classTruth sp n m c) out = Ok (mgen n m G) /\
  bwdSoftmax (ROps jk) false (mgen n m Z) (mgen n m G) gin = Ok (mgen n m D) /\
  forall i, (i < n)%nat -> (1 / 100000000 <= softmax m (Z i) (c i) -> forall j, (j < m)%nat -> D i j = softmax m (Z i) j - oneHot c i j) /\
    (softmax m (Z i) (c i) < 1 / 100000000 -> Rabs (D i (c i)) <= 100000000 * softmax m (Z i) (c i)))%R.
Proof. exact logit_gradient. Qed.
Print Assumptions C96_score_gradient.

Theorem C96_descent_step : forall (N k m : nat) (X : nat -> nat -> R) (c : nat -> nat), (0 < N)%nat -> (0 < m)%nat -> (forall i, (i < N)%nat -> (c i < m)%nat) -> (forall eta p, (cross N k m X c) ((down N k m X c) eta p) <= (cross N k m X c) p - eta * (1 - eta * (energy N k X) / (4 * INR N)) * (slopeNorm N k m X c) p)%R.
Proof. exact down_step. Qed.
Print Assumptions C96_descent_step.

Theorem C96_separable_learned : forall (N k m : nat) (X : nat -> nat -> R) (c : nat -> nat), (0 < N)%nat -> (0 < m)%nat -> (forall i, (i < N)%nat -> (c i < m)%nat) -> (forall eta p q, 0 < eta -> eta * (energy N k X) <= 2 * INR N -> allRight N k m X c q -> exists E0, forall e, (E0 <= e)%nat -> allRight N k m X c ((run N k m X c) eta p e))%R.
Proof. exact run_separable. Qed.
Print Assumptions C96_separable_learned.

Example C96_case : forall jk : R, trainable [Some (logDense jk); Some (logSoft jk)] (mkNet [0%nat; 1%nat] true false) (logTr jk) 1 2 /\
  ttrain _ (logTr jk) = Some (mgen 2 1 (fun i _ => INR i), classTruth false 2 2 (fun i => i)) /\
  INR 2 * cross 2 1 2 (fun i _ => INR i) (fun i => i) (fun _ _ => 0, fun _ => 0) <= ln 100000000 /\
  cLr _ (tc _ (logTr jk)) * energy 2 1 (fun i _ => INR i) <= 2 * INR 2 /\
  allRight 2 1 2 (fun i _ => INR i) (fun i => i) (fun _ j => 2 * INR j, fun j => - INR j).
Proof. exact log_case. Qed.
