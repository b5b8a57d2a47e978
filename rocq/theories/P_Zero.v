(* P_Zero.v - property theorems about training with a learning rate of zero (C108) *)
From Coq Require Import String List Arith Bool ZArith QArith Reals.
From Flocq Require Import IEEE754.BinarySingleNaN.
From Verif Require Import Base Scalar Mat SpecMat Act Loss Optim LayMat Layer Net NetTrain SpecTrain SpecFit SpecResume SpecFixed SpecZero Fixed4 Zero2 Zero3.
Import ListNotations.
Local Open Scope R_scope.

(** C108.  With the learning rate 0, fit ends and leaves every weight and bias of the network as they were, in exact arithmetic: for every loss, regulariser,
    shuffling, batch size, number of epochs and data, and every optimiser but RPROP-, iRPROP- and AdamW. *)
Theorem C108_zero_rate : forall (jk : R), forall (R0 : fitRnd (ROps jk)) h n (t : trainer (ROps jk)) k m x y,
  trainable h n t k m -> nlay n <> [] -> allPassive h n -> allSized (ROps jk) h n -> ttrain (ROps jk) t = Some (x, y) -> (0 < mrows x)%nat ->
  cLr (ROps jk) (tc (ROps jk) t) = 0 -> (forall kd, create_optimizer (cOpt (ROps jk) (tc (ROps jk) t)) = Some kd -> scaled kd) ->
  exists h' n' t' calls, fit (ROps jk) (absFloat (ROps jk)) R0 h n t = Ok (h', n', t', calls) /\ copyOf (ROps jk) h (nlay n) h' (nlay n').
Proof. exact zero_rate. Qed.
Print Assumptions C108_zero_rate.

Local Open Scope nat_scope.
Theorem C108_case : forall jk (R0 : fitRnd (ROps jk)) a opt kd kp b e lo N Y, create_optimizer opt = Some kd -> scaled kd -> smoothLoss lo -> 0 < N ->
  exists h' n' t' calls, fit (ROps jk) (absFloat (ROps jk)) R0 (fxHeap (ROps jk) a) fxNet (fxTr (ROps jk) opt kp b e 0%R lo N Y) = Ok (h', n', t', calls) /\
  copyOf (ROps jk) (fxHeap (ROps jk) a) [0; 1] h' (nlay n').
Proof. exact zero_case. Qed.
Print Assumptions C108_case.

(* with the optimiser "None" the same holds in any arithmetic, whatever the learning rate *)
Theorem C108_none : forall (F : FOps) (R0 : fitRnd F) h n (t : trainer F) k m x y,
  trainable h n t k m -> nlay n <> [] -> allPassive h n -> allSized F h n -> ttrain F t = Some (x, y) -> 0 < mrows x ->
  cOpt F (tc F t) = "None"%string ->
  exists h' n' t' calls, fit F (absFloat F) R0 h n t = Ok (h', n', t', calls) /\ copyOf F h (nlay n) h' (nlay n').
Proof. exact none_opt. Qed.
Print Assumptions C108_none.

Theorem C108_none_case : forall (F : FOps) (R0 : fitRnd F) a kp b e lr lo N Y, smoothLoss lo -> 0 < N ->
  exists h' n' t' calls, fit F (absFloat F) R0 (fxHeap F a) fxNet (fxTr F "None" kp b e lr lo N Y) = Ok (h', n', t', calls) /\ copyOf F (fxHeap F a) [0; 1] h' (nlay n').
Proof. exact none_case. Qed.
Print Assumptions C108_none_case.

(* computed runs: at rate 0 nothing moves, at rate 0.1 the same call does move the weights, and -1 stands for the default rate *)
Theorem C108_run_case : forall opt, In opt ["None"; "Step"; "SGD"; "Momentum"; "MomentumNg"; "Nesterov"; "RMSProp"; "Adagrad"; "Adam"; "Amsgrad"; "Nadam"; "Adamax"]%string ->
  match around (fxHeap QOps ARelu) fxNet (zTr opt 0%Q) with Some (w0, w1, _) => w0 = w1 | None => False end.
Proof. exact run_case. Qed.
Print Assumptions C108_run_case.

Theorem C108_moves_case : movesAway (fxHeap QOps ARelu) fxNet (zTr "SGD" (1 # 10)%Q).
Proof. exact moves_case. Qed.
Print Assumptions C108_moves_case.

Theorem C108_minus_one_case : movesAway (fxHeap QOps ARelu) fxNet (zTr "SGD" (-1)%Q) /\ exists w0 w1 w2 c c', around (fxHeap QOps ARelu) fxNet (zTr "SGD" (-1)%Q) = Some (w0, w1, c) /\ around (fxHeap QOps ARelu) fxNet (zTr "SGD" (1 # 100)%Q) = Some (w0, w2, c') /\ w1 = w2.
Proof. exact minus_one. Qed.
Print Assumptions C108_minus_one_case.

(* the exceptions are real *)
Theorem C108_others_refuted : zeroMoves ORPROPm /\ zeroMoves OiRPROPm /\ zeroMoves OAdamW.
Proof. exact others_refuted. Qed.
Print Assumptions C108_others_refuted.

Theorem C108_pelu_refuted : exists h n t k m, trainable h n t k m /\ nlay n <> [] /\ allSized QOps h n /\ cOpt QOps (tc QOps t) = "None"%string /\ cLr QOps (tc QOps t) = 0%Q /\ movesAway h n t.
Proof. exact pelu_refuted. Qed.
Print Assumptions C108_pelu_refuted.

(* in single precision a gradient that overflows makes the weight NaN even with learning rate 0 *)
Theorem C108_float_refuted : forall (lm : libm -> b32 -> b32) (pw : b32 -> b32 -> b32) (jk : b32), forall R0, exists h n t k m x y l h' n' t' calls l' a, trainable h n t k m /\ allPassive h n /\ allSized (B32Ops lm pw jk) h n /\ cOpt (B32Ops lm pw jk) (tc (B32Ops lm pw jk) t) = "SGD"%string /\ cLr (B32Ops lm pw jk) (tc (B32Ops lm pw jk) t) = B754_zero false /\
  ttrain (B32Ops lm pw jk) t = Some (x, y) /\ Forall (fun v => is_finite v = true) (mdata x) /\ Forall (fun v => is_finite v = true) (mdata y) /\
  hget (B32Ops lm pw jk) h a = Ok l /\ Forall (fun v => is_finite v = true) (mdata (lw l)) /\ Forall (fun v => is_finite v = true) (mdata (lb l)) /\
  fit (B32Ops lm pw jk) (absFloat (B32Ops lm pw jk)) R0 h n t = Ok (h', n', t', calls) /\ In a (nlay n') /\ hget (B32Ops lm pw jk) h' a = Ok l' /\ mdata (lw l') = [B754_nan].
Proof. exact float_refuted. Qed.
Print Assumptions C108_float_refuted.

