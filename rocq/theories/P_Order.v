(* P_Order.v - property theorems about the order of the training samples (C102) *)
From Coq Require Import String List Arith Bool ZArith QArith Reals Lia.
From Verif Require Import Base Scalar Mat SpecMat Loss Optim Regul Act LayMat LayImg Layer Net NetTrain SpecNet SpecFit SpecOrder Order1 Order4 NetProofs4 TrainProofs14 Order5.
Import ListNotations.
Local Open Scope nat_scope.

(** C102.  One batch holding all samples, real arithmetic: any order of the samples gives the same objects, network, history and callbacks. *)
Theorem C102_order : forall jk (s : nat -> nat) Rd h n t k m x x' y y', trainable h n t k m -> rowWise (ROps jk) h (nlay n) -> ttrain (ROps jk) t = Some (x, y) -> reorder (mrows x) s -> reordered (ROps jk) s x x' -> reordered (ROps jk) s y y' -> oneBatch (ROps jk) t (mrows x) ->
  exists h' n' t1 t2 calls, fit (ROps jk) (absFloat (ROps jk)) Rd h n t = Ok (h', n', t1, calls) /\ fit (ROps jk) (absFloat (ROps jk)) Rd h n (withData t (x', y')) = Ok (h', n', t2, calls) /\ sameTrainer (ROps jk) t1 t2.
Proof. exact real_order. Qed.
Print Assumptions C102_order.

Theorem C102_case : forall jk Rd y, exists h' n' t1 t2 calls, fit (ROps jk) (absFloat (ROps jk)) Rd (ordHeap (ROps jk)) ordNet (ordTr (ROps jk) true 0 2 (1 / 10)%R (fun i => i) y) = Ok (h', n', t1, calls) /\
  fit (ROps jk) (absFloat (ROps jk)) Rd (ordHeap (ROps jk)) ordNet (ordTr (ROps jk) true 0 2 (1 / 10)%R swap12 y) = Ok (h', n', t2, calls) /\ sameTrainer (ROps jk) t1 t2.
Proof. exact real_case. Qed.
Print Assumptions C102_case.

(* any arithmetic in which two addends of a sum may be exchanged *)
Theorem C102_any_arithmetic : forall F : FOps, (forall v a b : F, fadd F (fadd F v a) b = fadd F (fadd F v b) a) ->
  forall (s : nat -> nat) Rd h n t k m x x' y y', trainable h n t k m -> rowWise F h (nlay n) -> ttrain F t = Some (x, y) -> reorder (mrows x) s -> reordered F s x x' -> reordered F s y y' -> oneBatch F t (mrows x) ->
  exists h' n' t1 t2 calls, fit F (absFloat F) Rd h n t = Ok (h', n', t1, calls) /\ fit F (absFloat F) Rd h n (withData t (x', y')) = Ok (h', n', t2, calls) /\ sameTrainer F t1 t2.
Proof. exact any_order. Qed.
Print Assumptions C102_any_arithmetic.

Theorem C102_run_case : ordWB 0 (fun i => i) = Some [Some ([53 # 75], [7 # 15])%Q] /\ ordWB 0 swap12 = Some [Some ([53 # 75], [7 # 15])%Q].
Proof. exact run_case_q. Qed.
Print Assumptions C102_run_case.

(* with smaller batches the order matters *)
Theorem C102_one_batch_needed : ordWB 1 (fun i => i) = Some [Some ([294563 # 200000], [161733 # 200000])%Q] /\ ordWB 1 swap12 = Some [Some ([23432 # 15625], [30237 # 31250])%Q].
Proof. exact batches_matter. Qed.
Print Assumptions C102_one_batch_needed.

(* single precision rounds the sums: the order matters *)
Theorem C102_single_precision_refuted : forall (lm : libm -> b32 -> b32) (pw : b32 -> b32 -> b32) (jk : b32), forall Rd : fitRnd (B32Ops lm pw jk), exists s h n t x x' y y' k m, trainable h n t k m /\ rowWise (B32Ops lm pw jk) h (nlay n) /\ ttrain (B32Ops lm pw jk) t = Some (x, y) /\ reorder (mrows x) s /\ reordered (B32Ops lm pw jk) s x x' /\ reordered (B32Ops lm pw jk) s y y' /\ oneBatch (B32Ops lm pw jk) t (mrows x) /\
  (biasZero lm pw jk) (fit (B32Ops lm pw jk) (absFloat (B32Ops lm pw jk)) Rd h n t) = Some true /\ (biasZero lm pw jk) (fit (B32Ops lm pw jk) (absFloat (B32Ops lm pw jk)) Rd h n (withData t (x', y'))) = Some false.
Proof. exact single_order. Qed.
Print Assumptions C102_single_precision_refuted.

