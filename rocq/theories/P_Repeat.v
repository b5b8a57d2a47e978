(* P_Repeat.v - property theorems about samples presented several times (C106) *)
From Coq Require Import String List Arith Bool ZArith QArith Reals Lia.
From Verif Require Import Base Scalar Mat SpecMat Loss Optim Regul Act LayMat LayImg Layer Net NetTrain SpecNet SpecFit SpecRepeat Order1 Rep1 Rep2 Rep4 NetProofs4 TrainProofs14 Rep5.
Import ListNotations.
Local Open Scope nat_scope.

(** C106.  One batch holding all samples, real arithmetic: presenting every sample r times trains the same network; only the recorded training loss may differ. *)
Theorem C106_repeated : forall (jk : R), forall r (s : nat -> nat) Rd h n t k m x x' y y', trainable h n t k m -> meanNet (ROps jk) h (nlay n) -> ttrain (ROps jk) t = Some (x, y) -> times r (mrows x) s -> repeated (ROps jk) r s x x' -> repeated (ROps jk) r s y y' -> oneBatchR (ROps jk) t r (mrows x) ->
  exists h' n' t1 t2 calls calls2, fit (ROps jk) (absFloat (ROps jk)) Rd h n t = Ok (h', n', t1, calls) /\ fit (ROps jk) (absFloat (ROps jk)) Rd h n (withData t (x', y')) = Ok (h', n', t2, calls2) /\ sameState (ROps jk) t1 t2 /\
    (0 < length (nlay n) -> curves (ROps jk) (fun l => if sumLoss (cLoss (ROps jk) (tc (ROps jk) t)) then l else (l / INR r)%R) (th (ROps jk) t1) (th (ROps jk) t2)) /\ Forall2 (curves (ROps jk) (fun l => if sumLoss (cLoss (ROps jk) (tc (ROps jk) t)) then l else (l / INR r)%R)) calls calls2.
Proof. exact real_repeat. Qed.
Print Assumptions C106_repeated.

(* any number of copies of the data one after the other is such a presentation *)
Theorem C106_copies : forall r n, 0 < r -> 0 < n -> times r n (fun i => i mod n).
Proof. exact times_copies. Qed.
Print Assumptions C106_copies.

Theorem C106_case : forall jk Rd y e, let F := ROps jk in exists h' n' t1 t2 calls calls2,
  fit F (absFloat F) Rd (repHeap F) repNet (repTr F LMeanSquaredError 0 e (1 / 10)%R 2 y) = Ok (h', n', t1, calls) /\
  fit F (absFloat F) Rd (repHeap F) repNet (repTr F LMeanSquaredError 0 e (1 / 10)%R 6 y) = Ok (h', n', t2, calls2) /\ hTL F (th F t2) = map (fun l => (l / 3)%R) (hTL F (th F t1)).
Proof. exact rep_case. Qed.
Print Assumptions C106_case.

Theorem C106_runs_case : repRun (repHeap QOps) LMeanSquaredError 0 2 = Some ([Some ([3 # 16], [7 # 25])], [5 # 4; 757 # 800])%Q /\ repRun (repHeap QOps) LMeanSquaredError 0 6 = Some ([Some ([3 # 16], [7 # 25])], [5 # 12; 757 # 2400])%Q /\
  repRun (repHeap QOps) LL2 0 2 = Some ([Some ([3 # 16], [7 # 25])], [5 # 2; 757 # 400])%Q /\ repRun (repHeap QOps) LL2 0 6 = Some ([Some ([3 # 16], [7 # 25])], [5 # 2; 757 # 400])%Q.
Proof. exact rep_run_case. Qed.
Print Assumptions C106_runs_case.

(* smaller batches: more steps are made *)
Theorem C106_one_batch_needed : repRun (repHeap QOps) LMeanSquaredError 2 2 = Some ([Some ([3 # 16], [7 # 25])], [5 # 4; 757 # 800])%Q /\
  repRun (repHeap QOps) LMeanSquaredError 2 6 = Some ([Some ([28286447 # 64000000], [41446903 # 64000000])], [1864313 # 1920000; 2078639027441 # 4915200000000])%Q.
Proof. exact rep_batches. Qed.
Print Assumptions C106_one_batch_needed.

(* the gradient of a Gain layer is not a mean over the samples *)
Theorem C106_gain_case : repRun (repGain QOps) LMeanSquaredError 0 2 = Some ([Some ([119 # 100], [])], [1 # 2; 181 # 400])%Q /\ repRun (repGain QOps) LMeanSquaredError 0 6 = Some ([Some ([151 # 100], [])], [1 # 6; 149 # 1200])%Q.
Proof. exact rep_gain. Qed.
Print Assumptions C106_gain_case.

(* single precision: presenting the samples twice may overflow the sum of their gradients *)
Theorem C106_single_precision_refuted : forall (lm : libm -> b32 -> b32) (pw : b32 -> b32 -> b32) (jk : b32), forall Rd : fitRnd (B32Ops lm pw jk), exists r s h n t x x' y y' k m, trainable h n t k m /\ meanNet (B32Ops lm pw jk) h (nlay n) /\ ttrain (B32Ops lm pw jk) t = Some (x, y) /\ times r (mrows x) s /\ repeated (B32Ops lm pw jk) r s x x' /\ repeated (B32Ops lm pw jk) r s y y' /\ oneBatchR (B32Ops lm pw jk) t r (mrows x) /\
  (biasFin lm pw jk) (fit (B32Ops lm pw jk) (absFloat (B32Ops lm pw jk)) Rd h n t) = Some true /\ (biasFin lm pw jk) (fit (B32Ops lm pw jk) (absFloat (B32Ops lm pw jk)) Rd h n (withData t (x', y'))) = Some false.
Proof. exact single_repeat. Qed.
Print Assumptions C106_single_precision_refuted.

