(* P_Fixed.v - property theorems about training a network that already reproduces its data (C104) *)
From Coq Require Import String List Arith Bool ZArith QArith Reals.
From Verif Require Import Base Scalar Mat SpecMat Act Loss Optim LayMat Layer Net NetTrain SpecTrain SpecFit SpecResume SpecFixed Fixed3 Fixed4.
Import ListNotations.
Local Open Scope R_scope.

(** C104.  If the predictions of the network on its training inputs are the training truth, then in exact arithmetic fit changes no parameter and
    every recorded training loss is zero: for the smooth regression losses, every optimiser but Step and AdamW, no regulariser, and layers that have their parameters. *)
Theorem C104_fixed_point : forall (jk : R), forall (R0 : fitRnd (ROps jk)) h n (t : trainer (ROps jk)) k mo N (X Y : nat -> nat -> R) rs out h1,
  trainable h n t k mo -> nlay n <> [] -> allPlain h n -> allSized (ROps jk) h n -> smoothLoss (cLoss (ROps jk) (tc (ROps jk) t)) -> cReg (ROps jk) (tc (ROps jk) t) = None -> (forall kd, create_optimizer (cOpt (ROps jk) (tc (ROps jk) t)) = Some kd -> rests kd) ->
  ttrain (ROps jk) t = Some (@mgen R N k X, @mgen R N mo Y) -> (0 < N)%nat -> mwf out -> predict (ROps jk) rs h n (@mgen R N k X) out = Ok (h1, @mgen R N mo Y) ->
  exists h' n' t' calls, fit (ROps jk) (absFloat (ROps jk)) R0 h n t = Ok (h', n', t', calls) /\ copyOf (ROps jk) h (nlay n) h' (nlay n') /\ forall x, In x (hTL (ROps jk) (th (ROps jk) t')) -> x = 0.
Proof. exact fixed_point. Qed.
Print Assumptions C104_fixed_point.

Local Open Scope nat_scope.
Theorem C104_case : forall jk (R0 : fitRnd (ROps jk)) a opt kd kp b e lr lo N, create_optimizer opt = Some kd -> rests kd -> smoothLoss lo -> 0 < N ->
  exists h' n' t' calls, fit (ROps jk) (absFloat (ROps jk)) R0 (fxHeap (ROps jk) a) fxNet (fxTr (ROps jk) opt kp b e lr lo N (fxRow (ROps jk) a)) = Ok (h', n', t', calls) /\
  copyOf (ROps jk) (fxHeap (ROps jk) a) [0; 1] h' (nlay n') /\ forall x, In x (hTL (ROps jk) (th (ROps jk) t')) -> x = 0%R.
Proof. exact fixed_case. Qed.
Print Assumptions C104_case.

Theorem C104_run_case : forall opt, In opt ["SGD"; "Momentum"; "RMSProp"; "RPROP-"; "iRPROP-"]%string ->
  around (fxHeap QOps ARelu) fxNet (fxTr QOps opt true 2 3 (1 # 10)%Q LMeanSquaredError 5 (fxRow QOps ARelu)) = Some ([Some ([2], [1]); Some ([], [])], [Some ([2], [1]); Some ([], [])], [0; 0; 0])%Q.
Proof. exact still_case. Qed.
Print Assumptions C104_run_case.

(* none of the conditions can be dropped *)
Theorem C104_adamw_refuted : exists h n t k m, trainable h n t k m /\ nlay n <> [] /\ allPlain h n /\ allSized QOps h n /\ smoothLoss (cLoss QOps (tc QOps t)) /\ cReg QOps (tc QOps t) = None /\
  create_optimizer (cOpt QOps (tc QOps t)) = Some OAdamW /\ reproduces h n t /\ movesAway h n t.
Proof. exact adamw_refuted. Qed.
Print Assumptions C104_adamw_refuted.

Theorem C104_step_refuted : exists h n t k m, trainable h n t k m /\ nlay n <> [] /\ allPlain h n /\ allSized QOps h n /\ smoothLoss (cLoss QOps (tc QOps t)) /\ cReg QOps (tc QOps t) = None /\
  create_optimizer (cOpt QOps (tc QOps t)) = Some OStep /\ reproduces h n t /\ movesAway h n t.
Proof. exact step_refuted. Qed.
Print Assumptions C104_step_refuted.

Theorem C104_absolute_loss_refuted : forall lo, lo = LMeanAbsoluteError \/ lo = LL1 -> exists h n t k m, trainable h n t k m /\ nlay n <> [] /\ allPlain h n /\ allSized QOps h n /\ cLoss QOps (tc QOps t) = lo /\ cReg QOps (tc QOps t) = None /\
  create_optimizer (cOpt QOps (tc QOps t)) = Some OSGD /\ reproduces h n t /\ movesAway h n t.
Proof. exact absolute_refuted. Qed.
Print Assumptions C104_absolute_loss_refuted.

Theorem C104_learned_activation_refuted : forall kd, kd = KPELU \/ kd = KTERELU -> exists h n t k m, trainable h n t k m /\ (exists l, nlay n = [0] /\ hget QOps h 0 = Ok l /\ lk l = kd) /\ allSized QOps h n /\ smoothLoss (cLoss QOps (tc QOps t)) /\ cReg QOps (tc QOps t) = None /\
  create_optimizer (cOpt QOps (tc QOps t)) = Some OSGD /\ reproduces h n t /\ movesAway h n t.
Proof. exact learned_refuted. Qed.
Print Assumptions C104_learned_activation_refuted.

