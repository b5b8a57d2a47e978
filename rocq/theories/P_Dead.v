(* P_Dead.v - property theorems about units that no training sample makes react (C109) *)
From Coq Require Import String List Arith Bool ZArith QArith Reals.
From Verif Require Import Base Scalar Mat SpecMat Act Loss Optim Regul LayMat Layer Net NetTrain SpecTrain SpecFit SpecResume SpecFixed SpecZero SpecDead NetProofs4 Fixed4 Dead1 Dead2.
Import ListNotations.
Local Open Scope nat_scope.

(** C109.  A unit of a first Dense layer whose activation is flat at its value on every training sample keeps its weights and its bias through fit,
    in exact arithmetic, whatever the rest of the network learns. *)
Theorem C109_unit_kept : forall (jk : R) (u : nat), forall (R0 : fitRnd (ROps jk)) h n (t : trainer (ROps jk)) k mo N q (X W B : nat -> nat -> R) y a b0 b1 rest l0 l1,
  trainable h n t k mo -> allPassive h n -> allSized (ROps jk) h n -> ttrain (ROps jk) t = Some (@mgen R N k X, y) -> 0 < N -> cReg (ROps jk) (tc (ROps jk) t) = None ->
  (forall kd, create_optimizer (cOpt (ROps jk) (tc (ROps jk) t)) = Some kd -> rests kd) ->
  nlay n = b0 :: b1 :: rest -> hget (ROps jk) h b0 = Ok l0 -> lk l0 = KDense k q -> lw l0 = @mgen R k q W -> lb l0 = @mgen R 1 q B ->
  hget (ROps jk) h b1 = Ok l1 -> lk l1 = KAct (Some a) -> u < q -> flatUnit jk a k N X (fun p => W p u) (B 0 u) ->
  exists h' n' t' calls b l W' B', fit (ROps jk) (absFloat (ROps jk)) R0 h n t = Ok (h', n', t', calls) /\ nth_error (nlay n') 0 = Some b /\ hget (ROps jk) h' b = Ok l /\
  lk l = KDense k q /\ lw l = @mgen R k q W' /\ lb l = @mgen R 1 q B' /\ (forall p, p < k -> W' p u = W p u) /\ B' 0 u = B 0 u.
Proof. exact unit_kept. Qed.
Print Assumptions C109_unit_kept.

(* for Relu: a unit that is inactive on all the training data stays inactive on them *)
Theorem C109_relu_stays_dead : forall jk u (R0 : fitRnd (ROps jk)) h n (t : trainer (ROps jk)) k mo N q (X W B : nat -> nat -> R) y b0 b1 rest l0 l1,
  trainable h n t k mo -> allPassive h n -> allSized (ROps jk) h n -> ttrain (ROps jk) t = Some (@mgen R N k X, y) -> 0 < N -> cReg (ROps jk) (tc (ROps jk) t) = None ->
  (forall kd, create_optimizer (cOpt (ROps jk) (tc (ROps jk) t)) = Some kd -> rests kd) ->
  nlay n = b0 :: b1 :: rest -> hget (ROps jk) h b0 = Ok l0 -> lk l0 = KDense k q -> lw l0 = @mgen R k q W -> lb l0 = @mgen R 1 q B ->
  hget (ROps jk) h b1 = Ok l1 -> lk l1 = KAct (Some ARelu) -> u < q -> deadUnit k N X (fun p => W p u) (B 0 u) ->
  exists h' n' t' calls b l W' B', fit (ROps jk) (absFloat (ROps jk)) R0 h n t = Ok (h', n', t', calls) /\ nth_error (nlay n') 0 = Some b /\ hget (ROps jk) h' b = Ok l /\
  lk l = KDense k q /\ lw l = @mgen R k q W' /\ lb l = @mgen R 1 q B' /\ (forall p, p < k -> W' p u = W p u) /\ B' 0 u = B 0 u /\ deadUnit k N X (fun p => W' p u) (B' 0 u).
Proof. exact dead_stays. Qed.
Print Assumptions C109_relu_stays_dead.

Theorem C109_case : forall jk (R0 : fitRnd (ROps jk)) opt kd lr b e N Y, create_optimizer opt = Some kd -> rests kd -> 0 < N ->
  exists h' n' t' calls b0 l W' B', fit (ROps jk) (absFloat (ROps jk)) R0 (ddHeap (ROps jk) (fxAct (ROps jk) ARelu)) ddNet (ddTr (ROps jk) opt lr b e N None Y) = Ok (h', n', t', calls) /\ nth_error (nlay n') 0 = Some b0 /\ hget (ROps jk) h' b0 = Ok l /\
  lw l = @mgen R 1 2 W' /\ lb l = @mgen R 1 2 B' /\ W' 0 0 = (-1)%R /\ B' 0 0 = 0%R.
Proof. exact dead_case. Qed.
Print Assumptions C109_case.

Theorem C109_run_case : forall opt, In opt ["SGD"; "Momentum"; "RPROP-"; "iRPROP-"; "Nesterov"]%string ->
  match units (ddRun opt None ARelu) with Some (w, b, v, (w', b', v')) => w = w' /\ b = b' /\ v <> v' | None => False end.
Proof. exact dead_run. Qed.
Print Assumptions C109_run_case.

(* penalties, AdamW, Step and leaky activations do move it *)
Theorem C109_moved_refuted : revived "SGD" (Some (mkReg QOps RL2 (1 # 10)%Q)) ARelu /\ revived "AdamW" None ARelu /\ revived "Step" None ARelu /\ revived "SGD" None ALeakyRelu.
Proof. exact moved_refuted. Qed.
Print Assumptions C109_moved_refuted.

(* the first layer matters: a unit of a deeper layer may come back *)
Theorem C109_deeper_refuted : match predict QOps (fun _ => noRnd) dpHeap (mkNet [0; 1; 2; 3] false false) (fxX QOps 1) (mempty QOps) with Ok (_, o) => o = mgen 1 2 (two QOps 0%Q 1%Q) | Err _ => False end /\
  trainable dpHeap dpNet dpTr 1 1 /\ cReg QOps (tc QOps dpTr) = None /\ create_optimizer (cOpt QOps (tc QOps dpTr)) = Some OSGD /\
  match around dpHeap dpNet dpTr with Some ([_; _; Some ([w; _], _); _; _], [_; _; Some ([w'; _], _); _; _], _) => w <> w' | _ => False end.
Proof. exact deeper_refuted. Qed.
Print Assumptions C109_deeper_refuted.

