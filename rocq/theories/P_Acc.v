(* P_Acc.v - property theorems about the accuracy in percent in single precision (C97) *)
From Coq Require Import String List Arith Bool ZArith Reals Lra Lia.
From Flocq Require Import Core IEEE754.BinarySingleNaN.
From Verif Require Import Base Scalar Mat SpecMat SpecData Loss Optim LayMat Layer Net NetTrain SpecNet SpecTrain SpecFit SpecRound LibmRound FitNet3 TrainFin4 SpecAcc AccProofs1 AccProofs2 AccProofs3.
Import ListNotations.
Local Open Scope R_scope.

(** C97.  Single precision; [percent g N] is the exact percentage, [maxExact] = 671088 samples, [correct] says whether a
    prediction is counted as right, [evaluated g N a]: compute_loss_accuracy reports a for a network of one Relu layer on
    N samples of which the first g are classified rightly and the others wrongly (see C97_case). *)
Theorem C97_accuracy : forall (lm : libm -> b32 -> b32) (pw : b32 -> b32 -> b32) (jk : b32), (forall cabs rs h n t k m N q x y h' l a, detNet (B32Ops lm pw jk) h n k m -> (0 < N <= maxExact)%nat -> lossAccuracy (B32Ops lm pw jk) cabs rs h n t (mgen N k x) (mgen N q y) = Ok (h', l, a) ->
  exists Y : nat -> nat -> (B32Ops lm pw jk),
    (forall i rs' out, (i < N)%nat -> mwf out -> exists h1, predict (B32Ops lm pw jk) rs' h n (mgen 1 k (fun _ => x i)) out = Ok (h1, mgen 1 m (fun _ => Y i))) /\
    let right i := correct (B32Ops lm pw jk) m q (Y i) (y i) in
    fin a /\ 0 <= val a <= 100 /\ Rabs (val a - percent (count N right) N) <= / 160000 /\
    (val a = 100 <-> forall i, (i < N)%nat -> right i = true) /\ (val a = 0 <-> forall i, (i < N)%nat -> right i = false))%R.
Proof. exact eval_exact. Qed.
Print Assumptions C97_accuracy.

Theorem C97_comparison : forall (lm : libm -> b32 -> b32) (pw : b32 -> b32 -> b32) (jk : b32), (forall cabs rs1 rs2 h1 h2 n1 n2 t1 t2 k1 k2 m1 m2 N q1 q2 x1 x2 y1 y2 h1' h2' l1 l2 a1 a2, detNet (B32Ops lm pw jk) h1 n1 k1 m1 -> detNet (B32Ops lm pw jk) h2 n2 k2 m2 -> (0 < N <= maxExact)%nat ->
  lossAccuracy (B32Ops lm pw jk) cabs rs1 h1 n1 t1 (mgen N k1 x1) (mgen N q1 y1) = Ok (h1', l1, a1) -> lossAccuracy (B32Ops lm pw jk) cabs rs2 h2 n2 t2 (mgen N k2 x2) (mgen N q2 y2) = Ok (h2', l2, a2) ->
  exists Y1 Y2 : nat -> nat -> (B32Ops lm pw jk),
    (forall i rs' out, (i < N)%nat -> mwf out -> exists h, predict (B32Ops lm pw jk) rs' h1 n1 (mgen 1 k1 (fun _ => x1 i)) out = Ok (h, mgen 1 m1 (fun _ => Y1 i))) /\
    (forall i rs' out, (i < N)%nat -> mwf out -> exists h, predict (B32Ops lm pw jk) rs' h2 n2 (mgen 1 k2 (fun _ => x2 i)) out = Ok (h, mgen 1 m2 (fun _ => Y2 i))) /\
    (flt (B32Ops lm pw jk) a1 a2 = true <-> (count N (fun i => correct (B32Ops lm pw jk) m1 q1 (Y1 i) (y1 i)) < count N (fun i => correct (B32Ops lm pw jk) m2 q2 (Y2 i) (y2 i)))%nat))%R.
Proof. exact eval_order. Qed.
Print Assumptions C97_comparison.

Theorem C97_history : forall (lm : libm -> b32 -> b32) (pw : b32 -> b32 -> b32) (jk : b32), (forall cabs R h n t mS mT h' n' t' calls, fit (B32Ops lm pw jk) cabs R h n t = Ok (h', n', t', calls) -> nlay n <> [] -> ttrain (B32Ops lm pw jk) t = Some (mS, mT) -> (0 < mrows mS <= maxExact)%nat ->
  (forall xv yv, tval (B32Ops lm pw jk) t = Some (xv, yv) -> (mrows xv <= maxExact)%nat) ->
  forall a, In a (hTA (B32Ops lm pw jk) (th (B32Ops lm pw jk) t') ++ hVA (B32Ops lm pw jk) (th (B32Ops lm pw jk) t')) -> fin a /\ 0 <= val a <= 100)%R.
Proof. exact fit_exact. Qed.
Print Assumptions C97_history.

Theorem C97_history_large : forall (lm : libm -> b32 -> b32) (pw : b32 -> b32 -> b32) (jk : b32), (forall cabs R h n t mS mT h' n' t' calls, fit (B32Ops lm pw jk) cabs R h n t = Ok (h', n', t', calls) -> nlay n <> [] -> ttrain (B32Ops lm pw jk) t = Some (mS, mT) -> (0 < mrows mS)%nat -> (Z.of_nat (mrows mS) < 2 ^ 24)%Z ->
  (forall xv yv, tval (B32Ops lm pw jk) t = Some (xv, yv) -> (Z.of_nat (mrows xv) < 2 ^ 24)%Z) ->
  forall a, In a (hTA (B32Ops lm pw jk) (th (B32Ops lm pw jk) t') ++ hVA (B32Ops lm pw jk) (th (B32Ops lm pw jk) t')) -> fin a /\ 0 <= val a <= 100 + / 80000)%R.
Proof. exact fit_near. Qed.
Print Assumptions C97_history_large.

Theorem C97_all_right_refuted : (exists a, evaluated (S maxExact) (S maxExact) a /\ fin a /\ (val a < 100)%R)%R.
Proof. exact below_hundred. Qed.
Print Assumptions C97_all_right_refuted.

Theorem C97_at_most_100_refuted : (exists N a, evaluated N N a /\ fin a /\ (100 < val a)%R)%R.
Proof. exact above_hundred. Qed.
Print Assumptions C97_at_most_100_refuted.

Theorem C97_order_large_refuted : (exists g N a b, (S g <= N)%nat /\ evaluated g N a /\ evaluated (S g) N b /\ flt BF a b = false)%R.
Proof. exact no_progress. Qed.
Print Assumptions C97_order_large_refuted.

Example C97_case : forall (lm : libm -> b32 -> b32) (pw : b32 -> b32 -> b32) (jk : b32) rr g N, (0 < N)%nat -> (g <= N)%nat -> detNet (B32Ops lm pw jk) (accHeap lm pw jk) accNet 2 2 /\
  (forall i rs out, mwf out -> exists h1 (o : nat -> B32Ops lm pw jk), predict (B32Ops lm pw jk) rs (accHeap lm pw jk) accNet (mgen 1 2 (fun _ j => bit (j =? 1)%nat)) out = Ok (h1, mgen 1 2 (fun _ => o)) /\
     correct (B32Ops lm pw jk) 2 2 o (fun j => bit (Bool.eqb (i <? g)%nat (j =? 1)%nat)) = (i <? g)%nat) /\
  exists h' l, lossAccuracy (B32Ops lm pw jk) (absFloat (B32Ops lm pw jk)) rr (accHeap lm pw jk) accNet (accTr lm pw jk) (accX lm pw jk N) (accY lm pw jk g N) = Ok (h', l, pct (B32Ops lm pw jk) g N).
Proof. exact acc_eval. Qed.
Example C97_trained : forall (lm : libm -> b32 -> b32) (pw : b32 -> b32 -> b32) (jk : b32) R, exists h' n' t' calls,
  fit (B32Ops lm pw jk) (absFloat (B32Ops lm pw jk)) R (demoHeap lm pw jk) demoNet (demoTr lm pw jk 3 true) = Ok (h', n', t', calls).
Proof. exact acc_trained. Qed.
