(* P_PoolF.v - property theorems about max pooling in single precision (C107) *)
From Coq Require Import List Arith Bool ZArith Reals Lia.
From Flocq Require Import IEEE754.BinarySingleNaN.
From Verif Require Import Base Scalar Mat SpecMat LayMat LayImg LayTens SpecNaN SpecPool PoolF1 PoolF2 PoolF3.
Import ListNotations.
Local Open Scope nat_scope.

(** C107.  Global max pooling and max pooling on floats, NaN and infinities included: which cell is taken, and where the gradient goes. *)
Theorem C107_forward : forall (lm : libm -> b32 -> b32) (pw : b32 -> b32 -> b32) (jk : b32), forall nS nH nR nC t mx out train, mwf mx -> mwf out ->
  exists mx' Y, fwdGlobalMaxPool (B32Ops lm pw jk) nR nC nH train mx (tens nS nH nR nC t) out = Ok (mx', mgen nS nH Y) /\
  forall s h, s < nS -> h < nH -> pooled (cellsOf (t s h) nC) (nR * nC) (Y s h).
Proof. exact globalmax_forward_F. Qed.
Print Assumptions C107_forward.

Theorem C107_gradient : forall (lm : libm -> b32 -> b32) (pw : b32 -> b32 -> b32) (jk : b32), forall nS nH nR nC t mx out G gin, mwf mx -> mwf out -> mwf gin ->
  (Z.of_nat (nH * nR * nC) <= 2 ^ 24 + 1)%Z ->
  (forall s h, s < nS -> h < nH -> exists p, topCell (cellsOf (t s h) nC) (nR * nC) p) ->
  exists mx' p, (forall s h, s < nS -> h < nH -> topCell (cellsOf (t s h) nC) (nR * nC) (p s h)) /\
  fwdGlobalMaxPool (B32Ops lm pw jk) nR nC nH true mx (tens nS nH nR nC t) out = Ok (mx', mgen nS nH (fun s h => cellsOf (t s h) nC (p s h))) /\
  bwdGlobalMaxPool (B32Ops lm pw jk) nR nC nH false mx' (mgen nS nH G) gin = Ok (tens nS nH nR nC (fun s h r c => if (r * nC + c =? p s h) then G s h else f0 (B32Ops lm pw jk))).
Proof. exact globalmax_train_F. Qed.
Print Assumptions C107_gradient.

(* the cell is determined *)
Theorem C107_unique : forall f n p q, topCell f n p -> topCell f n q -> p = q.
Proof. exact topCell_uniq. Qed.
Print Assumptions C107_unique.

Theorem C107_case : forall (lm : libm -> b32 -> b32) (pw : b32 -> b32 -> b32) (jk : b32), forall g, exists mx',
  fwdGlobalMaxPool (B32Ops lm pw jk) 2 2 1 true (mempty (B32Ops lm pw jk)) (tens 1 1 2 2 (fun _ _ => nanImg)) (mempty (B32Ops lm pw jk)) = Ok (mx', mgen 1 1 (fun _ _ => b32_of_Z 3)) /\
  bwdGlobalMaxPool (B32Ops lm pw jk) 2 2 1 false mx' (mgen 1 1 (fun _ _ => g)) (mempty (B32Ops lm pw jk)) = Ok (tens 1 1 2 2 (fun _ _ r c => if r * 2 + c =? 2 then g else f0 (B32Ops lm pw jk))).
Proof. exact nanImg_run. Qed.
Print Assumptions C107_case.

(* a plane of NaN, or of cells at most -1e38: the backward pass writes outside *)
Theorem C107_nothing_above : forall (lm : libm -> b32 -> b32) (pw : b32 -> b32 -> b32) (jk : b32), forall nS nH nR nC t mx out G gin s0 h0, mwf mx -> mwf out -> mwf gin ->
  (Z.of_nat (nH * nR * nC) <= 2 ^ 24 + 1)%Z -> s0 < nS -> h0 < nH -> noTop (cellsOf (t s0 h0) nC) (nR * nC) ->
  exists mx' Y, fwdGlobalMaxPool (B32Ops lm pw jk) nR nC nH true mx (tens nS nH nR nC t) out = Ok (mx', mgen nS nH Y) /\ Y s0 h0 = floor38 /\
  bwdGlobalMaxPool (B32Ops lm pw jk) nR nC nH false mx' (mgen nS nH G) gin = Err EOob.
Proof. exact globalmax_train_notop. Qed.
Print Assumptions C107_nothing_above.

Theorem C107_nan_case : forall (lm : libm -> b32 -> b32) (pw : b32 -> b32 -> b32) (jk : b32), forall g, exists mx' Y,
  fwdGlobalMaxPool (B32Ops lm pw jk) 2 2 1 true (mempty (B32Ops lm pw jk)) (tens 1 1 2 2 (fun _ _ _ _ => B754_nan)) (mempty (B32Ops lm pw jk)) = Ok (mx', mgen 1 1 Y) /\ Y 0 0 = floor38 /\
  bwdGlobalMaxPool (B32Ops lm pw jk) 2 2 1 false mx' (mgen 1 1 (fun _ _ => g)) (mempty (B32Ops lm pw jk)) = Err EOob.
Proof. exact nanPlane_run. Qed.
Print Assumptions C107_nan_case.

(* with 2^24+2 cells the gradient may reach the wrong one *)
Theorem C107_wide_refuted : forall (lm : libm -> b32 -> b32) (pw : b32 -> b32 -> b32) (jk : b32), exists nC k (t : nat -> nat -> nat -> nat -> b32) mx', k < nC /\ topCell (cellsOf (t 0 0) nC) (1 * nC) k /\
  fwdGlobalMaxPool (B32Ops lm pw jk) 1 nC 1 true (mempty (B32Ops lm pw jk)) (tens 1 1 1 nC t) (mempty (B32Ops lm pw jk)) = Ok (mx', mgen 1 1 (fun _ _ => f1 (B32Ops lm pw jk))) /\
  bwdGlobalMaxPool (B32Ops lm pw jk) 1 nC 1 false mx' (mgen 1 1 (fun _ _ => f1 (B32Ops lm pw jk))) (mempty (B32Ops lm pw jk)) = Ok (tens 1 1 1 nC (fun _ _ _ c => if c =? k - 1 then f1 (B32Ops lm pw jk) else f0 (B32Ops lm pw jk))) /\
  Z.of_nat nC = (2 ^ 24 + 2)%Z.
Proof. exact globalmax_far. Qed.
Print Assumptions C107_wide_refuted.

Theorem C107_max_pool : forall (lm : libm -> b32 -> b32) (pw : b32 -> b32 -> b32) (jk : b32), forall nS nH nR nC fr fc t mx out, mwf out ->
  exists Y, fwdMaxPool (B32Ops lm pw jk) (mkPool nR nC nH fr fc) false mx (tens nS nH nR nC t) out = Ok (mx, tens nS nH (nR / fr) (nC / fc) Y) /\
  forall s h r c, pooled (cellsOf (fun a b => t s h (r * fr + a) (c * fc + b)) fc) (fr * fc) (Y s h r c).
Proof. exact maxpool_forward_F. Qed.
Print Assumptions C107_max_pool.

