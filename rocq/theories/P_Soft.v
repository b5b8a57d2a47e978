(* P_Soft.v - property theorems about Softmax and the cross-entropies in single precision (C93) *)
From Coq Require Import List Arith ZArith Reals Lra Lia Bool.
From Flocq Require Import Core IEEE754.BinarySingleNaN.
From Verif Require Import Base Scalar Mat SpecMat B32Int Act Loss LayMat Layer SpecRound SpecNaN B32Kit NaNAct SpecSoft SoftProofs1 SoftProofs2 SoftProofs3 B32OfR.
Import ListNotations.
Local Open Scope R_scope.

(** C93.  [prob y]: a finite float in [0,1]; [softmaxR]: the exact softmax; u32 = 2^-24, eta32 = 2^-150; [expUnit], [expClose eps], [logUnit]:
    what is asked of expf (range, accuracy) and logf; [truthFor k n c T]: T is a truth matrix for the cross-entropy k. *)
Theorem C93_softmax : forall (lm : libm -> b32 -> b32) (pw : b32 -> b32 -> b32) (jk : b32), forall r l n k X out, expUnit lm -> lk l = KSoftmax -> (0 < k)%nat -> (forall i j, (i < n)%nat -> (j < k)%nat -> fin (X i j)) ->
  exists Y, layForward (B32Ops lm pw jk) r l (mgen n k X) out = Ok (l, mgen n k Y) /\ forall i, (i < n)%nat ->
    (forall j, (j < k)%nat -> prob (Y i j)) /\
    (forall m j, (m < k)%nat -> (j < k)%nat -> (forall c, (c < k)%nat -> val (X i c) <= val (X i m)) -> val (Y i j) <= val (Y i m)) /\
    (2 * INR k * u32 <= 1 ->
      Rabs (rsum k (fun j => val (Y i j)) - 1) <= 2 * INR (k + 1) * u32 + INR k * eta32 /\
      forall eps, expClose lm eps -> forall j, (j < k)%nat -> Rabs (val (Y i j) - softmaxR k (fun c => val (X i c)) j) <= INR (2 * k + 1) * (eps + 2 * u32) + eta32).
Proof. exact softmax_forward. Qed.
Print Assumptions C93_softmax.

Theorem C93_softmin : forall (lm : libm -> b32 -> b32) (pw : b32 -> b32 -> b32) (jk : b32), forall r l n k X out, expUnit lm -> lk l = KSoftmin -> (0 < k)%nat -> (forall i j, (i < n)%nat -> (j < k)%nat -> fin (X i j)) ->
  exists Y, layForward (B32Ops lm pw jk) r l (mgen n k X) out = Ok (l, mgen n k Y) /\ forall i, (i < n)%nat ->
    (forall j, (j < k)%nat -> prob (Y i j)) /\
    (forall m j, (m < k)%nat -> (j < k)%nat -> (forall c, (c < k)%nat -> val (X i m) <= val (X i c)) -> val (Y i j) <= val (Y i m)) /\
    (2 * INR k * u32 <= 1 ->
      Rabs (rsum k (fun j => val (Y i j)) - 1) <= 2 * INR (k + 1) * u32 + INR k * eta32 /\
      forall eps, expClose lm eps -> forall j, (j < k)%nat -> Rabs (val (Y i j) - softmaxR k (fun c => - val (X i c)) j) <= INR (2 * k + 1) * (eps + 2 * u32) + eta32).
Proof. exact softmin_forward. Qed.
Print Assumptions C93_softmin.

Theorem C93_loss : forall (lm : libm -> b32 -> b32) (pw : b32 -> b32 -> b32) (jk : b32), forall k cabs b n c P T out gin, logUnit lm -> truthFor k n c T -> (forall i j, (i < n)%nat -> (j < c)%nat -> prob (P i j)) -> mwf out -> mwf gin ->
  exists L G, compute (B32Ops lm pw jk) cabs k b (mgen n c P) (mgen n (truthCols k c) T) out = Ok (mgen n 1 L) /\
    compute_gradient (B32Ops lm pw jk) k b (mgen n c P) (mgen n (truthCols k c) T) gin = Ok (mgen n c G) /\
    (forall i, (i < n)%nat -> fin (L i O) /\ 0 <= val (L i O) <= p2 30) /\
    (forall i j, (i < n)%nat -> (j < c)%nat -> fin (G i j) /\ Rabs (val (G i j)) <= p2 27).
Proof. exact ce_finite. Qed.
Print Assumptions C93_loss.

Theorem C93_head : forall (lm : libm -> b32 -> b32) (pw : b32 -> b32 -> b32) (jk : b32), forall k cabs b r l n c X T o1 o2 o3 o4, expUnit lm -> logUnit lm -> lk l = KSoftmax -> lfirst l = false -> (0 < c)%nat ->
  (forall i j, (i < n)%nat -> (j < c)%nat -> fin (X i j)) -> truthFor k n c T -> mwf o2 -> mwf o3 ->
  exists P L G D, layForward (B32Ops lm pw jk) r l (mgen n c X) o1 = Ok (l, mgen n c P) /\
    compute (B32Ops lm pw jk) cabs k b (mgen n c P) (mgen n (truthCols k c) T) o2 = Ok (mgen n 1 L) /\
    compute_gradient (B32Ops lm pw jk) k b (mgen n c P) (mgen n (truthCols k c) T) o3 = Ok (mgen n c G) /\
    layBackward (B32Ops lm pw jk) l (mgen n c X) (mgen n c G) o4 = Ok (l, mgen n c D) /\
    (forall i, (i < n)%nat -> fin (L i O) /\ 0 <= val (L i O) <= p2 30) /\
    (forall i j, (i < n)%nat -> (j < c)%nat -> fin (D i j) /\ Rabs (val (D i j)) <= p2 27).
Proof. exact head_finite. Qed.
Print Assumptions C93_head.

(* correctly rounded expf and logf meet the hypotheses *)
Example C93_case : expUnit roundLm /\ expClose roundLm (u32 + eta32) /\ logUnit roundLm /\ 2 * INR 10 * u32 <= 1 /\ fin (b32_of_Z (-200)) /\
  truthFor LCategoricalCrossEntropy 1 2 (fun _ j => b32_of_Z (if (j =? 0)%nat then 1 else 0)) /\
  truthFor LSparseCategoricalCrossEntropy 1 3 (fun _ _ => b32_of_Z 2).
Proof.
  split; [exact round_unit|]. split; [exact round_close|]. split; [exact round_log|]. split; [unfold u32; simpl; lra|]. split; [reflexivity|]. split.
  - intros i j Hi Hj. destruct j as [|[|j]]; [| |lia]; cbn [Nat.eqb]; split; try reflexivity; [rewrite (proj2 (ofZ_val 1 ltac:(lia))) | rewrite (proj2 (ofZ_val 0 ltac:(lia)))]; lra.
  - intros i Hi. exists 2%nat. split; [lia|]. reflexivity.
Qed.
