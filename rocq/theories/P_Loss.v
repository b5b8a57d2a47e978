(* P_Loss.v - property theorems about the loss functions (C38, C39, C40) *)
From Coq Require Import Reals Lra Lia Arith List Bool ZArith QArith.
From Coquelicot Require Import Coquelicot.
From Verif Require Import Base Scalar Mat SpecMat SpecReal Loss SpecLoss LossProofs LossProofs2.
Import ListNotations.
Local Open Scope R_scope.

(** C38.  What compute reports (one row, one entry per output; the floating overload of ::abs). *)
Theorem C38_regression_values : forall jk k n c P T out, isRegression k ->
  compute (ROps jk) (absFloat (ROps jk)) k (noBalance (ROps jk)) (mgen n c P) (mgen n c T) out =
  Ok (mgen 1 c (fun _ j => lossColumn k n P T j)).
Proof. exact reg_compute. Qed.
Print Assumptions C38_regression_values.

(* the gradient is the vector of partial derivatives of the total loss, up to one positive constant of the shape;
   the absolute losses are excluded where they have no derivative ... *)
Theorem C38_regression_gradient : forall k n c, isRegression k -> (0 < n)%nat -> (0 < c)%nat ->
  exists kappa, 0 < kappa /\ forall jk out out' (P T : nat -> nat -> R), exists G : nat -> nat -> R,
  compute_gradient (ROps jk) k (noBalance (ROps jk)) (mgen n c P) (mgen n c T) out = Ok (mgen n c G) /\
  forall i j, (i < n)%nat -> (j < c)%nat -> (k = LMeanAbsoluteError \/ k = LL1 -> P i j <> T i j) ->
  isPartial (fun Q => totalLoss jk (absFloat (ROps jk)) k (mgen n c Q) (mgen n c T) out') P i j (kappa * G i j).
Proof. exact reg_gradient. Qed.
Print Assumptions C38_regression_gradient.

(* ... and there the returned value is a subgradient *)
Theorem C38_absolute_subgradient : forall k n c, k = LMeanAbsoluteError \/ k = LL1 -> (0 < n)%nat -> (0 < c)%nat ->
  exists kappa, 0 < kappa /\ forall jk out out' (P T : nat -> nat -> R), exists G : nat -> nat -> R,
  compute_gradient (ROps jk) k (noBalance (ROps jk)) (mgen n c P) (mgen n c T) out = Ok (mgen n c G) /\
  forall i j y, (i < n)%nat -> (j < c)%nat ->
  let L (Q : nat -> nat -> R) := totalLoss jk (absFloat (ROps jk)) k (mgen n c Q) (mgen n c T) out' in
  L (upd2 P i j y) >= L P + kappa * G i j * (y - P i j).
Proof. exact abs_subgradient. Qed.
Print Assumptions C38_absolute_subgradient.

(* inside the clamping interval *)
Theorem C38_binary_cross_entropy_gradient : forall jk n (P T : nat -> nat -> R) out out', mwf out -> mwf out' -> exists G : nat -> nat -> R,
  compute_gradient (ROps jk) LBinaryCrossEntropy (noBalance (ROps jk)) (mgen n 1 P) (mgen n 1 T) out = Ok (mgen n 1 G) /\
  forall i, (i < n)%nat -> 1 / 100000000 < P i O < 1 - 1 / 100000000 ->
  isPartial (fun Q => totalLoss jk (absFloat (ROps jk)) LBinaryCrossEntropy (mgen n 1 Q) (mgen n 1 T) out') P i 0 (G i O).
Proof. exact bce_gradient. Qed.
Print Assumptions C38_binary_cross_entropy_gradient.

(* categorical cross-entropy: false - the loss does not depend on the probability of a wrong class, the gradient does *)
Theorem C38_categorical_gradient_refuted : exists n c (P T : nat -> nat -> R) i j G,
  (i < n)%nat /\ (j < c)%nat /\ (forall a b, (a < n)%nat -> (b < c)%nat -> P a b = 1 / 2 /\ T a b = oneHot (fun _ => O) a b) /\
  (forall jk, compute_gradient (ROps jk) LCategoricalCrossEntropy (noBalance (ROps jk)) (mgen n c P) (mgen n c T) (mempty (ROps jk)) = Ok (mgen n c G)) /\
  forall kappa jk, 0 < kappa ->
  ~ isPartial (fun Q => totalLoss jk (absFloat (ROps jk)) LCategoricalCrossEntropy (mgen n c Q) (mgen n c T) (mempty (ROps jk))) P i j (kappa * G i j).
Proof. exact cce_refuted. Qed.
Print Assumptions C38_categorical_gradient_refuted.

(* what is returned instead: the derivative of the binary cross-entropy summed over all classes *)
Theorem C38_categorical_gradient_actual_partial : forall jk n c (P T : nat -> nat -> R) out, mwf out -> exists G : nat -> nat -> R,
  compute_gradient (ROps jk) LCategoricalCrossEntropy (noBalance (ROps jk)) (mgen n c P) (mgen n c T) out = Ok (mgen n c G) /\
  forall i j, (i < n)%nat -> (j < c)%nat -> 1 / 100000000 < P i j < 1 - 1 / 100000000 ->
  isPartial (fun Q => rsum n (fun i => rsum c (fun j => binaryCE (Q i j) (T i j)))) P i j (G i j).
Proof. exact cce_gradient_actual. Qed.
Print Assumptions C38_categorical_gradient_actual_partial.

Theorem C38_sparse_gradient_is_one_hot_gradient : forall jk n c (P : nat -> nat -> R) cls out out', mwf out' ->
  compute_gradient (ROps jk) LSparseCategoricalCrossEntropy (noBalance (ROps jk)) (mgen n c P) (mgen n 1 (fun i _ => INR (cls i))) out =
  compute_gradient (ROps jk) LCategoricalCrossEntropy (noBalance (ROps jk)) (mgen n c P) (mgen n c (oneHot cls)) out'.
Proof. exact scce_gradient_actual. Qed.
Print Assumptions C38_sparse_gradient_is_one_hot_gradient.

Theorem C38_sparse_loss_is_one_hot_loss : forall jk n c (P : nat -> nat -> R) cls out out' b b', mwf out -> mwf out' -> (forall i, (i < n)%nat -> (cls i < c)%nat) ->
  compute (ROps jk) (absFloat (ROps jk)) LSparseCategoricalCrossEntropy b (mgen n c P) (mgen n 1 (fun i _ => INR (cls i))) out =
  compute (ROps jk) (absFloat (ROps jk)) LCategoricalCrossEntropy b' (mgen n c P) (mgen n c (oneHot cls)) out'.
Proof. exact sparse_is_onehot. Qed.
Print Assumptions C38_sparse_loss_is_one_hot_loss.

Example C38_example : isRegression LHuber /\ (0 < 2)%nat /\
  compute_gradient QOps LHuber (noBalance QOps) (mkMat 1 2 [3; 1]%Q) (mkMat 1 2 [1; 1#2]%Q) (mempty QOps) = Ok (mkMat 1 2 [1; 1#2]%Q) /\
  1 / 100000000 < 1 / 2 < 1 - 1 / 100000000 /\ mwf (mempty QOps).
Proof. split; [exact I|]. split; [lia|]. split; [vm_compute; reflexivity|]. split; [lra | reflexivity]. Qed.

(** C39 *)
Theorem C39_regression_nonneg_and_zero_iff_equal : forall jk k n c (P T : nat -> nat -> R) out, isRegression k -> (0 < n)%nat -> exists l : nat -> R,
  compute (ROps jk) (absFloat (ROps jk)) k (noBalance (ROps jk)) (mgen n c P) (mgen n c T) out = Ok (mgen 1 c (fun _ => l)) /\
  forall j, (j < c)%nat -> 0 <= l j /\ (l j = 0 <-> forall i, (i < n)%nat -> P i j = T i j).
Proof. exact reg_nonneg. Qed.
Print Assumptions C39_regression_nonneg_and_zero_iff_equal.

Theorem C39_cross_entropies_nonneg : forall jk n c (P T : nat -> nat -> R) cls out b, mwf out ->
  (forall i j, (i < n)%nat -> (j < c)%nat -> 0 <= P i j <= 1 /\ 0 <= T i j <= 1) -> (forall i, (i < n)%nat -> (cls i < c)%nat) ->
  (exists l : nat -> R, compute (ROps jk) (absFloat (ROps jk)) LCategoricalCrossEntropy b (mgen n c P) (mgen n c T) out = Ok (mgen n 1 (fun i _ => l i))
     /\ forall i, (i < n)%nat -> 0 <= l i) /\
  (exists l : nat -> R, compute (ROps jk) (absFloat (ROps jk)) LSparseCategoricalCrossEntropy b (mgen n c P) (mgen n 1 (fun i _ => INR (cls i))) out = Ok (mgen n 1 (fun i _ => l i))
     /\ forall i, (i < n)%nat -> 0 <= l i) /\
  (c = 1%nat -> exists l : nat -> R, compute (ROps jk) (absFloat (ROps jk)) LBinaryCrossEntropy b (mgen n c P) (mgen n c T) out = Ok (mgen n 1 (fun i _ => l i))
     /\ forall i, (i < n)%nat -> 0 <= l i).
Proof. exact ce_losses_nonneg. Qed.
Print Assumptions C39_cross_entropies_nonneg.

(* if the integer overload of ::abs is selected (see Loss.v), an error of one half counts as zero *)
Theorem C39_integer_abs_overload_refuted : exists P T : Q, ~ P == T /\
  compute QOps (absInt QOps) LMeanAbsoluteError (noBalance QOps) (mkMat 1 1 [P]) (mkMat 1 1 [T]) (mempty QOps) = Ok (mkMat 1 1 [0%Q]).
Proof. exact int_abs_refuted. Qed.
Print Assumptions C39_integer_abs_overload_refuted.

Example C39_example : isRegression LMeanAbsoluteError /\
  compute QOps (absFloat QOps) LMeanAbsoluteError (noBalance QOps) (mkMat 2 1 [1#2; 3]%Q) (mkMat 2 1 [0; 0]%Q) (mempty QOps) = Ok (mkMat 1 1 [7#4]%Q).
Proof. split; [exact I | vm_compute; reflexivity]. Qed.

(** C40 *)
Theorem C40_balanced_gradient : forall jk k n (P : nat -> nat -> R) cls nw (w : nat -> nat -> R) out, isRegression k -> (0 < nw)%nat ->
  (forall i, (i < n)%nat -> (cls i < nw)%nat) -> exists G : nat -> nat -> R,
  compute_gradient (ROps jk) k (noBalance (ROps jk)) (mgen n 1 P) (mgen n 1 (fun i _ => INR (cls i))) out = Ok (mgen n 1 G) /\
  compute_gradient (ROps jk) k (set_class_balancing (ROps jk) (mgen nw 1 w)) (mgen n 1 P) (mgen n 1 (fun i _ => INR (cls i))) out =
  Ok (mgen n 1 (fun i j => G i j * w (cls i) O)).
Proof. exact balanced_gradient. Qed.
Print Assumptions C40_balanced_gradient.

(* the reported loss is false: it is scaled by the weight of the first sample's class *)
Theorem C40_balanced_loss_refuted : exists P T w : mat Q,
  compute QOps (absFloat QOps) LL2 (set_class_balancing QOps w) P T (mempty QOps) = Ok (mkMat 1 1 [4%Q]) /\
  mdata P = [0; 3]%Q /\ mdata T = [0; 1]%Q /\ mdata w = [1; 3]%Q /\ (1 * (0 - 0) ^ 2 + 3 * (3 - 1) ^ 2 == 12)%Q.
Proof. exact balanced_loss_refuted. Qed.
Print Assumptions C40_balanced_loss_refuted.

Theorem C40_balanced_loss_actual_partial : forall jk k n (P : nat -> nat -> R) cls nw (w : nat -> nat -> R) out, isRegression k -> (0 < nw)%nat -> (0 < n)%nat ->
  (forall i, (i < n)%nat -> (cls i < nw)%nat) ->
  compute (ROps jk) (absFloat (ROps jk)) k (set_class_balancing (ROps jk) (mgen nw 1 w)) (mgen n 1 P) (mgen n 1 (fun i _ => INR (cls i))) out =
  Ok (mgen 1 1 (fun _ j => lossColumn k n P (fun i _ => INR (cls i)) j * w (cls O) O)).
Proof. exact balanced_loss_actual. Qed.
Print Assumptions C40_balanced_loss_actual_partial.

Example C40_example :
  compute_gradient QOps LL2 (set_class_balancing QOps (mkMat 2 1 [1; 3]%Q)) (mkMat 2 1 [1; 3]%Q) (mkMat 2 1 [0; 1]%Q) (mempty QOps) = Ok (mkMat 2 1 [1; 6]%Q).
Proof. vm_compute. reflexivity. Qed.
