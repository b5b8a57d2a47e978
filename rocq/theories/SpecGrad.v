(* SpecGrad.v - vocabulary of the whole-network gradient statement *)
From Coq Require Import List Arith Bool Reals.
From Coquelicot Require Import Coquelicot.
From Verif Require Import Base Scalar Mat SpecMat SpecReal Act SpecAct Loss SpecLoss LayMat LayImg Layer Net NetTrain SpecLayer.
Import ListNotations.
Local Open Scope R_scope.

Section Grad.
Variable jk : R.
Notation F := (ROps jk).

Definition sizedAs (m : mat R) (r c : nat) : Prop := mwf m /\ mrows m = r /\ mcols m = c.
Definition cells (n k : nat) (X : nat -> nat -> R) (P : R -> Prop) : Prop := forall i j, (i < n)%nat -> (j < k)%nat -> P (X i j).

(* The layer l, in its present state, is differentiable at the n x k input X, produces n x m, and its backward pass
   returns the exact input gradient up to the constant [inputScale].  Parameters have been sized (first prediction done where they are lazy).
   Left out: Softmax, Softmin, GaussianDropout, RandomFlip and recurrent layers (wrong or failing backward passes),
   max pools. *)
Definition differentiable (l : layer F) (n k m : nat) (X : nat -> nat -> R) : Prop :=
  mwf (lw l) /\ mwf (lb l) /\ mwf (lmem l) /\
  match lk l with
  | KDense _ _ => sizedAs (lw l) k m /\ sizedAs (lb l) 1 m
  | KDot _ _ => sizedAs (lw l) k m
  | KBias => m = k /\ (0 < k)%nat /\ sizedAs (lb l) 1 k
  | KGain => m = k /\ (0 < k)%nat /\ sizedAs (lw l) 1 k
  | KAffine => m = k /\ (0 < k)%nat /\ sizedAs (lw l) 1 k /\ sizedAs (lb l) 1 k
  | KGlobalGain => m = k /\ sizedAs (lw l) 1 1 /\ sizedAs (lgw l) 1 1
  | KGlobalBias => m = k /\ (0 < k)%nat /\ sizedAs (lb l) 1 1 /\ sizedAs (lgb l) 1 1
  | KGlobalAffine => m = k /\ (0 < k)%nat /\ sizedAs (lw l) 1 1 /\ sizedAs (lgw l) 1 1 /\ sizedAs (lb l) 1 1 /\ sizedAs (lgb l) 1 1
  | KChannelBias nR nC nH => m = k /\ k = (nH * nR * nC)%nat /\ (0 < nR)%nat /\ (0 < nC)%nat /\ sizedAs (lb l) 1 nH
  | KAct (Some a) => m = k /\ ~ odd_derivative a /\ cells n k X (fun x => ~ In x (corners a))
  | KGated (Some a1) (Some a2) => k = (2 * m)%nat /\ ~ odd_derivative a1 /\ ~ odd_derivative a2 /\
      cells n m X (fun x => ~ In x (corners a1)) /\ cells n m (fun i j => X i (j + m)%nat) (fun x => ~ In x (corners a2))
  | KCRelu => m = (2 * k)%nat /\ cells n k X (fun x => x <> 0)
  | KPRelu => m = k /\ (0 < k)%nat /\ sizedAs (lw l) 1 k /\ sizedAs (lgw l) 1 k /\ cells n k X (fun x => x <> 0)
  | KRRelu _ _ => m = k /\ ltrain l = true /\ cells n k X (fun x => x <> 0)
  | KPELU => m = k /\ (0 < k)%nat /\ sizedAs (lw l) 2 k /\ sizedAs (lgw l) 2 k /\ cells n k X (fun x => x <> 0) /\
      (forall x, In x (mdata (lw l)) -> 1 / 10 <= x)
  | KTERELU => m = k /\ (0 < k)%nat /\ sizedAs (lw l) 1 k /\ sizedAs (lgw l) 1 k /\ cells n k X (fun x => x <> 0 /\ x <> 1)
  | KDropout rate => m = k /\ (rate = 0 \/ ltrain l = true /\ 0 < rate < 1)
  | KGaussianNoise _ | KUniformNoise _ => m = k
  | KTDBias fs => m = k /\ (0 < fs)%nat /\ (0 < k)%nat /\ k = ((k / fs) * fs)%nat /\ sizedAs (lb l) 1 fs
  | KTDDot fi fo => (0 < fi)%nat /\ (0 < fo)%nat /\ k = ((k / fi) * fi)%nat /\ m = ((k / fi) * fo)%nat /\ sizedAs (lw l) fi fo
  | KTDDense fi fo => (0 < fi)%nat /\ (0 < fo)%nat /\ (0 < k)%nat /\ k = ((k / fi) * fi)%nat /\ m = ((k / fi) * fo)%nat /\
      sizedAs (lw l) fi fo /\ sizedAs (lb l) 1 fo
  | KAvgPool p => k = (pH p * pR p * pC p)%nat /\ m = (pH p * (pR p / pfr p) * (pC p / pfc p))%nat
  | KGlobalAvgPool nR nC nH => k = (nH * nR * nC)%nat /\ m = nH
  | KZeroPad nR nC nH nB => k = (nH * nR * nC)%nat /\ m = (nH * (nR + 2 * nB) * (nC + 2 * nB))%nat
  | KConv v _ => k = (vI v * vR v * vC v)%nat /\ m = (vO v * oR v * oC v)%nat /\ convOk v = Ok tt /\
      (0 < vkr v)%nat /\ (0 < vkc v)%nat /\ (0 < vO v)%nat /\ sizedAs (lw l) (vO v) (vI v * vkr v * vkc v)
  | _ => False
  end.

(* stored weight gradient = (1/s) * partial derivative; None: no such statement (the stored value is another quantity) *)
Definition weightScale (l : layer F) (n k : nat) : option R :=
  match lk l with
  | KDense _ _ | KDot _ _ | KPRelu | KTDDot _ _ | KTDDense _ _ => Some (INR n)
  | KConv _ _ => Some 1
  | _ => None
  end.
Definition biasScale (l : layer F) (n k : nat) : option R :=
  match lk l with
  | KDense _ _ | KBias | KAffine => Some (INR n)
  | KGlobalBias | KGlobalAffine => Some (INR n * INR k)
  | KChannelBias nR nC _ => Some (INR n / (INR nR * INR nC))
  | KTDBias fs | KTDDense fs _ => Some (INR n * INR (k / fs))
  | _ => None
  end.

(* returned input gradient = (1/s) * true input gradient: convolutions divide it by the kernel size times the output channels *)
Definition inputScale (l : layer F) : R := match lk l with KConv v _ => INR (vkr v * vkc v * vO v) | _ => 1 end.
(* product of the scales of the layers at addresses ls *)
Fixpoint scaleProd (h : heap F) (ls : list nat) : R :=
  match ls with [] => 1 | a :: r => match hget F h a with Ok l => inputScale l | Err _ => 1 end * scaleProd h r end.

(* the layers at addresses ls, the first being number [off] of the network and drawing from rs off, take the input X to the
   output Z; ks lists the numbers of columns of the input, of every intermediate result and of the output (n rows each).
   Every layer is differentiable at the input it gets.  Only layer 0 may be marked first. *)
Fixpoint stack (rs : nat -> rnd F) (off : nat) (h : heap F) (ls : list nat) (n : nat) (ks : list nat) (X Z : nat -> nat -> R) : Prop :=
  match ls, ks with
  | [], [k] => forall i j, (i < n)%nat -> (j < k)%nat -> Z i j = X i j
  | a :: r, k :: ((m :: _) as ks') => exists l l' Y, hget F h a = Ok l /\ differentiable l n k m X /\ (off = 0%nat \/ lfirst l = false) /\
      layForward F (rs off) l (mgen n k X) (mempty F) = Ok (l', mgen n m Y) /\ stack rs (S off) h r n ks' Y Z
  | _, _ => False
  end.

(* the same heap with other weights (biases) in the layer at address a *)
Definition withW (h : heap F) (a : nat) (w : mat R) : heap F := match hget F h a with Ok l => upd h a (Some (setW l w)) | Err _ => h end.
Definition withB (h : heap F) (a : nat) (b : mat R) : heap F := match hget F h a with Ok l => upd h a (Some (setB l b)) | Err _ => h end.

(* the loss of a batch: predict with the draws rs, then the loss function, summed *)
Definition batchLoss (rs : nat -> rnd F) (kind : lossKind) (h : heap F) (nt : net) (x y : mat R) : R :=
  match predict F rs h nt x (mempty F) with Ok (_, o) => totalLoss jk (absFloat F) kind o y (mempty F) | Err _ => 0 end.

(* the losses whose gradient is exact up to a constant (C38, C39), away from their corners *)
Definition smoothLoss (kind : lossKind) (n m : nat) (Z T : nat -> nat -> R) : Prop :=
  match kind with
  | LMeanAbsoluteError | LL1 => forall i j, (i < n)%nat -> (j < m)%nat -> Z i j <> T i j
  | LBinaryCrossEntropy => m = 1%nat /\ forall i, (i < n)%nat -> 1 / 100000000 < Z i 0%nat < 1 - 1 / 100000000
  | LCategoricalCrossEntropy | LSparseCategoricalCrossEntropy => False
  | _ => True
  end.

(* the buffers of the trainer have been set up for the network; loss [kind]; no class balancing *)
Definition readyTrainer (t : trainer F) (nt : net) (kind : lossKind) : Prop :=
  tnl F t = length (nlay nt) /\ length (tinOut F t) = S (length (nlay nt)) /\ length (tgrad F t) = S (length (nlay nt)) /\
  List.Forall mwf (tinOut F t) /\ List.Forall mwf (tgrad F t) /\ cLoss F (tc F t) = kind /\ tbal F t = noBalance F.
End Grad.
