(* SpecFit.v - what a network, its data and its trainer must be for training to run to its end.
   Nothing here is about values: only sizes, names and ranges. *)
From Coq Require Import String List Arith Bool ZArith.
From Verif Require Import Base Scalar Mat SpecMat Loss Optim LayMat LayImg Layer Net NetTrain.
Import ListNotations.
Local Open Scope nat_scope.

Section Spec.
Variable F : FOps.
Notation M := (mat F).

(* a matrix object of r rows and c columns *)
Definition shp (r c : nat) (m : M) : Prop := mwf m /\ mrows m = r /\ mcols m = c.
(* an empty parameter *)
Definition none (m : M) : Prop := mwf m /\ msize m = 0.
(* a parameter created by the first forward pass *)
Definition sizedOr (r c : nat) (m : M) : Prop := none m \/ shp r c m.
(* the names known to Initializers.cpp *)
Definition knownInit (s : string) : Prop := In s
  ["GlorotUniform"; "GlorotNormal"; "HeUniform"; "HeNormal"; "LecunUniform"; "LecunNormal"; "Uniform"; "Normal"; "Zeros"; "Ones"]%string.

(* a layer object taking rows of k values to rows of m values, with parameters of the right sizes.
   Not covered: GaussianDropout (its training pass asserts on batches), MaxPool2D and GlobalMaxPool2D (their backward
   pass leaves the buffer when no input exceeds -1e38), RandomFlip (its backward pass reads the flips of an earlier
   inference) and the recurrent classes (their backward pass does not size the gradients). *)
Definition fits (l : layer F) (k m : nat) : Prop :=
  0 < k /\ 0 < m /\ mwf (lgw l) /\ mwf (lgb l) /\ mwf (lmem l) /\
  match lk l with
  | KDense _ _ => shp k m (lw l) /\ shp 1 m (lb l)
  | KDot _ _ => shp k m (lw l) /\ none (lb l)
  | KBias => m = k /\ none (lw l) /\ sizedOr 1 k (lb l) /\ knownInit (lbi l)
  | KGain => m = k /\ sizedOr 1 k (lw l) /\ none (lb l)
  | KAffine => m = k /\ (none (lw l) /\ none (lb l) \/ shp 1 k (lw l) /\ shp 1 k (lb l))
  | KGlobalGain => m = k /\ shp 1 1 (lw l) /\ shp 1 1 (lgw l) /\ none (lb l)
  | KGlobalBias => m = k /\ none (lw l) /\ shp 1 1 (lb l) /\ shp 1 1 (lgb l)
  | KGlobalAffine => m = k /\ shp 1 1 (lw l) /\ shp 1 1 (lgw l) /\ shp 1 1 (lb l) /\ shp 1 1 (lgb l)
  | KChannelBias nR nC nH => k = nH * nR * nC /\ m = k /\ none (lw l) /\ shp 1 nH (lb l)
  | KAct a => m = k /\ a <> None /\ none (lw l) /\ none (lb l)
  | KGated a1 a2 => k = 2 * m /\ a1 <> None /\ a2 <> None /\ none (lw l) /\ none (lb l)
  | KCRelu => m = 2 * k /\ none (lw l) /\ none (lb l)
  | KPRelu | KTERELU => m = k /\ (none (lw l) \/ shp 1 k (lw l) /\ shp 1 k (lgw l)) /\ none (lb l)
  | KPELU => m = k /\ (none (lw l) \/ shp 2 k (lw l) /\ shp 2 k (lgw l)) /\ none (lb l)
  | KDropout rate => m = k /\ none (lw l) /\ none (lb l) /\
      (feq F rate (f0 F) = true \/ exists z, bernoulliLimit F (fsub F (f1 F) rate) = Ok z) (* the probability fits in an int *)
  | KRRelu _ _ | KGaussianNoise _ | KUniformNoise _ | KSoftmax | KSoftmin => m = k /\ none (lw l) /\ none (lb l)
  | KTDBias fs => (exists f, k = f * fs) /\ m = k /\ none (lw l) /\ shp 1 fs (lb l)
  | KTDDot fi fo => (exists f, k = f * fi /\ m = f * fo) /\ shp fi fo (lw l) /\ none (lb l)
  | KTDDense fi fo => (exists f, k = f * fi /\ m = f * fo) /\ shp fi fo (lw l) /\ shp 1 fo (lb l)
  | KAvgPool p => pfr p <> 0 /\ pfc p <> 0 /\ k = pH p * pR p * pC p /\ m = pH p * poR p * poC p /\ none (lw l) /\ none (lb l)
  | KGlobalAvgPool nR nC nH => k = nH * nR * nC /\ m = nH /\ none (lw l) /\ none (lb l)
  | KZeroPad nR nC nH nB => k = nH * nR * nC /\ m = nH * (nR + 2 * nB) * (nC + 2 * nB) /\ none (lw l) /\ none (lb l)
  | KConv v _ => convOk v = Ok tt /\ k = vI v * vR v * vC v /\ m = vO v * oR v * oC v /\ shp (vO v) (vI v * vkr v * vkc v) (lw l) /\ none (lb l)
  | KGaussianDropout _ | KMaxPool _ | KGlobalMaxPool _ _ _ | KFlip _ _ _ | KSimpleRnn _ _ | KSimplestRnn _ => False
  end.

(* constructor arguments of a layer taking rows of k values to rows of m values; known initialisers only *)
Definition plan (kd : kind F) (wi bi : string) (k m : nat) : Prop :=
  0 < k /\ 0 < m /\
  match kd with
  | KDense nI nO => k = nI /\ m = nO /\ knownInit wi /\ knownInit bi
  | KDot nI nO => k = nI /\ m = nO /\ knownInit wi
  | KBias => m = k /\ knownInit bi
  | KGain | KAffine | KGlobalGain | KGlobalBias | KGlobalAffine | KPRelu | KTERELU | KPELU
  | KRRelu _ _ | KGaussianNoise _ | KUniformNoise _ | KSoftmax | KSoftmin => m = k
  | KChannelBias nR nC nH => k = nH * nR * nC /\ m = k /\ knownInit bi
  | KAct a => m = k /\ a <> None
  | KGated a1 a2 => k = 2 * m /\ a1 <> None /\ a2 <> None
  | KCRelu => m = 2 * k
  | KDropout rate => m = k /\ (feq F rate (f0 F) = true \/ exists z, bernoulliLimit F (fsub F (f1 F) rate) = Ok z)
  | KTDBias fs => (exists f, k = f * fs) /\ m = k /\ knownInit bi
  | KTDDot fi fo => (exists f, k = f * fi /\ m = f * fo) /\ knownInit wi
  | KTDDense fi fo => (exists f, k = f * fi /\ m = f * fo) /\ knownInit wi /\ knownInit bi
  | KAvgPool p => pfr p <> 0 /\ pfc p <> 0 /\ k = pH p * pR p * pC p /\ m = pH p * poR p * poC p
  | KGlobalAvgPool nR nC nH => k = nH * nR * nC /\ m = nH
  | KZeroPad nR nC nH nB => k = nH * nR * nC /\ m = nH * (nR + 2 * nB) * (nC + 2 * nB)
  | KConv v _ => convOk v = Ok tt /\ k = vI v * vR v * vC v /\ m = vO v * oR v * oC v
  | KGaussianDropout _ | KMaxPool _ | KGlobalMaxPool _ _ _ | KFlip _ _ _ | KSimpleRnn _ _ | KSimplestRnn _ => False
  end.

(* the layers at addresses ls take rows of k values to rows of m values *)
Fixpoint stack (h : heap F) (ls : list nat) (k m : nat) : Prop :=
  match ls with
  | [] => m = k
  | a :: ls' => exists l j, hget F h a = Ok l /\ fits l k j /\ stack h ls' j m
  end.

(* truth values a loss accepts for predictions of m columns *)
Definition truthOk (k : lossKind) (m : nat) (y : M) : Prop :=
  match k with
  | LSparseCategoricalCrossEntropy => mcols y = 1 /\ forall x, In x (mdata y) -> exists c, toIdx F x = Ok c /\ c < m
  | LBinaryCrossEntropy => mcols y = 1 /\ m = 1
  | _ => mcols y = m
  end.
(* a data set for a network taking k columns to m columns *)
Definition dataOk (k m : nat) (ls : lossKind) (d : M * M) : Prop :=
  mwf (fst d) /\ mwf (snd d) /\ mcols (fst d) = k /\ mrows (snd d) = mrows (fst d) /\ truthOk ls m (snd d).

(* constructor arguments of a chain of layers taking rows of k values to rows of m values *)
Fixpoint plans (ps : list (kind F * string * string)) (k m : nat) : Prop :=
  match ps with
  | [] => m = k
  | (kd, wi, bi) :: ps' => exists j, plan kd wi bi k j /\ plans ps' j m
  end.
(* net.add(new Layer...(...)) for each of them; rs i gives the random draws of the i-th constructor *)
Fixpoint build (rs : nat -> rnd F) (ps : list (kind F * string * string)) (h : heap F) (n : net) : res (heap F * net) :=
  match ps with
  | [] => Ok (h, n)
  | (kd, wi, bi) :: ps' => l <- layNew F (rs (length (nlay n))) kd wi bi ;; build rs ps' (h ++ [Some l]) (netAdd n (length h))
  end.

(* a network and a trainer that can be given to fit: sizes that chain, a known optimiser, no roll-back on patience, no class
   balancing of a classification, a validation batch size, data of the right sizes (possibly no row) *)
Definition trainable (h : heap F) (n : net) (t : trainer F) (k m : nat) : Prop :=
  NoDup (nlay n) /\ stack h (nlay n) k m /\
  (forall i a l, nth_error (nlay n) (S i) = Some a -> hget F h a = Ok l -> lfirst l = false) /\
  create_optimizer (cOpt F (tc F t)) <> None /\ cPatience F (tc F t) = (-1)%Z /\ (cBalancing F (tc F t) = false \/ nclass n = false) /\ 0 < cValBatch F (tc F t) /\
  Forall mwf (tinOut F t) /\ Forall mwf (tgrad F t) /\
  (exists d, ttrain F t = Some d /\ dataOk k m (cLoss F (tc F t)) d) /\ (forall d, tval F t = Some d -> dataOk k m (cLoss F (tc F t)) d).
(* fit called once per element of Rs, on what the call before left *)
Fixpoint fitRuns (Rs : list (fitRnd F)) (h : heap F) (n : net) (t : trainer F) : res (heap F * net * trainer F) :=
  match Rs with
  | [] => Ok (h, n, t)
  | R :: Rs' => ' (h, n, t, _) <- fit F (absFloat F) R h n t ;; fitRuns Rs' h n t
  end.
(* set_train_data on a trainer *)
Definition withData (t : trainer F) (d : M * M) : trainer F :=
  mkTr F (tc F t) (tbal F t) (tadj F t) (tcur F t) (topts F t) (tinOut F t) (tgrad F t) (tnl F t) (tpw F t) (tpb F t) (th F t) (tonl F t) (tgood F t) (Some d) (tval F t) (tcallback F t).
End Spec.
Arguments shp {F}. Arguments none {F}. Arguments sizedOr {F}. Arguments fits {F}. Arguments plan {F}. Arguments stack {F}. Arguments truthOk {F}. Arguments dataOk {F}. Arguments plans {F}. Arguments build {F}. Arguments trainable {F}. Arguments fitRuns {F}. Arguments withData {F}.
