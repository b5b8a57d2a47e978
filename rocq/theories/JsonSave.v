(* JsonSave.v - model of NetUtil::save (src/NetUtil.cpp:51-234): the calls made on the JsonFileWriter.
   Sizes are converted to int without overflow.  LayerActivation's type is the name given to its constructor, which is the name of
   the activation it found (Activations.cpp get_activation compares names).  A layer's type selects the casts; the model
   selects by class, see [cast_sound] in JsonSaveProofs.v.  The cast of a LayerDot to the unrelated class LayerDense (:119) is
   formally undefined: dotCast says how a call through it ends (Err ECast, or Ok tt when both classes are laid out alike). *)
From Coq Require Import String List Arith Bool Ascii ZArith Decimal DecimalString.
From Verif Require Import Base Scalar Mat Act LayMat LayImg LayRnn Loss Optim Regul Layer Net NetTrain Json.
Import ListNotations.
Local Open Scope nat_scope.

(* operator<< for int *)
Definition showInt (z : Z) : text := lit (NilZero.string_of_int (Z.to_int z)).

Section Save.
Variable F : FOps.
Variable dotCast : res unit.
Notation call := (call Z F).

(* Layer.cpp:30-33 type(): the constructors' arguments to Layer *)
Definition typeOf (k : kind F) : string :=
  match k with
  | KDense _ _ => "Dense" | KDot _ _ => "Dot" | KBias => "Bias" | KGain => "Gain" | KAffine => "Affine"
  | KGlobalGain => "GlobalGain" | KGlobalBias => "GlobalBias" | KGlobalAffine => "GlobalAffine" | KChannelBias _ _ _ => "ChannelBias"
  | KAct (Some a) => act_name a | KAct None => ""
  | KGated _ _ => "GatedActivation" | KCRelu => "CRelu" | KPRelu => "PRelu" | KRRelu _ _ => "RRelu" | KPELU => "PELU" | KTERELU => "TERELU"
  | KDropout _ => "Dropout" | KGaussianDropout _ => "GaussianDropout" | KGaussianNoise _ => "GaussianNoise" | KUniformNoise _ => "UniformNoise"
  | KSoftmax => "Softmax" | KSoftmin => "Softmin"
  | KTDBias _ => "TimeDistributedBias" | KTDDot _ _ => "TimeDistributedDot" | KTDDense _ _ => "TimeDistributedDense"
  | KMaxPool _ => "MaxPool2D" | KGlobalMaxPool _ _ _ => "GlobalMaxPool2D" | KAvgPool _ => "AveragePooling2D" | KGlobalAvgPool _ _ _ => "GlobalAveragePooling2D"
  | KZeroPad _ _ _ _ => "ZeroPadding2D" | KFlip _ _ _ => "RandomFlip" | KConv _ _ => "Convolution2D"
  | KSimpleRnn _ _ | KSimplestRnn _ => "RNN"
  end%string.
Definition addI (k : string) (n : nat) : call := AddI (lit k) (Z.of_nat n).
(* :110-222 *)
Definition saveKind (k : kind F) : res (list call) :=
  match k with
  | KDense nI nO => Ok [addI "InputSize" nI; addI "OutputSize" nO]
  | KDot nI nO => dotCast ;;; Ok [addI "InputSize" nI; addI "OutputSize" nO]
  | KChannelBias nR nC nH => Ok [addI "Rows" nR; addI "Cols" nC; addI "Channels" nH]
  | KDropout r => Ok [AddF (lit "Rate") r]
  | KRRelu a1 a2 => Ok [AddF (lit "Alpha1") a1; AddF (lit "Alpha2") a2]
  | KGaussianNoise s | KUniformNoise s => Ok [AddF (lit "Noise") s]
  | KMaxPool p => Ok [addI "InRows" (pR p); addI "InCols" (pC p); addI "Channels" (pH p); addI "RowFactor" (pfr p); addI "ColFactor" (pfc p)]
  | KGlobalMaxPool nR nC nH => Ok [addI "InRows" nR; addI "InCols" nC; addI "Channels" nH]
  | KConv v _ => Ok [addI "InRows" (vR v); addI "InCols" (vC v); addI "InChannels" (vI v); addI "KernelRows" (vkr v); addI "KernelCols" (vkc v);
                       addI "RowStride" (vsr v); addI "ColStride" (vsc v); addI "OutChannels" (vO v)]
  | KTDBias fs => Ok [addI "FrameSize" fs]
  | KTDDot fi fo | KTDDense fi fo => Ok [addI "InFrameSize" fi; addI "OutFrameSize" fo]
  | _ => Ok []
  end.
(* :82-228 one layer; :97-99, 105-107 the vectors have one element *)
Definition saveLayer (i : nat) (l : layer F) : res (list call) :=
  c <- saveKind (lk l) ;;
  Ok ([Enter (lit "Layer_" ++ showInt (Z.of_nat i)); AddS (lit "Type") (lit (typeOf (lk l)))]
      ++ (if hasWeights l then [AddS (lit "WeightInitializer") (lit (lwi l)); AddA (lit "Weight_0") (mdata (lw l))] else [])
      ++ (if hasBiases l then [AddS (lit "BiasInitializer") (lit (lbi l)); AddA (lit "Bias_0") (mdata (lb l))] else [])
      ++ c ++ [Leave]).
(* :60-78 *)
Definition saveTrain (t : trainer F) : list call :=
  let c := tc F t in
  [AddS (lit "Optimizer") (lit (cOpt F c)); AddF (lit "LearningRate") (trGetLr F t); AddI (lit "Epochs") (cEpochs F c); AddF (lit "Decay") (cDecay F c);
   AddF (lit "Momentum") (cMom F c); AddI (lit "Patience") (cPatience F c); addI "BatchSize" (cBatch F c); AddS (lit "Loss") (lit (loss_name (cLoss F c)));
   AddB (lit "KeepBest") (cKeep F c); AddI (lit "ReboostEveryEpochs") (cReboost F c); AddB (lit "ClassBalancingWeightLoss") (cBalancing F c)]
  ++ (if (trGetReg F t =? "")%string then [] else [AddS (lit "Regularizer") (lit (trGetReg F t)); AddF (lit "RegularizerParameter") (trGetRegParam F t)]).
(* :51-233 *)
Definition saveCalls (h : heap F) (n : net) (t : trainer F) : res (list call) :=
  ls <- forL (combine (seq 0 (length (nlay n))) (nlay n)) (fun '(i, a) acc => l <- hget F h a ;; c <- saveLayer i l ;; Ok (acc ++ c)) [] ;;
  Ok ([AddS (lit "Engine") (lit "BeeDNN"); AddS (lit "Problem") (lit (if nclass n then "Classification" else "Regression")); Enter (lit "Optimizer")]
      ++ saveTrain t ++ [Leave; addI "NbLayers" (length (nlay n))] ++ ls).
(* the content of the file *)
Definition save (showF : F -> text) (h : heap F) (n : net) (t : trainer F) : res text :=
  cs <- saveCalls h n t ;; j <- jRun Z F showInt showF cs jNew ;; Ok (jText j).
End Save.
