(* SpecSave.v - the constructor arguments a saved layer should show, by name *)
From Coq Require Import String List Arith Bool ZArith.
From Verif Require Import Base Scalar LayImg Layer.
Import ListNotations.
Local Open Scope string_scope.

Definition savedInts {F : FOps} (k : kind F) : list (string * nat) :=
  match k with
  | KDense a b | KDot a b => [("InputSize", a); ("OutputSize", b)]
  | KChannelBias r c h => [("Rows", r); ("Cols", c); ("Channels", h)]
  | KMaxPool p => [("InRows", pR p); ("InCols", pC p); ("Channels", pH p); ("RowFactor", pfr p); ("ColFactor", pfc p)]
  | KGlobalMaxPool r c h => [("InRows", r); ("InCols", c); ("Channels", h)]
  | KConv v _ => [("InRows", vR v); ("InCols", vC v); ("InChannels", vI v); ("KernelRows", vkr v); ("KernelCols", vkc v); ("OutChannels", vO v); ("RowStride", vsr v); ("ColStride", vsc v)]
  | KTDBias f => [("FrameSize", f)]
  | KTDDot a b | KTDDense a b => [("InFrameSize", a); ("OutFrameSize", b)]
  | _ => []
  end.
Definition savedFloats {F : FOps} (k : kind F) : list (string * F) :=
  match k with
  | KDropout r => [("Rate", r)]
  | KRRelu a b => [("Alpha1", a); ("Alpha2", b)]
  | KGaussianNoise s | KUniformNoise s => [("Noise", s)]
  | _ => []
  end.
Definition isDot {F : FOps} (k : kind F) : bool := match k with KDot _ _ => true | _ => false end.
(* classes for which a saved file lists every argument of the constructor and every parameter *)
Definition savedFully {F : FOps} (k : kind F) : bool :=
  match k with KGated _ _ | KGaussianDropout _ | KAvgPool _ | KGlobalAvgPool _ _ _ | KZeroPad _ _ _ _ | KFlip _ _ _ | KSimpleRnn _ _ | KSimplestRnn _ => false | _ => true end.
