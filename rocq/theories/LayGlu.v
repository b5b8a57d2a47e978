(* LayGlu.v - the classes derived from LayerGatedActivation: constructors with fixed activations, nothing overridden *)
From Coq Require Import String List.
From Verif Require Import Base Scalar Mat Act LayMat LayImg Layer.
Import ListNotations.

Inductive glu := GBilinear | GGLU | GGEGLU | GGTU | GReGLU | GSeGLU | GSwiGLU.
(* LayerBilinear.cpp:13-15, LayerGLU.cpp:13-15, LayerGEGLU.cpp:13-15, LayerGTU.cpp:13-15, LayerReGLU.cpp:13-15, LayerSeGLU.cpp:13-15, LayerSwiGLU.cpp:13-15 *)
Definition gluArgs (g : glu) : string * string :=
  match g with
  | GBilinear => ("Identity", "Identity") | GGLU => ("Identity", "Sigmoid") | GGEGLU => ("Identity", "GELU") | GGTU => ("Tanh", "Sigmoid")
  | GReGLU => ("Identity", "Relu") | GSeGLU => ("Identity", "Selu") | GSwiGLU => ("Identity", "Swish")
  end%string.
(* LayerGatedActivation.cpp:18-24; the initialisers keep their defaults, which these layers do not use *)
Definition gluNew (F : FOps) (r : rnd F) (g : glu) : res (layer F) :=
  layNew F r (KGated (get_activation (fst (gluArgs g))) (get_activation (snd (gluArgs g)))) "" "".
