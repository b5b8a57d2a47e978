(* SpecStale.v - trainers that were given the same settings and data, whatever they did before *)
From Coq Require Import List ZArith.
From Verif Require Import Base Scalar Mat SpecMat Loss NetTrain.

Section Spec.
Variable F : FOps.

(* same settings, training data, validation data and callback; the second one's work matrices are any matrix objects.
   Nothing is said of the optimisers, counters, results and buffers left by earlier runs. *)
Definition likewise (t1 t2 : trainer F) : Prop :=
  tc F t1 = tc F t2 /\ ttrain F t1 = ttrain F t2 /\ tval F t1 = tval F t2 /\ tcallback F t1 = tcallback F t2 /\
  List.Forall mwf (tinOut F t2) /\ List.Forall mwf (tgrad F t2).
(* a trainer just made and given the settings and data of t *)
Definition asNew (t : trainer F) : trainer F :=
  mkTr F (tc F t) (noBalance F) 0 0%Z nil nil nil 0 nil nil (mkHist F nil nil nil nil (f0 F) (f0 F) (f0 F) (f0 F)) (f0 F) 0 (ttrain F t) (tval F t) (tcallback F t).
End Spec.
Arguments likewise {F}. Arguments asNew {F}.
