(* SpecFold.v - rewriting a network for inference *)
From Coq Require Import List Arith Reals.
From Verif Require Import Base Scalar Mat SpecMat Act LayMat LayImg Layer Net SpecNet.
Import ListNotations.

(* both networks predict, and predict the same, on every batch, into any buffers, whatever the random draws *)
Definition samePredict {F : FOps} (h : heap F) (n n' : net) (k : nat) : Prop := forall rs rs' N X out out', mwf out -> mwf out' ->
  exists h1 h1' o, predict F rs h n (mgen N k X) out = Ok (h1, o) /\ predict F rs' h n' (mgen N k X) out' = Ok (h1', o).
(* n' is n with the layers mid replaced by mid' *)
Definition swapped (n n' : net) (pre mid mid' post : list nat) : Prop := nlay n = pre ++ mid ++ post /\ nlay n' = pre ++ mid' ++ post /\ nlay n' <> [] /\ NoDup (nlay n').
(* the layers meant to do nothing at inference *)
Definition idle {F : FOps} (k : kind F) : Prop := match k with KDropout _ | KGaussianDropout _ | KGaussianNoise _ | KUniformNoise _ | KAct (Some AIdentity) => True | _ => False end.
