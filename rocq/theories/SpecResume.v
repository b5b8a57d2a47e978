(* SpecResume.v - training in several calls: the words used to compare fit(e1 epochs) followed by fit(e2 epochs) with fit(e1 + e2 epochs) *)
From Coq Require Import String List ZArith.
From Verif Require Import Base Scalar Mat LayMat Layer Net Loss Optim NetTrain.
Import ListNotations.
Local Open Scope nat_scope.

Section Spec.
Variable F : FOps.
(* set_epochs(n) *)
Definition withEpochs (n : nat) (t : trainer F) : trainer F :=
  let c := tc F t in
  setSettings F t (mkSet F (cBatch F c) (cValBatch F c) (cKeep F c) (Z.of_nat n) (cReboost F c) (cPatience F c) (cBalancing F c) (cOpt F c) (cLr F c) (cDecay F c) (cMom F c) (cLoss F c) (cReg F c)).
(* the draws made from epoch n on *)
Definition later (n : nat) (R : fitRnd F) : fitRnd F :=
  mkFR F (oFirst F R) (oSnap0 F R) (fun e => oShuffle F R (n + e)) (fun e => oTrain F R (n + e)) (fun e => oVal F R (n + e)) (fun e => oSnap F R (n + e)) (fun e => oRoll F R (n + e)) (oLast F R).
(* the four recorded curves one after the other; the current values are those of the second part *)
Definition histApp (H1 H2 : hist F) : hist F :=
  mkHist F (hTL F H1 ++ hTL F H2) (hTA F H1 ++ hTA F H2) (hVL F H1 ++ hVL F H2) (hVA F H1 ++ hVA F H2) (fTL F H2) (fTA F H2) (fVL F H2) (fVA F H2).
(* optimisers that keep nothing from one step to the next *)
Definition stateless (k : optKind) : Prop := k = ONone \/ k = OStep \/ k = OSGD.
(* a layer that has its parameters: not one of those sized by the first forward pass, or already sized *)
Definition sized (l : layer F) : Prop :=
  match lk l with
  | KBias => msize (lb l) <> 0
  | KGain | KAffine | KPRelu | KPELU | KTERELU => msize (lw l) <> 0
  | _ => True
  end.
Definition allSized (h : heap F) (n : net) : Prop := forall a l, In a (nlay n) -> hget F h a = Ok l -> sized l.
End Spec.
