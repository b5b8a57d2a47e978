(* SpecRepeat.v - the same samples, each presented r times *)
From Coq Require Import String List Arith Bool ZArith.
From Verif Require Import Base Scalar Mat SpecMat Loss Optim LayMat LayImg Layer Net NetTrain SpecFit.
Import ListNotations.
Local Open Scope nat_scope.

(* every number below n is the image of exactly r of the numbers below r * n *)
Definition times (r n : nat) (s : nat -> nat) : Prop :=
  0 < r /\ (forall i, i < r * n -> s i < n) /\ (forall j, j < n -> length (filter (fun i => s i =? j) (seq 0 (r * n))) = r).

(* losses whose value is a sum over the samples; the value of the other ones is a mean *)
Definition sumLoss (k : lossKind) : bool := match k with LL1 | LL2 | LL3 => true | _ => false end.

Section Spec.
Variable F : FOps.
Notation M := (mat F).

(* x' has r times the rows of x, row i of x' being row s(i) of x *)
Definition repeated (r : nat) (s : nat -> nat) (x x' : M) : Prop :=
  mwf x /\ mwf x' /\ mrows x' = r * mrows x /\ mcols x' = mcols x /\
  forall i j, i < r * mrows x -> j < mcols x -> mget2 x' i j = mget2 x (s i) j.

(* classes whose output row depends on one input row only, on no random draw, and whose gradients are means over the samples *)
Definition meanKind (k : kind F) : Prop :=
  match k with
  | KDense _ _ | KDot _ _ | KBias | KGlobalBias | KAct _ | KGated _ _ | KCRelu | KPRelu | KSoftmax | KSoftmin => True
  | _ => False
  end.
Definition meanNet (h : heap F) (ls : list nat) : Prop := forall a l, In a ls -> hget F h a = Ok l -> meanKind (lk l).

(* the curves of two histories: training accuracy, validation loss and accuracy are the same; phi relates the training losses *)
Definition curves (phi : F -> F) (H H' : hist F) : Prop :=
  hTL F H' = map phi (hTL F H) /\ hTA F H' = hTA F H /\ hVL F H' = hVL F H /\ hVA F H' = hVA F H /\ fTA F H' = fTA F H /\ fVL F H' = fVL F H /\ fVA F H' = fVA F H.

(* one batch holds the n samples presented r times; when the best network is kept, it is chosen on validation data *)
Definition oneBatchR (t : trainer F) (r n : nat) : Prop :=
  0 < n /\ (cBatch F (tc F t) = 0 \/ r * n <= cBatch F (tc F t)) /\ (cKeep F (tc F t) = false \/ tval F t <> None).

(* two trainers equal except for their data, batch size, work matrices and statistics *)
Definition sameState (t t' : trainer F) : Prop :=
  tc F t' = tc F t /\ tbal F t' = tbal F t /\ tcur F t' = tcur F t /\ topts F t' = topts F t /\ tnl F t' = tnl F t /\
  tpw F t' = tpw F t /\ tpb F t' = tpb F t /\ tval F t' = tval F t /\ tcallback F t' = tcallback F t.
End Spec.
