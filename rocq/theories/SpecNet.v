(* SpecNet.v - vocabulary of the network statements *)
From Coq Require Import List Arith Bool ZArith String.
From Verif Require Import Base Scalar Mat SpecMat LayMat LayImg Layer Net.
Import ListNotations.

(* m is a well formed r x c matrix *)
Definition shaped {A} (m : mat A) (r c : nat) : Prop := mwf m /\ mrows m = r /\ mcols m = c.
(* ... or is still empty (parameters sized by the first forward pass) *)
Definition shapedOrEmpty {A} (m : mat A) (r c : nat) : Prop := shaped m r c \/ (mwf m /\ msize m = 0).

Section Net.
Variable F : FOps.

(* layer l, in inference mode, maps rows of k values to rows of m values without drawing random numbers *)
Definition detLayer (l : layer F) (k m : nat) : Prop :=
  match lk l with
  | KDense _ _ => shaped (lw l) k m /\ shaped (lb l) 1 m
  | KDot _ _ => shaped (lw l) k m
  | KBias => m = k /\ 0 < k /\ shapedOrEmpty (lb l) 1 k /\ (msize (lb l) = 0 -> lbi l = "Zeros"%string)
  | KGain | KPRelu | KTERELU => m = k /\ 0 < k /\ shapedOrEmpty (lw l) 1 k
  | KPELU => m = k /\ 0 < k /\ shapedOrEmpty (lw l) 2 k
  | KAffine => m = k /\ 0 < k /\ ((shaped (lw l) 1 k /\ shaped (lb l) 1 k) \/
                                  (mwf (lw l) /\ mwf (lb l) /\ msize (lw l) = 0 /\ msize (lb l) = 0))
  | KGlobalGain => m = k /\ shaped (lw l) 1 1
  | KGlobalBias => m = k /\ shaped (lb l) 1 1
  | KGlobalAffine => m = k /\ shaped (lw l) 1 1 /\ shaped (lb l) 1 1
  | KChannelBias nR nC nH => m = k /\ k = nH * nR * nC /\ shaped (lb l) 1 nH
  | KAct a => m = k /\ a <> None
  | KGated a1 a2 => k = 2 * m /\ a1 <> None /\ a2 <> None
  | KCRelu => m = 2 * k
  | KRRelu _ _ | KDropout _ | KGaussianDropout _ | KGaussianNoise _ | KUniformNoise _ => m = k /\ ltrain l = false
  | KSoftmax | KSoftmin => m = k /\ 0 < k
  | KTDBias fs => m = k /\ 0 < fs /\ (exists f, k = f * fs) /\ shaped (lb l) 1 fs
  | KTDDot fi fo => 0 < fi /\ (exists f, k = f * fi /\ m = f * fo) /\ shaped (lw l) fi fo
  | KTDDense fi fo => 0 < fi /\ (exists f, k = f * fi /\ m = f * fo) /\ shaped (lw l) fi fo /\ shaped (lb l) 1 fo
  | KMaxPool p => poolOk p = Ok tt /\ k = pH p * pR p * pC p /\ m = pH p * (pR p / pfr p) * (pC p / pfc p) /\ ltrain l = false
  | KAvgPool p => poolOk p = Ok tt /\ k = pH p * pR p * pC p /\ m = pH p * (pR p / pfr p) * (pC p / pfc p)
  | KGlobalMaxPool nR nC nH => k = nH * nR * nC /\ m = nH /\ ltrain l = false
  | KGlobalAvgPool nR nC nH => k = nH * nR * nC /\ m = nH
  | KZeroPad nR nC nH nB => k = nH * nR * nC /\ m = nH * (nR + 2 * nB) * (nC + 2 * nB)
  | KConv v _ => convOk v = Ok tt /\ k = vI v * vR v * vC v /\ m = vO v * oR v * oC v /\
                 shaped (lw l) (vO v) (vI v * vkr v * vkc v) /\ mwf (lmem l)
  | KFlip _ _ _ | KSimpleRnn _ _ | KSimplestRnn _ => False    (* random in inference mode *)
  end.

(* the objects at these addresses are live, map k inputs to m outputs and fit together *)
Fixpoint detChain (h : heap F) (addrs : list nat) (k m : nat) : Prop :=
  match addrs with
  | [] => k = m
  | a :: r => exists l p, hget F h a = Ok l /\ detLayer l k p /\ detChain h r p m
  end.
(* a network of deterministic layers with k inputs and m outputs; no object is used twice *)
Definition detNet (h : heap F) (n : net) (k m : nat) : Prop := nlay n <> [] /\ NoDup (nlay n) /\ detChain h (nlay n) k m.
(* the layer objects of the network are live and distinct *)
Definition liveNet (h : heap F) (n : net) : Prop := NoDup (nlay n) /\ forall a, In a (nlay n) -> exists l, hget F h a = Ok l.
End Net.
