(* SpecMlp.v - specification vocabulary: how large the numbers met while training a network may become *)
From Coq Require Import List Arith ZArith Reals.
From Flocq Require Import Core IEEE754.BinarySingleNaN.
From Verif Require Import Base Scalar Mat Act Loss Optim Regul LayMat LayImg Layer Net NetTrain SpecRound SpecNaN SpecSoft SpecStay SpecTrainFin.
Import ListNotations.
Local Open Scope R_scope.

(* activations with values in [-1,1], and activations f with |f(x)| <= |x|; slopes in [-1,1] *)
Definition flat (a : actKind) : Prop := In a [ATanh; ASigmoid; AHardTanh; ASoftSign; ASin].
Definition shrinking (a : actKind) : Prop := In a [AIdentity; ARelu; ARelu6; ALeakyRelu; ALeakyRelu256; AAbsolute].
(* exponents: the inputs of layer i stay within 2^(eX i), its parameters within 2^(eW i), the gradient at its inputs within 2^(eG i),
   the regularized gradient at its parameters within 2^(eR i) *)
Record budget := mkBudget { eX : nat -> Z; eW : nat -> Z; eG : nat -> Z; eR : nat -> Z }.
(* the learning rate is at most 2^-r, or is the -1 that selects the default 0.01 < 2^-6 *)
Definition slow (r : Z) (lr : b32) : Prop := (1 <= r <= 60)%Z /\ (within (- r) lr \/ fin lr /\ val lr = -1 /\ (r <= 6)%Z).
(* gradients up to 2^D, rates up to 2^-r: rounding keeps the parameters within 2^w for ever *)
Definition room (k : optKind) (D r w : Z) : Prop :=
  (-100 <= D - r)%Z /\ (-100 <= w <= 126)%Z /\
  match k with OSGD => (D - r + 25 <= w)%Z | OMomentum => (D - r + 50 <= w)%Z | _ => False end.
(* inputs within 2^z *)
Definition dataUpTo (z : Z) (k : lossKind) (d : mat b32 * mat b32) : Prop :=
  (Z.of_nat (mrows (fst d)) < 2 ^ 24)%Z /\ (forall x, In x (mdata (fst d)) -> within z x) /\ truths k (snd d).

Section Spec.
Variables (lm : libm -> b32 -> b32) (pw : b32 -> b32 -> b32) (jk : b32).
Notation F := (B32Ops lm pw jk).
(* a gradient up to 2^D is up to 2^E once the regularizer is applied *)
Definition regTo (g : option (regul F)) (D E : Z) : Prop :=
  match g with
  | None => (D <= E)%Z
  | Some r => match rkind F r with RNone => (D <= E)%Z | RClip => fin (rparam F r) /\ 0 <= val (rparam F r) <= p2 E
      | RClipTanh => fin (rparam F r) /\ p2 (-100) <= val (rparam F r) <= p2 E /\ (E <= D)%Z | _ => False end
  end.
(* layer i, not the last one, stays within the budget *)
Definition affordable (k : optKind) (g : option (regul F)) (r : Z) (b : budget) (i : nat) (l : layer F) : Prop :=
  (0 <= eX b i <= 126)%Z /\ (0 <= eX b (S i) <= 126)%Z /\ (0 <= eG b (S i) <= 127)%Z /\
  match lk l with
  | KDense _ _ => exists u v, (0 <= u <= 23)%Z /\ (0 <= v <= 23)%Z /\ (Z.of_nat (mrows (lw l)) < 2 ^ u)%Z /\ (Z.of_nat (mcols (lw l)) <= 2 ^ v)%Z /\
      (0 <= eW b i)%Z /\ (eX b i + eW b i + u <= eX b (S i))%Z /\ ((0 < i)%nat -> (eG b (S i) + eW b i + v <= eG b i <= 127)%Z) /\
      (eX b i + eG b (S i) <= 103)%Z /\ regTo g (eX b i + eG b (S i) + 1) (eR b i) /\ room k (eR b i) r (eW b i) /\
      (forall x, In x (mdata (lw l)) -> within (eW b i) x) /\ (forall x, In x (mdata (lb l)) -> within (eW b i) x)
  | KAct (Some a) => (flat a \/ shrinking a /\ (eX b i <= eX b (S i))%Z) /\ (eG b (S i) <= eG b i)%Z
  | _ => False
  end.
(* the last layer: its outputs are probabilities *)
Definition affordableOut (b : budget) (i : nat) (l : layer F) : Prop := outputs F (lk l) /\ (0 <= eX b i <= 126)%Z /\ (1 <= eG b i)%Z.
(* all layers *)
Definition affordableNet (c : settings F) (k : optKind) (r : Z) (b : budget) (h : heap F) (ls : list nat) : Prop :=
  forall i a l, nth_error ls i = Some a -> hget F h a = Ok l ->
    if (S i =? length ls)%nat then affordableOut b i l else affordable k (cReg F c) r b i l.
End Spec.

(* number of dense layers in a stack *)
Fixpoint denses (F : FOps) (h : heap F) (ls : list nat) : nat :=
  match ls with
  | [] => 0%nat
  | a :: ls' => match hget F h a with Ok l => match lk l with KDense _ _ => S (denses F h ls') | _ => denses F h ls' end | Err _ => denses F h ls' end
  end.
(* every layer but the last is an activation, or a dense layer of at most 2^11 - 1 inputs and 2^11 outputs with parameters within 2^w *)
Definition plainNet (F : FOps) (within_w : F -> Prop) (h : heap F) (ls : list nat) : Prop :=
  forall i a l, nth_error ls i = Some a -> hget F h a = Ok l ->
    if (S i =? length ls)%nat then outputs F (lk l)
    else match lk l with
      | KDense _ _ => (mrows (lw l) < 2 ^ 11)%nat /\ (mcols (lw l) <= 2 ^ 11)%nat /\ (forall x, In x (mdata (lw l)) -> within_w x) /\ (forall x, In x (mdata (lb l)) -> within_w x)
      | KAct (Some a) => flat a \/ shrinking a
      | _ => False
      end.
