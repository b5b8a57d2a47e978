(* SpecTrain.v - vocabulary of the training statements *)
From Coq Require Import String List Arith Bool ZArith Reals.
From Verif Require Import Base Scalar Mat SpecMat Loss Optim Regul LayMat LayImg LayRnn Layer Net NetTrain.
Import ListNotations.
Local Open Scope nat_scope.

Section Train.
Variable F : FOps.

(* clone() builds convolutions in fast mode *)
Definition fastKind (k : kind F) : kind F := match k with KConv v _ => KConv v true | _ => k end.
(* c has the parameters of l (those its class uses) *)
Definition sameParams (l c : layer F) : Prop :=
  match lk l with
  | KDense _ _ | KAffine | KGlobalAffine | KTDDense _ _ => lw c = lw l /\ lb c = lb l
  | KDot _ _ | KGain | KGlobalGain | KTDDot _ _ | KPRelu | KPELU | KTERELU | KConv _ _ | KSimplestRnn _ => lw c = lw l
  | KBias | KGlobalBias | KChannelBias _ _ _ | KTDBias _ => lb c = lb l
  | KSimpleRnn _ _ => wH (lrnn c) = wH (lrnn l) /\ wX (lrnn c) = wX (lrnn l) /\ bH (lrnn c) = bH (lrnn l)
  | _ => True
  end.
(* the layers at addresses ls' of h' are of the same classes and have the same parameters as those at ls of h *)
Definition copyOf (h : heap F) (ls : list nat) (h' : heap F) (ls' : list nat) : Prop :=
  length ls' = length ls /\ forall i a, nth_error ls i = Some a ->
    exists a' l c, nth_error ls' i = Some a' /\ hget F h a = Ok l /\ hget F h' a' = Ok c /\ fastKind (lk c) = fastKind (lk l) /\ sameParams l c.
(* ... are of the same classes *)
Definition sameKindsAt (h : heap F) (ls : list nat) (h' : heap F) (ls' : list nat) : Prop :=
  length ls' = length ls /\ forall i a, nth_error ls i = Some a ->
    exists a' l c, nth_error ls' i = Some a' /\ hget F h a = Ok l /\ hget F h' a' = Ok c /\ fastKind (lk c) = fastKind (lk l).
(* the recorded series that keep-best and patience look at: c = classifying, v = validation data given *)
Definition selHist (c v : bool) (H : hist F) : list F := if c then (if v then hVA F H else hTA F H) else (if v then hVL F H else hTL F H).
Definition hasVal (t : trainer F) : bool := match tval F t with Some _ => true | None => false end.
End Train.

(* the larger, the better: the accuracy, or minus the loss *)
Definition signed (c : bool) (x : R) : R := if c then x else (- x)%R.

(* patience p: (number of consecutive epochs without improvement, number of roll-backs) after i epochs; imp k: epoch k improved *)
Fixpoint stagnation (p : Z) (imp : nat -> bool) (i : nat) : Z * nat :=
  match i with
  | 0 => (0%Z, 0)
  | S k => let '(c, r) := stagnation p imp k in let c' := if imp k then 0%Z else (c + 1)%Z in
           if (p <? c')%Z then (0%Z, S r) else (c', r)
  end.

(* the samples idx (row numbers) of the n x k matrix of entries f *)
Definition rowsAt (F : FOps) (k : nat) (f : nat -> nat -> F) (idx : list nat) : mat F := mgen (length idx) k (fun i j => f (nth i idx 0) j).
(* bs cuts v into consecutive non-empty batches of b samples; the last one may be shorter *)
Definition cutInto (b : nat) (v : list nat) (bs : list (list nat)) : Prop :=
  concat bs = v /\ (forall x, In x bs -> x <> [] /\ length x <= b) /\ (forall i, S i < length bs -> length (nth i bs []) = b).

(* one optimisation step: parameter p with gradient g, optimiser o -> p', o' (the gradient is regularised first) *)
Definition stepOf (F : FOps) (cabs : F -> res F) (reg : option (regul F)) (o : opt F) (p g : mat F) (o' : opt F) (p' : mat F) : Prop :=
  exists g', match reg with Some r => reg_apply F r p g = Ok g' | None => g' = g end /\ optimize F cabs o p g' = Ok (o', p').
(* number of occurrences *)
Definition occ (a : nat) (l : list nat) : nat := count_occ Nat.eq_dec l a.

(* what the getters of a trainer return (NetTrain.h:37-94) *)
Record getters (F : FOps) := mkGet {
  gEpochs : Z; gReboost : Z; gOptimizer : string; gRegularizer : string; gRegParam : F; gLr : F; gPatience : Z; gDecay : F; gMomentum : F;
  gBatch : nat; gBalancing : bool; gKeep : bool; gLoss : string; gValBatch : nat;
  gTrainLoss : list F; gValLoss : list F; gTrainAcc : list F; gValAcc : list F; gCurTrainLoss : F; gCurTrainAcc : F; gCurValLoss : F; gCurValAcc : F }.
Definition gettersOf (F : FOps) (t : trainer F) : getters F :=
  let c := tc F t in let H := th F t in
  mkGet F (cEpochs F c) (cReboost F c) (cOpt F c) (trGetReg F t) (trGetRegParam F t) (trGetLr F t) (cPatience F c) (cDecay F c) (cMom F c)
    (cBatch F c) (cBalancing F c) (cKeep F c) (loss_name (cLoss F c)) (cValBatch F c)
    (hTL F H) (hVL F H) (hTA F H) (hVA F H) (fTL F H) (fTA F H) (fVL F H) (fVA F H).
Definition withValBatch (F : FOps) (g : getters F) (x : nat) : getters F :=
  mkGet F (gEpochs F g) (gReboost F g) (gOptimizer F g) (gRegularizer F g) (gRegParam F g) (gLr F g) (gPatience F g) (gDecay F g) (gMomentum F g)
    (gBatch F g) (gBalancing F g) (gKeep F g) (gLoss F g) x
    (gTrainLoss F g) (gValLoss F g) (gTrainAcc F g) (gValAcc F g) (gCurTrainLoss F g) (gCurTrainAcc F g) (gCurValLoss F g) (gCurValAcc F g).
(* the classes of optimisers whose clone() has the learning rate of the original *)
Definition clonesRate (k : optKind) : bool := match k with ONone | ORPROPm | OiRPROPm => false | _ => true end.

(* accuracy: the output row o (m values) is a correct answer for the truth row y (q values) *)
Definition argOf (F : FOps) (m : nat) (o : nat -> F) : nat := match argmax F (mgen 1 m (fun _ => o)) with Ok p => p | Err _ => 0 end.
Definition correct (F : FOps) (m q : nat) (o y : nat -> F) : bool :=
  if q =? 1 then (if m =? 1 then feq F (flm F Lround (o 0)) (y 0)          (* the rounded output is the label *)
                  else feq F (fofN F (argOf F m o)) (y 0))                 (* the largest output has the label as index *)
  else argOf F m o =? argOf F q y.                                         (* ... has the index of the largest truth *)

(* a forward pass neither creates nor redraws the parameters of l *)
Definition sized (F : FOps) (l : layer F) : Prop :=
  match lk l with
  | KBias => msize (lb l) <> 0
  | KGain | KPRelu | KPELU | KTERELU => msize (lw l) <> 0
  | KAffine => msize (lb l) <> 0
  | KSimpleRnn _ _ | KSimplestRnn _ => False
  | _ => True
  end.
