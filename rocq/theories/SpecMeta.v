(* SpecMeta.v - vocabulary of the statements about LayerFactory and MetaOptimizer *)
From Coq Require Import String List Arith Bool ZArith.
From Verif Require Import Base Scalar Mat Act Loss Optim Regul LayMat LayImg Layer Net NetTrain SpecTrain Meta.
Import ListNotations.
Local Open Scope nat_scope.

Section Meta.
Variable F : FOps.

(* the layers of the thread's own network *)
Definition layersOf (p : pc F) : list nat :=
  match p with
  | PVary n _ | PSetOpt _ n _ | PSetLr _ n _ | PTrain n _ | PEpochs _ n | PWrite _ _ n | PCall _ _ n => nlay n
  | _ => []
  end.
(* the accuracy the thread is about to record or to report *)
Definition inNewEpoch (p : pc F) : option F := match p with PWrite a _ _ | PCall a _ _ => Some a | _ => None end.
(* no other thread runs between the comparison, the assignment and the callback of new_epoch *)
Definition undisturbed (cabs : F -> res F) (m : meta F) (net0 : net) (ds : nat -> tdraw F) (sched : list nat) (s : mst F) : Prop :=
  forall pre i post s1 j p a, sched = pre ++ i :: post -> mrun F cabs m net0 ds pre s = Ok s1 ->
    nth_error (gThreads F s1) j = Some p -> inNewEpoch p = Some a -> i = j.

(* t trains like u, except for the optimiser o and its learning rate l, and the validation batch size *)
Definition trainsAs (u t : trainer F) (o : string) (l : F) : Prop :=
  let c := tc F u in let d := tc F t in
  cOpt F d = o /\ cLr F d = l /\ cBatch F d = cBatch F c /\ cKeep F d = cKeep F c /\ cEpochs F d = cEpochs F c /\ cReboost F d = cReboost F c /\
  cPatience F d = cPatience F c /\ cBalancing F d = cBalancing F c /\ cDecay F d = cDecay F c /\ cMom F d = cMom F c /\ cLoss F d = cLoss F c /\
  trGetReg F t = trGetReg F u /\ ttrain F t = ttrain F u /\ tval F t = tval F u.
(* optimisers and learning rates a thread may find in the shared trainer *)
Definition mayUse (m : meta F) (u : trainer F) (o : string) (l : F) : Prop :=
  (o = cOpt F (tc F u) \/ In o (map (ovName F) (mOv F m))) /\ (l = cLr F (tc F u) \/ In l (map (ovLr F) (mOv F m))).

(* the settings the r-th training with one thread uses *)
Definition usesAt (m : meta F) (ds : nat -> nat -> tdraw F) (u t : trainer F) (r : nat) : Prop :=
  match r with
  | O => trainsAs u t (cOpt F (tc F u)) (cLr F (tc F u))
  | S q => match nth_error (mOv F m) (dOpt F (ds q 0) mod length (mOv F m)) with
           | Some v => trainsAs u t (ovName F v) (ovLr F v)
           | None => trainsAs u t (cOpt F (tc F u)) (cLr F (tc F u))
           end
  end.

(* layer i of a thread's network: a copy of layer i of the reference network, or one of the variations of layer i *)
Definition variant (m : meta F) (h0 : heap F) (net0 : net) (h : heap F) (ls : list nat) : Prop :=
  length ls = length (nlay net0) /\ forall i a, nth_error (nlay net0) i = Some a -> exists a' c, nth_error ls i = Some a' /\ hget F h a' = Ok c /\
    ((exists l, hget F h0 a = Ok l /\ lk c = fastKind F (lk l) /\ sameParams F l c) \/
     (exists v r, In v (mLv F m) /\ lvLayer F v = Z.of_nat i /\ factory F r (lvType F v) (lvA1 F v) (lvA2 F v) (lvA3 F v) (lvA4 F v) = Ok c)).

(** shared memory locations and the accesses of the next step of thread i (true: a write).  The random engine is one static object
    (Matrix.cpp:462-466).  Only accesses that take place in every case are listed. *)
Inductive loc := LBest | LTrain | LRandom.
Definition accesses (m : meta F) (i : nat) (p : pc F) : list (loc * bool) :=
  match p with
  | PSeed => if i =? 0 then [] else [(LRandom, true)]                                      (* MetaOptimizer.cpp:84-85 *)
  | PCopy => [(LTrain, false)]                                                             (* :91 *)
  | PVary n _ => if (length (nlay n) =? 0) && (length (mOv F m) =? 0) then [] else [(LRandom, true)]  (* :149, :162 *)
  | PSetOpt _ _ _ | PSetLr _ _ _ => [(LTrain, true)]                                     (* :163-164 *)
  | PEpochs (_ :: _) _ => [(LBest, false)]                                                 (* :73 *)
  | PWrite _ _ _ => [(LBest, true)]                                                        (* :75 *)
  | _ => []
  end.
(* two threads are about to access the same location, at least one of them to write; nothing orders them *)
Definition race (m : meta F) (s : mst F) (l : loc) : Prop :=
  exists i j p q b c, i <> j /\ nth_error (gThreads F s) i = Some p /\ nth_error (gThreads F s) j = Some q /\
    In (l, b) (accesses m i p) /\ In (l, c) (accesses m j q) /\ (b = true \/ c = true).
End Meta.

(* each element is larger than the previous ones *)
Fixpoint increasing (F : FOps) (l : list F) : Prop := match l with [] => True | x :: r => Forall (fun y => flt F x y = true) r /\ increasing F r end.
(* m is the largest of b and the elements of l *)
Definition largest (F : FOps) (m b : F) (l : list F) : Prop := (m = b \/ In m l) /\ flt F m b = false /\ Forall (fun y => flt F m y = false) l.

(* the names LayerFactory::create compares with *)
Definition factoryNames : list string :=
  ["Dense"; "Dot"; "CRelu"; "RRelu"; "PRelu"; "Gain"; "Bias"; "TimeDistributedBias"; "TimeDistributedDot"; "Affine"; "GlobalGain"; "GlobalAffine"; "GlobalBias";
   "ChannelBias"; "MaxPool2D"; "GlobalMaxPool2D"; "AveragePooling2D"; "GlobalAveragePooling2D"; "Softmax"; "Softmin"; "ZeroPadding2D"; "RandFlip"]%string.
(* types of layers (Layer::type) that LayerFactory::create does not know *)
Definition notCreated : list string :=
  ["GatedActivation"; "PELU"; "TERELU"; "Dropout"; "GaussianDropout"; "GaussianNoise"; "UniformNoise"; "TimeDistributedDense"; "RandomFlip"; "Convolution2D"; "RNN"]%string.
(* the classes with size arguments: the sizes are the arguments converted to Index *)
Definition sized (F : FOps) (n m p q : nat) : list (string * kind F) :=
  [("Dense", KDense n m); ("Dot", KDot n m); ("TimeDistributedDot", KTDDot n m); ("TimeDistributedBias", KTDBias n); ("ChannelBias", KChannelBias n m p);
   ("GlobalMaxPool2D", KGlobalMaxPool n m p); ("GlobalAveragePooling2D", KGlobalAvgPool n m p); ("MaxPool2D", KMaxPool (mkPool n m p 2 2));
   ("AveragePooling2D", KAvgPool (mkPool n m p 2 2)); ("ZeroPadding2D", KZeroPad n m p q); ("RandFlip", KFlip n m p)]%string.
