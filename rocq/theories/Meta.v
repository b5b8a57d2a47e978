(* Meta.v - model of src/LayerFactory.cpp and src/MetaOptimizer.cpp.
   Layer objects of all threads live in one heap; the threads share _fBestAccuracy and the user's NetTrain.  A schedule is the
   list of the threads whose next step is executed.  A step is a maximal piece of run_thread that touches shared members at one
   point only: the accesses to _fBestAccuracy of new_epoch are separate steps; NetTrain::operator=, set_optimizer and
   set_learningrate are each taken as one step.  NetTrain::fit works on the objects of its thread only (fit_own in
   MetaProofs1.v), so its position among the steps of the other threads does not matter: the model runs it at once and keeps the
   accuracies its callback will see.  Random numbers are arbitrary (the engine is shared by the threads without a lock).
   Console output is left out.  Numbers of threads and repetitions are naturals. *)
From Coq Require Import String List Arith Bool ZArith.
From Verif Require Import Base Scalar Mat Act Loss Optim LayMat LayImg Layer Net NetTrain.
Import ListNotations.
Local Open Scope nat_scope.

Section Model.
Variable F : FOps.
Variable cabs : F -> res F.

(** * LayerFactory.cpp:41-113 create: class, weight and bias initializers (defaults of the constructors) *)
Definition factoryKind (s : string) (a1 a2 a3 a4 : F) : res (kind F * string * string) :=
  let gu := "GlorotUniform"%string in let ze := "Zeros"%string in let no := ""%string in
  let is x := (s =? x)%string in
  if is "Dense"%string then n <- toIdx F a1 ;; m <- toIdx F a2 ;; Ok (KDense n m, gu, ze) else
  if is "Dot"%string then n <- toIdx F a1 ;; m <- toIdx F a2 ;; Ok (KDot n m, gu, no) else
  if is "CRelu"%string then Ok (KCRelu, no, no) else
  if is "RRelu"%string then Ok (KRRelu (fofN F 8) (fofN F 3), no, no) else
  if is "PRelu"%string then Ok (KPRelu, no, no) else
  if is "Gain"%string then Ok (KGain, no, no) else
  if is "Bias"%string then Ok (KBias, no, ze) else
  if is "TimeDistributedBias"%string then n <- toIdx F a1 ;; Ok (KTDBias n, no, ze) else
  if is "TimeDistributedDot"%string then n <- toIdx F a1 ;; m <- toIdx F a2 ;; Ok (KTDDot n m, gu, no) else
  if is "Affine"%string then Ok (KAffine, no, no) else
  if is "GlobalGain"%string then Ok (KGlobalGain, no, no) else
  if is "GlobalAffine"%string then Ok (KGlobalAffine, no, no) else
  if is "GlobalBias"%string then Ok (KGlobalBias, no, no) else
  if is "ChannelBias"%string then n <- toIdx F a1 ;; m <- toIdx F a2 ;; p <- toIdx F a3 ;; Ok (KChannelBias n m p, no, ze) else
  if is "MaxPool2D"%string then n <- toIdx F a1 ;; m <- toIdx F a2 ;; p <- toIdx F a3 ;; Ok (KMaxPool (mkPool n m p 2 2), no, no) else
  if is "GlobalMaxPool2D"%string then n <- toIdx F a1 ;; m <- toIdx F a2 ;; p <- toIdx F a3 ;; Ok (KGlobalMaxPool n m p, no, no) else
  if is "AveragePooling2D"%string then n <- toIdx F a1 ;; m <- toIdx F a2 ;; p <- toIdx F a3 ;; Ok (KAvgPool (mkPool n m p 2 2), no, no) else
  if is "GlobalAveragePooling2D"%string then n <- toIdx F a1 ;; m <- toIdx F a2 ;; p <- toIdx F a3 ;; Ok (KGlobalAvgPool n m p, no, no) else
  if is "Softmax"%string then Ok (KSoftmax, no, no) else
  if is "Softmin"%string then Ok (KSoftmin, no, no) else
  if is "ZeroPadding2D"%string then n <- toIdx F a1 ;; m <- toIdx F a2 ;; p <- toIdx F a3 ;; q <- toIdx F a4 ;; Ok (KZeroPad n m p q, no, no) else
  if is "RandFlip"%string then n <- toIdx F a1 ;; m <- toIdx F a2 ;; p <- toIdx F a3 ;; Ok (KFlip n m p, no, no) else
  Ok (KAct (get_activation s), no, no).
Definition factory (r : rnd F) (s : string) (a1 a2 a3 a4 : F) : res (layer F) :=
  ' (k, wi, bi) <- factoryKind s a1 a2 a3 a4 ;; layNew F r k wi bi.

(** * MetaOptimizer *)
(* MetaOptimizer.h:8-50: LayerVariation (fArg5 is never used), OptimizerVariation *)
Record layVar := mkLV { lvLayer : Z; lvType : string; lvA1 : F; lvA2 : F; lvA3 : F; lvA4 : F }.
Record optVar := mkOV { ovName : string; ovLr : F }.
(* the members set before fit: _layerVariations, _optimizerVariations, whether _betterSolutionCallBack is set, _iNbThread, _iNRepeatAll *)
Record meta := mkMeta { mLv : list layVar; mOv : list optVar; mCb : bool; mNb : nat; mRepeat : nat }.

(* NetTrain.cpp:166-170 set_optimizer (clear_optimizers 73-79), :265-268 set_epoch_callback *)
Definition trSetOpt (t : trainer F) (s : string) : trainer F :=
  let c := tc F t in
  setOpts F (setSettings F t (mkSet F (cBatch F c) (cValBatch F c) (cKeep F c) (cEpochs F c) (cReboost F c) (cPatience F c) (cBalancing F c) s
                                (cLr F c) (cDecay F c) (cMom F c) (cLoss F c) (cReg F c))) [].
Definition trSetCb (t : trainer F) : trainer F :=
  mkTr F (tc F t) (tbal F t) (tadj F t) (tcur F t) (topts F t) (tinOut F t) (tgrad F t) (tnl F t) (tpw F t) (tpb F t) (th F t) (tonl F t) (tgood F t)
    (ttrain F t) (tval F t) true.

(* what one thread draws: for the copies, the variation of each layer, the new layers, the optimiser, the training *)
Record tdraw := mkTD { dCopy : nat -> rnd F; dVar : nat -> nat; dNew : nat -> rnd F; dOpt : nat; dFit : fitRnd F }.

(* MetaOptimizer.cpp:142-147: the variations of layer i *)
Definition varsOf (m : meta) (i : nat) : list layVar := filter (fun v => (lvLayer v =? Z.of_nat i)%Z) (mLv m).
(* :139-157 *)
Definition applyLayers (m : meta) (d : tdraw) (h : heap F) (n : net) : res (heap F * net) :=
  forN (List.length (nlay n)) (fun i '(h, n) =>
    let vl := varsOf m i in
    let k := dVar d i mod (List.length vl + 1) in
    if k =? 0 then Ok (h, n) else
    v <- rget vl (k - 1) ;; l <- factory (dNew d i) (lvType v) (lvA1 v) (lvA2 v) (lvA3 v) (lvA4 v) ;;
    netReplace F (h ++ [Some l]) n i (List.length h)) (h, n).

(* where a thread is in run_thread (:81-106).  n, t: netT, trainT; v: the drawn optimiser variation; accs: the accuracies of the
   epochs to come *)
Inductive pc :=
| PSeed                                         (* :83-85 *)
| PCopy                                         (* :88-91 *)
| PVary (n : net) (t : trainer F)               (* :93, :139-157 *)
| PSetOpt (v : optVar) (n : net) (t : trainer F)(* :163 *)
| PSetLr (v : optVar) (n : net) (t : trainer F) (* :164 *)
| PTrain (n : net) (t : trainer F)              (* :96-103 *)
| PEpochs (accs : list F) (n : net)             (* next: :73 of the next epoch, or the end *)
| PWrite (a : F) (accs : list F) (n : net)      (* :75 *)
| PCall (a : F) (accs : list F) (n : net)       (* :77 *)
| PDone.

(* gRuns, gReports: what happened so far: (thread, its trainer) at each call of fit; the accuracy at each call of the better solution callback *)
Record mst := mkMS { gHeap : heap F; gBest : F; gTrain : trainer F; gThreads : list pc; gRuns : list (nat * trainer F); gEpochs : list F; gReports : list F }.

(* the next step of thread i; net0: *_pNet *)
Definition mstep (m : meta) (net0 : net) (ds : nat -> tdraw) (i : nat) (s : mst) : res mst :=
  p <- rget (gThreads s) i ;;
  let d := ds i in
  let go (h : heap F) (b : F) (t : trainer F) (q : pc) (runs : list (nat * trainer F)) (eps reps : list F) : res mst :=
    ps <- rset (gThreads s) i q ;; Ok (mkMS h b t ps runs eps reps) in
  let h := gHeap s in let b := gBest s in let T := gTrain s in let runs := gRuns s in let eps := gEpochs s in let reps := gReports s in
  match p with
  | PSeed => go h b T PCopy runs eps reps
  | PCopy => ' (h, n) <- netAssign F false (dCopy d) h netNew net0 ;; t <- trAssign F (trNew F) T ;; go h b T (PVary n t) runs eps reps
  | PVary n t =>
      ' (h, n) <- applyLayers m d h n ;;
      if List.length (mOv m) =? 0 then go h b T (PTrain n t) runs eps reps else
      v <- rget (mOv m) (dOpt d mod List.length (mOv m)) ;; go h b T (PSetOpt v n t) runs eps reps
  | PSetOpt v n t => go h b (trSetOpt T (ovName v)) (PSetLr v n t) runs eps reps
  | PSetLr v n t => go h b (trSetLr F T (ovLr v)) (PTrain n t) runs eps reps
  | PTrain n t =>
      ' (h, n, _, calls) <- fit F cabs (dFit d) h n (trSetCb t) ;;
      go h b T (PEpochs (map (fVA F) calls) n) (runs ++ [(i, t)]) eps reps
  | PEpochs [] n => ' (h, _) <- netClear F h n ;; go h b T PDone runs eps reps
  | PEpochs (a :: r) n => go h b T (if flt F b a then PWrite a r n else PEpochs r n) runs (eps ++ [a]) reps
  | PWrite a r n => go h a T (PCall a r n) runs eps reps
  | PCall a r n => if mCb m then go h b T (PEpochs r n) runs eps (reps ++ [a]) else Err EThrow
  | PDone => Ok s
  end.
Definition mrun (m : meta) (net0 : net) (ds : nat -> tdraw) (sched : list nat) (s : mst) : res mst := forL sched (mstep m net0 ds) s.

(* one turn of :50-66: all threads from their start to their end *)
Definition isDone (p : pc) : bool := match p with PDone => true | _ => false end.
Definition mstart (nt : nat) (s : mst) : mst := mkMS (gHeap s) (minus1 F) (gTrain s) (repeat PSeed nt) (gRuns s) (gEpochs s) (gReports s).
Definition restart (m : meta) (nt : nat) (net0 : net) (ds : nat -> tdraw) (sched : list nat) (s : mst) : res mst :=
  s <- mrun m net0 ds sched (mstart nt s) ;;
  if forallb isDone (gThreads s) then Ok s else Err EFuel.
(* :41-67 fit; hw: hardware_concurrency(); ds r: draws of repetition r *)
Definition nbThreads (m : meta) (hw : nat) : nat := if mNb m =? 0 then hw else mNb m.
Definition mfit (m : meta) (hw : nat) (ds : nat -> nat -> tdraw) (scheds : nat -> list nat) (h : heap F) (net0 : net) (train : option (trainer F)) : res mst :=
  match train with
  | None => Err EAssert
  | Some t => forN (mRepeat m) (fun r s => restart m (nbThreads m hw) net0 (ds r) (scheds r) s) (mkMS h (minus1 F) t [] [] [] [])
  end.
End Model.
