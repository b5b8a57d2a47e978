(* KMeans.v - model of src/KMeans.cpp and src/KMeansTrain.cpp *)
From Coq Require Import List Arith Bool ZArith.
From Verif Require Import Base Scalar Mat Loss.
Import ListNotations.

Section Model.
Variable F : FOps.
Variable cabs : F -> res F.   (* the selected ::abs, see Loss.v *)
Notation M := (mat F).

(* KMeans.h: _mRefVectors, _mRefClasses, _pLoss (its class); _iNbRef and _iInputSize are not read by the functions below *)
Record kmeans := mkKM { kVec : M; kCls : M; kLoss : lossKind }.
(* KMeans.cpp:20-25 constructor *)
Definition kmNew : kmeans := mkKM (mempty F) (mempty F) LMeanSquaredError.
(* KMeans.cpp:45-52 set_sizes *)
Definition kmSizes (k : kmeans) (iInputSize iNbRef : nat) : kmeans :=
  mkKM (mresize F (kVec k) iNbRef iInputSize) (mresize F (kCls k) iNbRef 1) (kLoss k).

(* 1.e38f *)
Definition farAway : F := flit F (10 ^ 38) 1.

(* KMeans.cpp:104-112 compute_dist *)
Definition kmDist (l : lossKind) (m1 m2 : M) : res F :=
  assert_ (mrows m1 =? 1) ;;; assert_ (mrows m2 =? 1) ;;; assert_ (mcols m1 =? mcols m2) ;;;
  x <- compute F cabs l (noBalance F) m1 m2 (mempty F) ;; mmean F x.

(* KMeans.cpp:83-96: the search over the references; None is indexBest == -1 *)
Definition kmSearch (k : kmeans) (mS : M) : res (F * option nat) :=
  forN (mrows (kVec k)) (fun iR s =>
    v <- mrow F (kVec k) iR ;;
    d <- kmDist (kLoss k) mS v ;;
    Ok (if flt F d (fst s) then (d, Some iR) else s)) (farAway, None).

(* KMeans.cpp:71-102 predict_classes *)
Definition kmPredict (k : kmeans) (mIn mClass : M) : res M :=
  let c := mresize F mClass (mrows mIn) 1 in
  if msize (kVec k) =? 0 then msetConst F c (f0 F) else
  forN (mrows mIn) (fun iS c =>
    mS <- mrow F mIn iS ;;
    b <- kmSearch k mS ;;
    match snd b with
    | None => Err EAssert                       (* assert(indexBest != -1) *)
    | Some i => y <- mget1 (kCls k) i ;; mset1 c iS y
    end) c.

(* KMeansTrain.cpp:87-112 compute_accuracy; vb is _iValidationBatchSize (1024, never changed).
   The batches [b*vb, min((b+1)*vb, n)) for b*vb < n.  mOut is reused between the batches. *)
Definition kmAccuracy (vb : nat) (k : kmeans) (mSamples mTruth : M) : res F :=
  let n := mrows mSamples in
  if vb =? 0 then Err EFuel else
  ' g <- forN ((n + (vb - 1)) / vb) (fun b s =>
    let iStart := b * vb in
    let iEnd := if n <? iStart + vb then n else iStart + vb in
    sb <- viewRow F mSamples iStart iEnd ;;
    tb <- viewRow F mTruth iStart iEnd ;;
    out <- kmPredict k sb (fst s) ;;
    good <- forN (iEnd - iStart) (fun i g =>
      x <- mget1 out i ;; y <- mget1 tb i ;; Ok (g + if feq F x y then 1 else 0)) (snd s) ;;
    Ok (out, good)) (mempty F, 0) ;;
  Ok (fdiv F (fmul F (fofZ F 100) (fofN F (snd g))) (fofN F n)).

(* dst.row(i) = src: the cells are written through the view when the shapes agree; otherwise the temporary view is
   reallocated and dst keeps its cells (Matrix.h:104-112, 147-166) *)
Definition rowAssign (dst : M) (i : nat) (src : M) : res M :=
  assert_ (i <? mrows dst) ;;;
  if (mrows src =? 1) && (mcols src =? mcols dst)
  then forN (mcols dst) (fun j d => x <- mget1 src j ;; mset2 d i j x) dst else Ok dst.

(* KMeansTrain.cpp:155-161: references drawn from the samples *)
Definition kmInit (k : kmeans) (mSamples mTruth : M) (draw : nat -> nat) : res kmeans :=
  forN (mrows (kVec k)) (fun i k =>
    if mrows mSamples =? 0 then Err EDiv else
    let iPos := draw i mod mrows mSamples in
    s <- mrow F mSamples iPos ;; v <- rowAssign (kVec k) i s ;;
    t <- mrow F mTruth iPos ;; c <- rowAssign (kCls k) i t ;;
    Ok (mkKM v c (kLoss k))) k.

(* the working data of fit: centroids (sums), their counts, and iNextUpdate *)
Record kwork := mkKW { wKm : kmeans; wCent : M; wCnt : M; wNext : nat }.

(* KMeansTrain.cpp:176-189: nearest reference of class iClass *)
Definition kmNearest (k : kmeans) (x : M) (iClass : Z) : res (option nat) :=
  b <- forN (mrows (kVec k)) (fun iR s =>
    c <- mget1 (kCls k) iR ;;
    if feq F c (fofZ F iClass) then
      v <- mrow F (kVec k) iR ;;
      d <- kmDist (kLoss k) x v ;;
      Ok (if flt F d (fst s) then (d, Some iR) else s)
    else Ok s) (farAway, None) ;;
  Ok (snd b).

(* KMeansTrain.cpp:201-205: the model update *)
Definition kmUpdate (k : kmeans) (cent cnt : M) : res kmeans :=
  v <- forN (mrows (kVec k)) (fun iR v =>
    n <- mget1 cnt iR ;;
    if negb (feq F n (f0 F)) then
      r <- mrow F cent iR ;; d <- mdivS F r n ;; rowAssign v iR d
    else Ok v) (kVec k) ;;
  Ok (mkKM v (kCls k) (kLoss k)).

(* mRefCentroid.row(iPosBest) += mSamples.row(iSample); mRefCentroidCount(iPosBest)++ *)
Definition kmCollect (w : kwork) (i : nat) (x : M) : res kwork :=
  r <- mrow F (wCent w) i ;; s <- maddM F r x ;; c <- rowAssign (wCent w) i s ;;
  n <- mget1 (wCnt w) i ;; t <- mset1 (wCnt w) i (fadd F n (f1 F)) ;;
  Ok (mkKW (wKm w) c t (wNext w)).

(* KMeansTrain.cpp:168-212: one sample *)
Definition kmStep (batch : nat) (mSamples mTruth : M) (perm : list nat) (iS : nat) (w : kwork) : res kwork :=
  iSample <- rget perm iS ;;
  t <- mget1 mTruth iSample ;; iClass <- toInt F t ;;
  x <- mrow F mSamples iSample ;;
  best <- kmNearest (wKm w) x iClass ;;
  w1 <- match best with None => Ok w | Some i => kmCollect w i x end ;;
  if (wNext w1 <=? iS) || (iS =? mrows mSamples - 1) then
    k <- kmUpdate (wKm w1) (wCent w1) (wCnt w1) ;;
    c <- msetConst F (wCent w1) (f0 F) ;;
    n <- msetConst F (wCnt w1) (f0 F) ;;
    Ok (mkKW k c n (wNext w1 + batch))
  else Ok w1.

(* what the epoch callback can observe: the model and the two accuracies *)
Record kseen := mkSeen { seenKm : kmeans; seenTrain : F; seenVal : F }.
(* fit's variables across epochs: work, bestKM, fMaxAccuracy, current accuracies, and the observations so far *)
Record kfit := mkFit { fWork : kwork; fBest : kmeans; fMax : F; fTrain : F; fVal : F; fSeen : list kseen }.

(* KMeansTrain.cpp:163-237: one epoch *)
Definition kmEpoch (vb batch : nat) (keep : bool) (mSamples mTruth : M) (val : option (M * M)) (draw : nat -> nat)
                   (f : kfit) : res kfit :=
  perm <- randPerm draw (mrows mSamples) ;;
  let w0 := mkKW (wKm (fWork f)) (wCent (fWork f)) (wCnt (fWork f)) batch in
  w <- forN (mrows mSamples) (kmStep batch mSamples mTruth perm) w0 ;;
  ta <- kmAccuracy vb (wKm w) mSamples mTruth ;;
  va <- match val with None => Ok (fVal f) | Some p => kmAccuracy vb (wKm w) (fst p) (snd p) end ;;
  let sel := match val with None => ta | Some _ => va end in
  let better := keep && flt F (fMax f) sel in
  Ok (mkFit w (if better then wKm w else fBest f) (if better then sel else fMax f) ta va
        (fSeen f ++ [mkSeen (wKm w) ta va])).

(* KMeansTrain.cpp:126-244 fit.  draw0 are the engine outputs of the initialisation, draws e those of the shuffle of
   epoch e.  Result: the model and the list of observations of the callback. *)
Definition kmFit (vb iBatch epochs : nat) (keep : bool) (k : kmeans) (mSamples mTruth : M) (val : option (M * M))
                 (draw0 : nat -> nat) (draws : nat -> nat -> nat) : res (kmeans * list kseen) :=
  cent <- msetZero F (mempty F) (mrows (kVec k)) (mcols (kVec k)) ;;
  cnt <- msetZero F (mempty F) (mrows (kVec k)) 1 ;;
  let n := mrows mSamples in
  let batch := if (n <? iBatch) || (iBatch =? 0) then n else iBatch in
  mx <- (if keep then match val with None => kmAccuracy vb k mSamples mTruth | Some p => kmAccuracy vb k (fst p) (snd p) end
         else Ok (f0 F)) ;;
  k1 <- kmInit k mSamples mTruth draw0 ;;
  f <- forN epochs (fun e f => kmEpoch vb batch keep mSamples mTruth val (draws e) f)
         (mkFit (mkKW k1 cent cnt 0) k mx (f0 F) (f0 F) []) ;;
  Ok (if keep then fBest f else wKm (fWork f), fSeen f).
End Model.
Arguments mkKM {F}. Arguments kVec {F}. Arguments kCls {F}. Arguments kLoss {F}.
Arguments mkKW {F}. Arguments wKm {F}. Arguments wCent {F}. Arguments wCnt {F}. Arguments wNext {F}.
Arguments mkSeen {F}. Arguments seenKm {F}. Arguments seenTrain {F}. Arguments seenVal {F}.
Arguments mkFit {F}. Arguments fWork {F}. Arguments fBest {F}. Arguments fMax {F}. Arguments fTrain {F}. Arguments fVal {F}. Arguments fSeen {F}.
