(* Loss.v - model of src/Loss.cpp *)
From Coq Require Import List Arith Bool ZArith String.
From Verif Require Import Base Scalar Mat.
Import ListNotations.

(* the twelve classes of Loss.cpp:45-506 *)
Inductive lossKind :=
| LMeanSquaredError | LMeanAbsoluteError | LMeanCubicError | LL2 | LL1 | LL3 | LHuber | LPseudoHuber | LLogCosh
| LCategoricalCrossEntropy | LSparseCategoricalCrossEntropy | LBinaryCrossEntropy.

Section Model.
Variable F : FOps.
Notation M := (mat F).

(* Loss.h:35-36: _mWeightBalancing, _bClassBalancing *)
Record balance := mkBal { bw : M; bon : bool }.
(* Loss.cpp:18-21 constructor *)
Definition noBalance : balance := mkBal (mempty F) false.
(* Loss.cpp:26-30 set_class_balancing *)
Definition set_class_balancing (w : M) : balance := mkBal w (negb (msize w =? 0)).

(* (int)x *)
Definition toInt (x : F) : res Z := match ftoZ F x with Some z => Ok z | None => Err ECast end.
(* (int)x used as an index: a negative index is outside *)
Definition toIdx (x : F) : res nat := z <- toInt x ;; if (z <? 0)%Z then Err EOob else Ok (Z.to_nat z).

(* Loss.cpp:32-43 balance_with_weight *)
Definition balance_with_weight (b : balance) (mTruth mGradient : M) : res M :=
  assert_ (bon b) ;;;
  forN (mrows mGradient) (fun i g =>
    t <- mget1 mTruth i ;;
    assert_ (fle F (f0 F) t) ;;;
    assert_ (flt F t (fofN F (msize (bw b)))) ;;;
    k <- toIdx t ;;
    w <- mget1 (bw b) k ;;
    rowLoop F (fun _ x => Ok (fmul F x w)) g i) mGradient.

Definition balanceIf (b : balance) (t g : M) : res M := if bon b then balance_with_weight b t g else Ok g.

(* The overload picked for ::abs(_data[i]) (Matrix.h:421) depends on the standard library: with overloads for float in
   the global namespace it is the floating one, otherwise (headers <cmath>, <cstdlib> of libstdc++) int abs(int). *)
Definition absFloat (x : F) : res F := Ok (fabs F x).
Definition absInt (x : F) : res F := z <- toInt x ;; Ok (fofZ F (Z.abs z)).

(* for (i<size) m(i) = f(m(i)) with an f that may fail *)
Definition mapLoopR (f : F -> res F) (m : M) : res M :=
  forN (msize m) (fun i m => x <- mget1 m i ;; y <- f x ;; mset1 m i y) m.

Section Abs.
Variable cabs : F -> res F.   (* the selected ::abs *)

Definition half : F := flit F 1 2.
Definition eps : F := flit F 1 100000000.           (* 1.e-8f *)

(* element function applied to (mPredicted - mTruth) by compute:
   Loss.cpp:58 MSE, 84-101 Huber, 137-146 PseudoHuber, 185 MeanCubic, 222 MAE, 254 L2, 286 L1, 317 L3, 354 LogCosh *)
Definition regElem (k : lossKind) (x : F) : res F :=
  match k with
  | LMeanSquaredError | LL2 => Ok (fmul F x x)
  | LMeanAbsoluteError | LL1 => cabs x
  | LMeanCubicError | LL3 => cabs (fmul F (fmul F x x) x)
  | LHuber => a <- cabs x ;;
      Ok (if flt F a (f1 F) then fmul F half (fmul F a a)
          else fsub F (fmul F (f1 F) a) (fmul F (fmul F half (f1 F)) (f1 F)))
  | LPseudoHuber => let m := fmul F x x in
      Ok (fmul F (f1 F) (fsub F (flm F Lsqrt (fadd F (fmul F m (f1 F)) (f1 F))) (f1 F)))
  | LLogCosh => Ok (flm F Llog (flm F Lcosh x))
  | _ => Err EAssert
  end.
(* reduction over the samples: colWiseSum for L1, L2, L3, colWiseMean for the others *)
Definition regReduce (k : lossKind) : M -> res M :=
  match k with LL1 | LL2 | LL3 => colWiseSum F | _ => colWiseMean F end.

(* element function applied to (mPredicted - mTruth) by compute_gradient, c = mPredicted.cols():
   Loss.cpp:69 MSE, 112-118 Huber, 160-164 PseudoHuber, 199-203 MeanCubic, 232 MAE, 264 L2, 296 L1, 330-334 L3, 364 LogCosh *)
Definition regGrad (k : lossKind) (c : nat) (x : F) : F :=
  match k with
  | LMeanSquaredError => fdiv F x (fofN F c)
  | LL2 => x
  | LMeanAbsoluteError => fsign F x
  | LL1 => fdiv F (fsign F x) (fofN F c)
  | LMeanCubicError | LL3 =>
      fmul F (fmul F (fmul F (fofZ F 3) x) x) (if flt F (f0 F) x then f1 F else fopp F (f1 F))
  | LHuber => if flt F (f1 F) x then f1 F else if flt F x (fopp F (f1 F)) then fopp F (f1 F) else x
  | LPseudoHuber => fdiv F x (flm F Lsqrt (fadd F (fmul F (fmul F x x) (f1 F)) (f1 F)))
  | LLogCosh => flm F Ltanh x
  | _ => x
  end.

(* max(p, 1.e-8f) *)
Definition floorEps (p : F) : F := stdmax F p eps.

(* -(t / max(p,eps)) + (1-t)/max(1-p,eps), Loss.cpp:416 *)
Definition ccGrad (p t : F) : F :=
  fadd F (fopp F (fdiv F t (floorEps p))) (fdiv F (fsub F (f1 F) t) (floorEps (fsub F (f1 F) p))).

(* the virtual functions compute; mLoss is the matrix passed in *)
Definition compute (k : lossKind) (b : balance) (mPredicted mTruth mLoss : M) : res M :=
  match k with
  | LCategoricalCrossEntropy =>                                  (* Loss.cpp:383-403 *)
      assert_ (mcols mTruth =? mcols mPredicted) ;;; assert_ (mrows mTruth =? mrows mPredicted) ;;;
      forN (mrows mPredicted) (fun j l =>
        s <- forN (mcols mPredicted) (fun i s =>
               t <- mget2 mTruth j i ;; p <- mget2 mPredicted j i ;;
               Ok (fadd F s (fopp F (fmul F t (flm F Llog (floorEps p)))))) (f0 F) ;;
        mset2 l j 0 s) (mresize F mLoss (mrows mPredicted) 1)
  | LSparseCategoricalCrossEntropy =>                            (* Loss.cpp:431-441 *)
      assert_ (mcols mTruth =? 1) ;;; assert_ (mrows mTruth =? mrows mPredicted) ;;;
      forN (mrows mPredicted) (fun i l =>
        t <- mget1 mTruth i ;; c <- toIdx t ;; p <- mget2 mPredicted i c ;;
        mset1 l i (fopp F (flm F Llog (floorEps p)))) (mresize F mLoss (mrows mPredicted) 1)
  | LBinaryCrossEntropy =>                                       (* Loss.cpp:476-491 *)
      assert_ (mcols mTruth =? 1) ;;; assert_ (mcols mTruth =? mcols mPredicted) ;;;
      assert_ (mrows mTruth =? mrows mPredicted) ;;;
      forN (mrows mPredicted) (fun i l =>
        p <- mget1 mPredicted i ;; t <- mget1 mTruth i ;;
        mset1 l i (fopp F (fadd F (fmul F t (flm F Llog (floorEps p)))
                       (fmul F (fsub F (f1 F) t) (flm F Llog (floorEps (fsub F (f1 F) p)))))))
        (mresize F mLoss (mrows mPredicted) 1)
  | _ =>
      assert_ (mcols mTruth =? mcols mPredicted) ;;; assert_ (mrows mTruth =? mrows mPredicted) ;;;
      d <- msubM F mPredicted mTruth ;;
      e <- mapLoopR (regElem k) d ;;
      l <- regReduce k e ;;
      balanceIf b mTruth l
  end.

(* the virtual functions compute_gradient *)
Definition compute_gradient (k : lossKind) (b : balance) (mPredicted mTruth mGradientLoss : M) : res M :=
  match k with
  | LCategoricalCrossEntropy =>                                  (* Loss.cpp:405-418 *)
      assert_ (mcols mTruth =? mcols mPredicted) ;;; assert_ (mrows mTruth =? mrows mPredicted) ;;;
      forN (msize mTruth) (fun i g =>
        p <- mget1 mPredicted i ;; t <- mget1 mTruth i ;; mset1 g i (ccGrad p t))
        (mresize F mGradientLoss (mrows mTruth) (mcols mTruth))
  | LSparseCategoricalCrossEntropy =>                            (* Loss.cpp:443-462 *)
      assert_ (mcols mTruth =? 1) ;;; assert_ (mrows mTruth =? mrows mPredicted) ;;;
      forN (mrows mPredicted) (fun r g =>
        x <- mget1 mTruth r ;; t <- toInt x ;;
        forN (mcols mPredicted) (fun c g =>
          p <- mget2 g r c ;;
          mset2 g r c (if (t =? Z.of_nat c)%Z then fopp F (fdiv F (f1 F) (floorEps p))
                       else fdiv F (f1 F) (floorEps (fsub F (f1 F) p)))) g) mPredicted
  | LBinaryCrossEntropy =>                                       (* Loss.cpp:493-506 *)
      assert_ (mcols mTruth =? mcols mPredicted) ;;; assert_ (mrows mTruth =? mrows mPredicted) ;;;
      forN (msize mTruth) (fun i g =>
        p <- mget1 mPredicted i ;; t <- mget1 mTruth i ;;
        mset1 g i (fopp F (fsub F (fdiv F t (floorEps p)) (fdiv F (fsub F (f1 F) t) (floorEps (fsub F (f1 F) p))))))
        (mresize F mGradientLoss (mrows mTruth) (mcols mTruth))
  | _ =>
      assert_ (mcols mTruth =? mcols mPredicted) ;;; assert_ (mrows mTruth =? mrows mPredicted) ;;;
      d <- msubM F mPredicted mTruth ;;
      g <- mapLoop (regGrad k (mcols mPredicted)) d ;;
      balanceIf b mTruth g
  end.
End Abs.
End Model.

Local Open Scope string_scope.
(* name() of the twelve classes *)
Definition loss_name (k : lossKind) : string :=
  match k with
  | LMeanSquaredError => "MeanSquaredError" | LMeanAbsoluteError => "MeanAbsoluteError"
  | LMeanCubicError => "MeanCubicError" | LL2 => "L2" | LL1 => "L1" | LL3 => "L3"
  | LHuber => "Huber" | LPseudoHuber => "PseudoHuber" | LLogCosh => "LogCosh"
  | LCategoricalCrossEntropy => "CategoricalCrossEntropy"
  | LSparseCategoricalCrossEntropy => "SparseCategoricalCrossEntropy"
  | LBinaryCrossEntropy => "BinaryCrossEntropy"
  end.

(* Loss.cpp:508-547 create_loss; None is the null pointer *)
Definition create_loss (s : string) : option lossKind :=
  if s =? "MeanSquaredError" then Some LMeanSquaredError else
  if s =? "MeanAbsoluteError" then Some LMeanAbsoluteError else
  if s =? "MeanCubicError" then Some LMeanCubicError else
  if s =? "L2" then Some LL2 else
  if s =? "L1" then Some LL1 else
  if s =? "L3" then Some LL3 else
  if s =? "LogCosh" then Some LLogCosh else
  if s =? "Huber" then Some LHuber else
  if s =? "PseudoHuber" then Some LPseudoHuber else
  if s =? "CategoricalCrossEntropy" then Some LCategoricalCrossEntropy else
  if s =? "SparseCategoricalCrossEntropy" then Some LSparseCategoricalCrossEntropy else
  if s =? "BinaryCrossEntropy" then Some LBinaryCrossEntropy else None.

(* Loss.cpp:549-565 list_loss_available *)
Definition list_loss_available : list string :=
  ["MeanSquaredError"; "MeanAbsoluteError"; "MeanCubicError"; "L2"; "L1"; "L3"; "Huber"; "PseudoHuber"; "LogCosh";
   "CategoricalCrossEntropy"; "SparseCategoricalCrossEntropy"; "BinaryCrossEntropy"].
