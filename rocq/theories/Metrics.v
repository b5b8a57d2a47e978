(* Metrics.v - model of src/Metrics.cpp *)
From Coq Require Import List Arith Bool ZArith.
From Verif Require Import Base Scalar Mat Loss.
Import ListNotations.

Section Model.
Variable F : FOps.
Notation M := (mat F).

(* Metrics.h:30-33 *)
Record metrics := mkMet { mAcc : F; mBal : F; mConf : M; mNorm : M }.
(* Metrics.cpp:16-20 constructor *)
Definition metNew : metrics := mkMet (f0 F) (f0 F) (mempty F) (mempty F).

(* Metrics.cpp:48-49: the number of classes, guessed from the largest reference when 0.
   A negative guess makes every access of the matrix fail its assert. *)
Definition nbClass (mRef : M) (n : nat) : res nat :=
  if n =? 0 then x <- mmaxCoeff F mRef ;; z <- toInt F x ;; if (z + 1 <? 0)%Z then Err EAssert else Ok (Z.to_nat (z + 1))
  else Ok n.

(* Metrics.cpp:56-58: roundf, then min with n-1, then max with 0 (signed integers) *)
Definition predLabel (n : nat) (x : F) : res nat :=
  z <- toInt F (flm F Lround x) ;; Ok (Z.to_nat (Z.max (Z.min z (Z.of_nat n - 1)) 0)).

(* Metrics.cpp:43-74 compute *)
Definition metCompute (m : metrics) (mRef mTest : M) (iNbClass : nat) : res metrics :=
  assert_ (mrows mRef =? mrows mTest) ;;;
  n <- nbClass mRef iNbClass ;;
  z <- msetZero F (mConf m) n n ;;
  conf <- forN (mrows mRef) (fun i c =>
    t <- mget1 mTest i ;; p <- predLabel n t ;;
    r <- mget1 mRef i ;; k <- toIdx F r ;;
    v <- mget2 c k p ;; mset2 c k p (fadd F v (f1 F))) z ;;
  fTrace <- mtrace F conf ;;
  fSum <- msum F conf ;;
  mSumRow <- rowWiseSum F conf ;;
  d <- rowWiseDivide F conf mSumRow ;;
  norm <- mscale F d (fofZ F 100) ;;
  t <- mtrace F norm ;;
  Ok (mkMet (fmul F (fdiv F fTrace fSum) (fofZ F 100)) (fdiv F t (fofN F (mrows norm))) conf norm).
End Model.
Arguments mkMet {F}. Arguments mAcc {F}. Arguments mBal {F}. Arguments mConf {F}. Arguments mNorm {F}.
