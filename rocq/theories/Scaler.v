(* Scaler.v - model of src/MinMaxScaler.cpp and src/StandardScaler.cpp *)
From Coq Require Import List Arith Bool ZArith.
From Verif Require Import Base Scalar Mat.
Import ListNotations.

Section Model.
Variable F : FOps.
Notation M := (mat F).

(* MinMaxScaler.h: _mMin, _mMax *)
Record mmScaler := mkMM { mmMin : M; mmMax : M }.

(* MinMaxScaler.cpp:16-29 fit *)
Definition mmFit (m : M) : res mmScaler :=
  lo <- colWiseMin F m ;;
  hi <- colWiseMax F m ;;
  forN (mcols m) (fun i s =>
    a <- mget1 (mmMin s) i ;;
    b <- mget1 (mmMax s) i ;;
    if feq F a b then
      lo' <- mset1 (mmMin s) i (f0 F) ;;
      hi' <- mset1 (mmMax s) i (f1 F) ;;
      Ok (mkMM lo' hi')
    else Ok s) (mkMM lo hi).

(* MinMaxScaler.cpp:31-36 transform *)
Definition mmTransform (s : mmScaler) (m : M) : res M :=
  forN (mrows m) (fun i m => forN (mcols m) (fun j m =>
    x <- mget2 m i j ;; a <- mget1 (mmMin s) j ;; b <- mget1 (mmMax s) j ;; a' <- mget1 (mmMin s) j ;;
    mset2 m i j (fdiv F (fsub F x a) (fsub F b a'))) m) m.

(* StandardScaler.h: _mMean, _mStd *)
Record stdScaler := mkStd { stMean : M; stStd : M }.
(* a scaler before fit: default constructed matrices *)
Definition stdNew : stdScaler := mkStd (mempty F) (mempty F).

(* StandardScaler.cpp:16-36 fit *)
Definition stdFit (s : stdScaler) (m : M) : res stdScaler :=
  mSum <- colWiseSum F m ;;
  mSumSq <- colWiseSumSq F m ;;
  forN (mcols m) (fun i s =>
    a <- mget1 mSum i ;;
    q <- mget1 mSumSq i ;;
    let n := fofN F (mrows m) in
    let mean := fdiv F a n in
    let var := fsub F (fdiv F q n) (fdiv F (fmul F a a) (fmul F n n)) in
    me <- mset1 (stMean s) i mean ;;
    sd <- mset1 (stStd s) i (if negb (feq F var (f0 F)) then flm F Lsqrt var else f1 F) ;;
    Ok (mkStd me sd))
    (mkStd (mresize F (stMean s) 1 (mcols m)) (mresize F (stStd s) 1 (mcols m))).

(* StandardScaler.cpp:38-43 transform *)
Definition stdTransform (s : stdScaler) (m : M) : res M :=
  forN (mrows m) (fun i m => forN (mcols m) (fun j m =>
    x <- mget2 m i j ;; a <- mget2 (stMean s) 0 j ;; d <- mget2 (stStd s) 0 j ;;
    mset2 m i j (fdiv F (fsub F x a) d)) m) m.
End Model.
Arguments mkMM {F}. Arguments mmMin {F}. Arguments mmMax {F}.
Arguments mkStd {F}. Arguments stMean {F}. Arguments stStd {F}.
