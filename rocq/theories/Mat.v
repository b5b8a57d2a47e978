(* Mat.v - value model of class Matrix (src/Matrix.h, branch without Eigen).
   A matrix is (rows, cols, row-major cells).  The field _iSize always equals rows*cols. *)
From Coq Require Import List Arith Lia Bool ZArith.
From Verif Require Import Base Scalar.
Import ListNotations.
Set Implicit Arguments.

Record mat (A : Type) := mkMat { mrows : nat; mcols : nat; mdata : list A }.
Arguments mkMat {A}.

Section Access.
Variable A : Type.
Implicit Type m : mat A.

(* Matrix.h:142-145 size() *)
Definition msize m := mrows m * mcols m.

(* Matrix.h:250-260 operator()(Index) ; the assert is checked first, then the memory access *)
Definition mget1 m (i : nat) : res A := assert_ (i <? msize m) ;;; rget (mdata m) i.
Definition mset1 m (i : nat) (v : A) : res (mat A) :=
  assert_ (i <? msize m) ;;; d <- rset (mdata m) i v ;; Ok (mkMat (mrows m) (mcols m) d).

(* Matrix.h:236-248 operator()(Index,Index) *)
Definition mget2 m (r c : nat) : res A :=
  assert_ (r <? mrows m) ;;; assert_ (c <? mcols m) ;;; rget (mdata m) (r * mcols m + c).
Definition mset2 m (r c : nat) (v : A) : res (mat A) :=
  assert_ (r <? mrows m) ;;; assert_ (c <? mcols m) ;;;
  d <- rset (mdata m) (r * mcols m + c) v ;; Ok (mkMat (mrows m) (mcols m) d).

(* Matrix.h:76-87, 104-112: copying an operand is the identity on values *)
Definition mcopy m : mat A := m.

(* for (i<size) m(i) = f(m(i)) : the shape shared by the element-wise members of Matrix.h:298-345, 418-570 *)
Definition mapLoop (f : A -> A) m : res (mat A) :=
  forN (msize m) (fun i m => x <- mget1 m i ;; mset1 m i (f x)) m.

(* for (i<size) m(i) = f(m(i), b(i)) *)
Definition zipLoop (f : A -> A -> A) m (b : mat A) : res (mat A) :=
  forN (msize m) (fun i m => x <- mget1 m i ;; y <- mget1 b i ;; mset1 m i (f x y)) m.

(* assert(rows equal); assert(cols equal) *)
Definition sameDims m (b : mat A) : res unit := assert_ (mrows m =? mrows b) ;;; assert_ (mcols m =? mcols b).

End Access.

Unset Implicit Arguments.
Section Ops.
Variable F : FOps.
Notation M := (mat F).

(* Matrix.h:45-52 Matrix(rows,cols): the cells of a fresh array are not initialised *)
Definition malloc (r c : nat) : M := mkMat r c (repeat (fjunk F) (r * c)).

(* Matrix.h:147-166 resize: same shape - nothing; same number of cells - reshape, keep the cells; else reallocate *)
Definition mresize (m : M) (r c : nat) : M :=
  if (c =? mcols m) && (r =? mrows m) then m
  else if r * c =? msize m then mkMat r c (mdata m)
  else malloc r c.

(* Matrix.h:183-192 setConstant (std::fill over _iSize cells) *)
Definition msetConst (m : M) (b : F) : res M := mapLoop (fun _ => b) m.
Definition msetConstR (m : M) (r c : nat) (b : F) : res M := msetConst (mresize m r c) b.
(* Matrix.h:194-202 setZero *)
Definition msetZero (m : M) (r c : nat) : res M := msetConstR m r c (f0 F).
(* Matrix.h:204-212 setOnes *)
Definition msetOnes (m : M) (r c : nat) : res M := msetConstR m r c (f1 F).

Definition mempty : M := mkMat 0 0 [].

(* Matrix.h:225-234 asDiagonal *)
Definition masDiagonal (m : M) : res M :=
  out <- msetZero mempty (msize m) (msize m) ;;
  forN (msize m) (fun i out => x <- rget (mdata m) i ;; mset2 out i i x) out.

(* Matrix.h:122-129 unary minus; 262-345 element-wise operators with asserts on the shapes *)
Definition mneg (m : M) : res M := mapLoop (fopp F) m.
Definition maddM (a b : M) : res M := sameDims a b ;;; zipLoop (fadd F) a b.
Definition msubM (a b : M) : res M := sameDims a b ;;; zipLoop (fsub F) a b.
Definition maddS (a : M) (d : F) : res M := mapLoop (fun x => fadd F x d) a.
Definition msubS (a : M) (d : F) : res M := mapLoop (fun x => fsub F x d) a.
Definition mscale (a : M) (d : F) : res M := mapLoop (fun x => fmul F x d) a.
Definition mdivS (a : M) (d : F) : res M := mapLoop (fun x => fdiv F x d) a.

(* Matrix.h:353-388 operator*= (RKC algorithm), operands not aliased; 624-627 operator* copies first *)
Definition mmul (a b : M) : res M :=
  assert_ (mcols a =? mrows b) ;;;
  out <- msetZero a (mrows a) (mcols b) ;;
  forN (mrows out) (fun r out =>
    forN (mcols a) (fun k out =>
      af <- mget2 a r k ;;
      forN (mcols out) (fun c out =>
        x <- mget2 out r c ;;
        y <- mget2 b k c ;;
        mset2 out r c (fadd F x (fmul F af y))) out) out) out.

(* Matrix.h:390-414 cwiseProduct, cwiseQuotient *)
Definition mcwiseProduct (a b : M) : res M :=
  assert_ (mcols a =? mcols b) ;;; assert_ (mrows a =? mrows b) ;;; zipLoop (fmul F) a b.
Definition mcwiseQuotient (a b : M) : res M :=
  assert_ (mcols a =? mcols b) ;;; assert_ (mrows a =? mrows b) ;;; zipLoop (fdiv F) a b.

(* Matrix.h:572-579 sum *)
Definition msum (m : M) : res F :=
  forN (msize m) (fun i s => x <- rget (mdata m) i ;; Ok (fadd F s x)) (f0 F).
(* Matrix.h:581-588 squaredNorm *)
Definition msquaredNorm (m : M) : res F :=
  forN (msize m) (fun i s => x <- rget (mdata m) i ;; Ok (fadd F s (fmul F x x))) (f0 F).
(* Matrix.h:590-593 norm *)
Definition mnorm (m : M) : res F := s <- msquaredNorm m ;; Ok (flm F Lsqrt s).
(* Matrix.h:595-598 mean *)
Definition mmean (m : M) : res F := s <- msum m ;; Ok (fdiv F s (fofN F (msize m))).
(* Matrix.h:600-611 maxCoeff *)
Definition mmaxCoeff (m : M) : res F :=
  if msize m =? 0 then Ok (f0 F) else
  d <- rget (mdata m) 0 ;;
  forL (seq 1 (msize m - 1)) (fun i d => x <- rget (mdata m) i ;; Ok (if flt F d x then x else d)) d.

(* Matrix.h:613-622 transpose *)
Definition mtranspose (m : M) : res M :=
  forN (mrows m) (fun r out =>
    forN (mcols m) (fun c out => x <- mget2 m r c ;; mset2 out c r x) out) (malloc (mcols m) (mrows m)).

(* Matrix.h:659-667 diagonal, 669-677 trace *)
Definition mdiagonal (m : M) : res M :=
  forN (mrows m) (fun i r => x <- mget2 m i i ;; mset1 r i x) (malloc (mrows m) 1).
Definition mtrace (m : M) : res F :=
  forN (mrows m) (fun i t => x <- mget2 m i i ;; Ok (fadd F t x)) (f0 F).

(** ** src/Matrix.cpp *)

(* Matrix.h:629-643 row(i), Matrix.cpp:442-448 viewRow: the rows [s,e) read through a view.
   fromRawBuffer does no check of its own: cells past the end of the buffer are caught here. *)
Definition viewRow (m : M) (s e : nat) : res M :=
  assert_ (s <? e) ;;; assert_ (e <=? mrows m) ;;;
  if e * mcols m <=? length (mdata m)
  then Ok (mkMat (e - s) (mcols m) (firstn ((e - s) * mcols m) (skipn (s * mcols m) (mdata m))))
  else Err EOob.
Definition mrow (m : M) (i : nat) : res M := assert_ (i <? mrows m) ;;; viewRow m i (S i).

(* Matrix.cpp:33-38 viewResize *)
Definition viewResize (m : M) (r c : nat) : res M :=
  assert_ (msize m =? r * c) ;;; Ok (mkMat r c (mdata m)).

(* Matrix.cpp:54-61 copyInto: std::copy of all cells of mToCopy at row start *)
Definition copyInto (src m : M) (start : nat) : res M :=
  forN (msize src) (fun i m =>
    x <- rget (mdata src) i ;; d <- rset (mdata m) (start * mcols m + i) x ;;
    Ok (mkMat (mrows m) (mcols m) d)) m.

(* Matrix.cpp:63-82 / 84-103 / 105-124: rowWiseSum, rowWiseMean, rowWiseSumSq *)
Definition rowWise (post : F -> F) (term : F -> F) (m : M) : res M :=
  forN (mrows m) (fun i result =>
    sum <- forN (mcols m) (fun j sum => x <- mget2 m i j ;; Ok (fadd F sum (term x))) (f0 F) ;;
    mset1 result i (post sum)) (malloc (mrows m) 1).
Definition rowWiseSum (m : M) := rowWise (fun s => s) (fun x => x) m.
Definition rowWiseMean (m : M) := rowWise (fun s => fdiv F s (fofN F (mcols m))) (fun x => x) m.
Definition rowWiseSumSq (m : M) := rowWise (fun s => s) (fun x => fmul F x x) m.

(* Matrix.cpp:126-145 / 147-166 / 168-187: colWiseSum, colWiseSumSq, colWiseMean *)
Definition colWise (post : F -> F) (term : F -> F) (m : M) : res M :=
  forN (mcols m) (fun j result =>
    sum <- forN (mrows m) (fun i sum => x <- mget2 m i j ;; Ok (fadd F sum (term x))) (f0 F) ;;
    mset1 result j (post sum)) (malloc 1 (mcols m)).
Definition colWiseSum (m : M) := colWise (fun s => s) (fun x => x) m.
Definition colWiseSumSq (m : M) := colWise (fun s => s) (fun x => fmul F x x) m.
Definition colWiseMean (m : M) := colWise (fun s => fdiv F s (fofN F (mrows m))) (fun x => x) m.

(* std::min(a,b) is (b<a)?b:a ; std::max(a,b) is (a<b)?b:a *)
Definition stdmin (a b : F) : F := if flt F b a then b else a.
Definition stdmax (a b : F) : F := if flt F a b then b else a.

(* Matrix.cpp:189-208 colWiseMin, 210-229 colWiseMax *)
Definition colWiseSel (sel : F -> F -> F) (m : M) : res M :=
  forN (mcols m) (fun j result =>
    x0 <- mget2 m 0 j ;;
    v <- forN (mrows m) (fun i v => x <- mget2 m i j ;; Ok (sel v x)) x0 ;;
    mset1 result j v) (malloc 1 (mcols m)).
Definition colWiseMin (m : M) := colWiseSel stdmin m.
Definition colWiseMax (m : M) := colWiseSel stdmax m.

(* r.row(l) op= ... : element-wise through the view of row l *)
Definition rowLoop (f : nat -> F -> res F) (m : M) (l : nat) : res M :=
  forN (mcols m) (fun j m => x <- mget2 m l j ;; y <- f j x ;; mset2 m l j y) m.

(* Matrix.cpp:231-242 rowWiseMult: d is a column, row l is scaled by d(l) *)
Definition rowWiseMult (m d : M) : res M :=
  assert_ (mrows d =? mrows m) ;;; assert_ (mcols d =? 1) ;;;
  forN (mrows m) (fun l r => y <- mget1 d l ;; rowLoop (fun _ x => Ok (fmul F x y)) r l) m.
(* Matrix.cpp:244-255 rowWiseDivide *)
Definition rowWiseDivide (m d : M) : res M :=
  assert_ (mcols d =? 1) ;;; assert_ (mrows d =? mrows m) ;;;
  forN (mrows m) (fun l r => y <- mget1 d l ;; rowLoop (fun _ x => Ok (fdiv F x y)) r l) m.
(* Matrix.cpp:257-271 rowWiseAdd: d is a row, added to every row *)
Definition rowWiseAdd (m d : M) : res M :=
  assert_ (mrows d =? 1) ;;; assert_ (mcols d =? mcols m) ;;;
  forN (mrows m) (fun l r => rowLoop (fun j x => y <- mget1 d j ;; Ok (fadd F x y)) r l) m.

(* Matrix.cpp:284-301 applyRowPermutation (memcpy of whole rows) *)
Definition applyRowPermutation (v : list nat) (mIn mPermuted : M) : res M :=
  assert_ (length v =? mrows mIn) ;;;
  forN (length v) (fun i p =>
    iPerm <- rget v i ;;
    assert_ (iPerm <? mrows mIn) ;;;
    forN (mcols mIn) (fun j p =>
      x <- rget (mdata mIn) (mcols mIn * iPerm + j) ;;
      d <- rset (mdata p) (mcols mIn * i + j) x ;;
      Ok (mkMat (mrows p) (mcols p) d)) p)
    (mresize mPermuted (mrows mIn) (mcols mIn)).

(* Matrix.cpp:303-312 clamp *)
Definition clampVal (lo hi x : F) : F := if flt F hi x then hi else if flt F x lo then lo else x.
Definition mclamp (m : M) (lo hi : F) : res M := mapLoop (clampVal lo hi) m.

(* Matrix.cpp:314-334 argmax *)
Definition argmax (m : M) : res nat :=
  assert_ (mrows m =? 1) ;;;
  if mcols m =? 0 then Ok 0 else
  d <- mget1 m 0 ;;
  p <- forL (seq 1 (mcols m - 1)) (fun i '(d, k) => x <- mget1 m i ;; Ok (if flt F d x then (x, i) else (d, k))) (d, 0) ;;
  Ok (snd p).

(* Matrix.cpp:336-343 rowsArgmax *)
Definition rowsArgmax (m argM : M) : res M :=
  forN (mrows m) (fun i a => r <- mrow m i ;; k <- argmax r ;; mset1 a i (fofN F k)) (mresize argM (mrows m) 1).

(* Matrix.cpp:345-355 decimate: row views of equal size, so assignment copies through *)
Definition decimate (m : M) (ratio : nat) : res M :=
  if ratio =? 0 then Err EDiv else
  forN (mrows m / ratio) (fun i out =>
    src <- mrow m (i * ratio) ;;
    forN (mcols out) (fun j out => x <- mget1 src j ;; mset2 out i j x) out) (malloc (mrows m / ratio) (mcols m)).

(* Matrix.cpp:450-460 colExtract *)
Definition colExtract (m : M) (s e : nat) : res M :=
  if e <? s then Err EThrow (* new float[negative] throws *) else
  forN (mrows m) (fun r out =>
    forN (e - s) (fun c out => x <- mget2 m r (c + s) ;; mset2 out r c x) out) (malloc (mrows m) (e - s)).

(* Matrix.cpp:484-491 setQuickBernoulli: rng i is the i-th engine output (unsigned) *)
Definition quickBernoulli (limit : Z) (rng : nat -> Z) (m : M) : res M :=
  forN (msize m) (fun i m =>
    mset1 m i (if (Z.land (rng i) 65535 <? limit)%Z then f1 F else f0 F)) m.

(* Matrix.cpp:499-511 channelWiseAdd *)
Definition channelWiseAdd (mIn : M) (nS nH nR nC : nat) (w : M) : res M :=
  assert_ (msize w =? nH) ;;; assert_ (mrows mIn =? nS) ;;; assert_ (msize mIn =? nS * nH * nR * nC) ;;;
  forN nS (fun iS m => forN nH (fun iH m => forN nR (fun iR m => forN nC (fun iC m =>
    x <- mget2 m iS (iH * nR * nC + iR * nC + iC) ;; y <- mget1 w iH ;;
    mset2 m iS (iH * nR * nC + iR * nC + iC) (fadd F x y)) m) m) m) mIn.

(* Matrix.cpp:513-531 channelWiseMean; the last line multiplies by 1/nS*nR*nC *)
Definition channelWiseMean (m : M) (nS nH nR nC : nat) : res M :=
  assert_ (mrows m =? nS) ;;; assert_ (msize m =? nS * nH * nR * nC) ;;;
  mean <- msetZero mempty 1 nH ;;
  mean <- forN nS (fun iS s => forN nH (fun iH s => forN nR (fun iR s => forN nC (fun iC s =>
    x <- mget2 s 0 iH ;; y <- mget2 m iS (iH * nR * nC + iR * nC + iC) ;;
    mset2 s 0 iH (fadd F x y)) s) s) s) mean ;;
  mscale mean (fmul F (fmul F (fdiv F (f1 F) (fofN F nS)) (fofN F nR)) (fofN F nC)).

(* Matrix.cpp:543-550 tanh, 552-559 oneMinusSquare *)
Definition mtanh (m : M) : res M := mapLoop (flm F Ltanh) m.
Definition moneMinusSquare (m : M) : res M := mapLoop (fun x => fsub F (f1 F) (fmul F x x)) m.

(* Matrix.cpp:561-567 reverseData on the n cells starting at offset off of a buffer.
   The first read address is off+n-1, the last off+n-1-(n>>1); for n = 0 it is off-1. *)
Definition reverseData (off n : nat) (b : list F) : res (list F) :=
  forN (S (n / 2)) (fun i b =>
    if (off + n) <? S i then Err EOob else
    x <- rget b (off + n - S i) ;; rset b (off + i) x) b.

End Ops.

(* std::shuffle: for i = 1 .. n-1, exchange v[i] with v[d], d drawn in [0,i] (draw i is the raw draw, reduced to the interval) *)
Definition swapN (v : list nat) (i j : nat) : res (list nat) :=
  x <- rget v i ;; y <- rget v j ;; v' <- rset v i y ;; rset v' j x.
Definition shuffle (draw : nat -> nat) (v : list nat) : res (list nat) :=
  forL (seq 1 (length v - 1)) (fun i v => swapN v i (draw i mod S i)) v.
(* Matrix.cpp:273-282 randPerm *)
Definition randPerm (draw : nat -> nat) (n : nat) : res (list nat) := shuffle draw (seq 0 n).
