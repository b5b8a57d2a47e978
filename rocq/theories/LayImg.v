(* LayImg.v - layers working on batches of images: pooling, padding, flip, convolution.
   mX.row(sample).data() + k is modelled as an access to cell sample*cols + k of the buffer, checked against the
   whole buffer (the C++ has no finer check).  Sizes are naturals: negative sizes are outside the model. *)
From Coq Require Import List Arith Bool ZArith.
From Verif Require Import Base Scalar Mat Loss LayMat.
Import ListNotations.
Local Open Scope nat_scope.

Section Model.
Variable F : FOps.
Notation M := (mat F).

(* mX.row(s).data()[k] *)
Definition rowGet (m : M) (s k : nat) : res F := assert_ (s <? mrows m) ;;; rget (mdata m) (s * mcols m + k).
Definition rowSet (m : M) (s k : nat) (v : F) : res M :=
  assert_ (s <? mrows m) ;;; d <- rset (mdata m) (s * mcols m + k) v ;; Ok (mkMat (mrows m) (mcols m) d).

(** * MaxPool2D: iR x iC planes, nH channels, windows of fr x fc *)
Record pool := mkPool { pR : nat; pC : nat; pH : nat; pfr : nat; pfc : nat }.
(* LayerMaxPool2D.cpp:21-24, LayerAveragePooling2D.cpp:22-25 *)
Definition poR p := pR p / pfr p.
Definition poC p := pC p / pfc p.
Definition pIn p := pR p * pC p.
Definition pOut p := poR p * poC p.
(* the constructor divides by the factors *)
Definition poolOk p : res unit := if (pfr p =? 0) || (pfc p =? 0) then Err EDiv else Ok tt.

Definition bigNeg : F := flit F (-100000000000000000000000000000000000000) 1. (* -1.e38f *)

(* LayerMaxPool2D.cpp:61-77: maximum and its flat position in the plane (-1: none found) *)
Definition windowMax p (mIn : M) (s h r c : nat) : res (F * Z) :=
  loop2 (pfr p) (pfc p) (fun a b '(fMax, pos) =>
    let idx := (r * pfr p + a) * pC p + (c * pfc p + b) in
    x <- rowGet mIn s (h * pIn p + idx) ;;
    Ok (if flt F fMax x then (x, Z.of_nat idx) else (fMax, pos))) (bigNeg, (-1)%Z).
(* LayerMaxPool2D.cpp:44-87: (maxIndex, out) *)
Definition fwdMaxPool p (train : bool) (mx mIn out : M) : res (M * M) :=
  let out := mresize F out (mrows mIn) (pOut p * pH p) in
  let mx := if train then mresize F mx (mrows out) (mcols out) else mx in
  loop2 (mrows mIn) (pH p) (fun s h st =>
    loop2 (poR p) (poC p) (fun r c '(mx, out) =>
      w <- windowMax p mIn s h r c ;;
      out <- rowSet out s (h * pOut p + (r * poC p + c)) (fst w) ;;
      mx <- (if train then mset2 mx s (h * pOut p + (r * poC p + c)) (fofZ F (snd w)) else Ok mx) ;;
      Ok (mx, out)) st) (mx, out).
(* (Index)x used as an offset from [base]: a negative result is an address before base *)
Definition offsetIdx (base : nat) (x : F) : res nat :=
  z <- toInt F x ;; let a := (Z.of_nat base + z)%Z in if (a <? 0)%Z then Err EOob else Ok (Z.to_nat a).
(* LayerMaxPool2D.cpp:89-111 *)
Definition bwdMaxPool p (first : bool) (mx mG gin : M) : res M :=
  if first then Ok gin else
  g <- msetZero F gin (mrows mG) (pIn p * pH p) ;;
  loop2 (mrows mG) (pH p) (fun s h g =>
    forN (pOut p) (fun i g =>
      v <- rowGet mG s (h * pOut p + i) ;;
      q <- mget1 mx i ;;
      assert_ (s <? mrows g) ;;;
      a <- offsetIdx (s * mcols g + h * pIn p) q ;;
      d <- rset (mdata g) a v ;; Ok (mkMat (mrows g) (mcols g) d)) g) g.

(** * GlobalMaxPool2D *)
(* LayerGlobalMaxPool2D.cpp:46-60: position inside the sample row *)
Definition planeMax (nR nC : nat) (mIn : M) (s h : nat) : res (F * Z) :=
  loop2 nR nC (fun r c '(fMax, pos) =>
    let idx := h * nR * nC + r * nC + c in
    x <- mget2 mIn s idx ;;
    Ok (if flt F fMax x then (x, Z.of_nat idx) else (fMax, pos))) (bigNeg, (-1)%Z).
(* LayerGlobalMaxPool2D.cpp:36-66: (maxIndex, out) *)
Definition fwdGlobalMaxPool (nR nC nH : nat) (train : bool) (mx mIn out : M) : res (M * M) :=
  let out := mresize F out (mrows mIn) nH in
  let mx := if train then mresize F mx (mrows out) (mcols out) else mx in
  loop2 (mrows mIn) nH (fun s h '(mx, out) =>
    w <- planeMax nR nC mIn s h ;;
    out <- mset2 out s h (fst w) ;;
    mx <- (if train then mset2 mx s h (fofZ F (snd w)) else Ok mx) ;;
    Ok (mx, out)) (mx, out).
(* LayerGlobalMaxPool2D.cpp:68-84 *)
Definition bwdGlobalMaxPool (nR nC nH : nat) (first : bool) (mx mG gin : M) : res M :=
  if first then Ok gin else
  g <- msetZero F gin (mrows mG) (nH * nC * nR) ;;
  loop2 (mrows mG) nH (fun s h g =>
    q <- mget2 mx s h ;; k <- toIdx F q ;; v <- mget2 mG s h ;; mset2 g s k v) g.

(** * AveragePooling2D, GlobalAveragePooling2D *)
(* LayerAveragePooling2D.cpp:26 *)
Definition invKernel p : F := fdiv F (f1 F) (fofN F (pfr p * pfc p)).
(* LayerAveragePooling2D.cpp:46-77 *)
Definition fwdAvgPool p (mIn out : M) : res M :=
  loop2 (mrows mIn) (pH p) (fun s h o =>
    loop2 (poR p) (poC p) (fun r c o =>
      t <- loop2 (pfr p) (pfc p) (fun a b t =>
             x <- rowGet mIn s (h * pIn p + ((r * pfr p + a) * pC p + (c * pfc p + b))) ;; Ok (fadd F t x)) (f0 F) ;;
      rowSet o s (h * pOut p + (r * poC p + c)) (fmul F t (invKernel p))) o)
    (mresize F out (mrows mIn) (pOut p * pH p)).
(* LayerAveragePooling2D.cpp:79-114 *)
Definition bwdAvgPool p (first : bool) (mG gin : M) : res M :=
  if first then Ok gin else
  g <- msetZero F gin (mrows mG) (pIn p * pH p) ;;
  loop2 (mrows mG) (pH p) (fun s h g =>
    loop2 (poR p) (poC p) (fun r c g =>
      v <- rowGet mG s (h * pOut p + (c + r * poC p)) ;;
      let v := fmul F v (invKernel p) in
      loop2 (pfr p) (pfc p) (fun a b g =>
        let k := h * pIn p + ((r * pfr p + a) * pC p + (c * pfc p + b)) in
        x <- rowGet g s k ;; rowSet g s k (fadd F x v)) g) g) g.
(* LayerGlobalAveragePooling2D.cpp:39-64 *)
Definition fwdGlobalAvgPool (nR nC nH : nat) (mIn out : M) : res M :=
  loop2 (mrows mIn) nH (fun s h o =>
    t <- loop2 nR nC (fun r c t => x <- rowGet mIn s (h * (nR * nC) + (r * nC + c)) ;; Ok (fadd F t x)) (f0 F) ;;
    rowSet o s h (fmul F t (fdiv F (f1 F) (fofN F (nR * nC)))))
    (mresize F out (mrows mIn) nH).
(* LayerGlobalAveragePooling2D.cpp:66-95 *)
Definition bwdGlobalAvgPool (nR nC nH : nat) (first : bool) (mG gin : M) : res M :=
  if first then Ok gin else
  loop2 (mrows mG) nH (fun s h g =>
    v <- rowGet mG s h ;;
    let v := fmul F v (fdiv F (f1 F) (fofN F (nR * nC))) in
    loop2 nR nC (fun r c g => rowSet g s (h * (nR * nC) + (r * nC + c)) v) g)
    (mresize F gin (mrows mG) (nR * nC * nH)).

(** * ZeroPadding2D *)
(* LayerZeroPadding2D.cpp:42-65 *)
Definition fwdZeroPad (nR nC nH nB : nat) (mIn out : M) : res M :=
  let oC := nC + 2 * nB in let oP := (nR + 2 * nB) * oC in
  o <- msetZero F out (mrows mIn) (oP * nH) ;;
  loop2 (mrows mIn) nH (fun s h o => loop2 nR nC (fun r c o =>
    x <- rowGet mIn s (h * (nR * nC) + (r * nC + c)) ;;
    rowSet o s (h * oP + ((r + nB) * oC + c + nB)) x) o) o.
(* LayerZeroPadding2D.cpp:67-96 *)
Definition bwdZeroPad (nR nC nH nB : nat) (first : bool) (mG gin : M) : res M :=
  if first then Ok gin else
  let oC := nC + 2 * nB in let oP := (nR + 2 * nB) * oC in
  loop2 (mrows mG) nH (fun s h g => loop2 nR nC (fun r c g =>
    x <- rowGet mG s (h * oP + ((r + nB) * oC + c + nB)) ;;
    rowSet g s (h * (nR * nC) + (r * nC + c)) x) g)
    (mresize F gin (mrows mG) (nR * nC * nH)).

(** * RandomFlip *)
(* loops of LayerRandomFlip.cpp:54-68 and 81-95 *)
Definition flipRows (nR nC nH nS : nat) (flipped m : M) : res M :=
  forN nS (fun s m =>
    f <- mget1 flipped s ;;
    if feq F f (f0 F) then Ok m else
    assert_ (s <? mrows m) ;;;
    loop2 nH nR (fun h r m =>
      d <- reverseData F (s * mcols m + h * (nR * nC) + r * nC) nC (mdata m) ;; Ok (mkMat (mrows m) (mcols m) d)) m) m.
(* LayerRandomFlip.cpp:44-69: (flipped, out) *)
Definition fwdFlip (nR nC nH : nat) (train : bool) (g : nat -> Z) (flipped mIn : M) : res (M * M) :=
  if train then Ok (flipped, mIn) else
  f <- setQuickBernoulli F (flit F 1 2) g (mresize F flipped (mrows mIn) 1) ;;
  o <- flipRows nR nC nH (mrows mIn) f mIn ;; Ok (f, o).
(* LayerRandomFlip.cpp:71-96 *)
Definition bwdFlip (nR nC nH : nat) (first : bool) (flipped mIn mG gin : M) : res M :=
  if first then Ok gin else flipRows nR nC nH (mrows mIn) flipped mG.

(** * Convolution2D *)
Record conv := mkConv { vR : nat; vC : nat; vI : nat; vkr : nat; vkc : nat; vO : nat; vsr : nat; vsc : nat }.
(* LayerConvolution2D.cpp:34-45 *)
Definition outSize (n k stride : nat) : nat :=
  let o := n - 2 * (k / 2) in if 1 <? stride then (o + 1) / stride else o.
Definition oR v := outSize (vR v) (vkr v) (vsr v).
Definition oC v := outSize (vC v) (vkc v) (vsc v).
(* negative output sizes are outside the model *)
Definition convOk v : res unit := assert_ ((2 * (vkr v / 2) <=? vR v) && (2 * (vkc v / 2) <=? vC v)).
Definition ksize v := vkr v * vkc v * vI v.

(* LayerConvolution2D.cpp:345-359 create_im2col_LUT *)
Definition lut v : res (list nat) :=
  forN (vI v) (fun ch l => loop2 (vkr v) (vkc v) (fun kr kc l =>
    rset l (kc + kr * vkc v + ch * vkr v * vkc v) (ch * vR v * vC v + kr * vC v + kc)) l) (repeat 0 (ksize v)).
(* LayerConvolution2D.cpp:128-168 im2col: (samples, col) *)
Definition im2col v (mIn col : M) : res M :=
  assert_ (mcols mIn =? vR v * vC v * vI v) ;;;
  forN (mrows mIn) (fun s m => forN (vI v) (fun ch m => loop2 (vkr v) (vkc v) (fun kr kc m =>
    loop2 (oR v) (oC v) (fun r c m =>
      let rp := r * vsr v + kr in let cp := c * vsc v + kc in
      assert_ (rp <? vR v) ;;; assert_ (cp <? vC v) ;;;
      f <- mget2 mIn s (ch * vR v * vC v + rp * vC v + cp) ;;
      mset2 m (s * oC v * oR v + r * oC v + c) (ch * vkr v * vkc v + kr * vkc v + kc) f) m) m) m)
    (mresize F col (oR v * oC v * mrows mIn) (ksize v)).
(* LayerConvolution2D.cpp:316-343 im2col_LUT *)
Definition im2colLUT v (l : list nat) (mIn col : M) : res M :=
  assert_ (mcols mIn =? vR v * vC v * vI v) ;;;
  let n := List.length l in
  forN (mrows mIn) (fun s m => loop2 (oR v) (oC v) (fun r c m =>
    forN n (fun i m =>
      o <- rget l i ;;
      x <- rget (mdata mIn) (s * vR v * vC v * vI v + r * vC v * vsr v + c * vsc v + o) ;;
      d <- rset (mdata m) ((c + r * oC v) * mcols m + s * oC v * oR v * n + i) x ;;
      Ok (mkMat (mrows m) (mcols m) d)) m) m)
    (mresize F col (oR v * oC v * mrows mIn) (ksize v)).
(* rescale of LayerConvolution2D.cpp:213, 270 *)
Definition imScale v : F := fdiv F (f1 F) (fofN F (vkr v * vkc v * vO v)).
(* LayerConvolution2D.cpp:170-214 col2im *)
Definition col2im v (nS : nat) (col im : M) : res M :=
  assert_ (mrows col =? ksize v) ;;; assert_ (mcols col =? oR v * oC v * nS) ;;;
  im <- msetZero F im nS (vI v * vR v * vC v) ;;
  im <- forN nS (fun s m => loop2 (oR v) (oC v) (fun r c m => forN (vI v) (fun ch m => loop2 (vkr v) (vkc v) (fun kr kc m =>
    let rp := r * vsr v + kr in let cp := c * vsc v + kc in
    assert_ (rp <? vR v) ;;; assert_ (cp <? vC v) ;;;
    f <- mget2 col (ch * vkr v * vkc v + kr * vkc v + kc) (s * oC v * oR v + r * oC v + c) ;;
    x <- mget2 m s (ch * vR v * vC v + rp * vC v + cp) ;;
    mset2 m s (ch * vR v * vC v + rp * vC v + cp) (fadd F x f)) m) m) m) im ;;
  mscale F im (imScale v).
(* LayerConvolution2D.cpp:216-271 col2im_LUT *)
Definition col2imLUT v (nS : nat) (col im : M) : res M :=
  assert_ (mrows col =? ksize v) ;;; assert_ (mcols col =? oR v * oC v * nS) ;;;
  im <- msetZero F im nS (vI v * vR v * vC v) ;;
  im <- loop2 nS (oR v) (fun s r m => forN (vI v) (fun ch m => loop2 (vkr v) (vkc v) (fun kr kc m =>
    forN (oC v) (fun c m =>
      f <- mget2 col (ch * vkr v * vkc v + kr * vkc v + kc) (s * oC v * oR v + r * oC v + c) ;;
      let k := s * vR v * vC v * vI v + r * vsr v * vC v + (kr * vC v + ch * vR v * vC v) + kc + c * vsc v in
      x <- rget (mdata m) k ;; d <- rset (mdata m) k (fadd F x f) ;; Ok (mkMat (mrows m) (mcols m) d)) m) m) m) im ;;
  mscale F im (imScale v).

(* m.row(a) = src.row(b) *)
Definition rowCopy (m : M) (a : nat) (src : M) (b : nat) : res M :=
  assert_ (a <? mrows m) ;;; x <- mrow F src b ;; forN (mcols m) (fun j m => y <- mget1 x j ;; mset2 m a j y) m.
(* LayerConvolution2D.cpp:273-292 reshape_to_out *)
Definition reshapeToOut v (nS : nat) (m : M) : res M :=
  assert_ (mcols m =? nS * oR v * oC v) ;;; assert_ (mrows m =? vO v) ;;;
  let m := mresize F m (nS * vO v) (oR v * oC v) in
  let tmp := m in
  m <- loop2 (vO v) nS (fun o s m => rowCopy m (o + s * vO v) tmp (s + o * nS)) m ;;
  Ok (mresize F m nS (oR v * oC v * vO v)).
(* LayerConvolution2D.cpp:294-314 reshape_from_out *)
Definition reshapeFromOut v (nS : nat) (m : M) : res M :=
  assert_ (mcols m =? vO v * oR v * oC v) ;;; assert_ (mrows m =? nS) ;;;
  let m := mresize F m (nS * vO v) (oR v * oC v) in
  let tmp := m in
  m <- loop2 (vO v) nS (fun o s m => rowCopy m (s + o * nS) tmp (o + s * vO v)) m ;;
  Ok (mresize F m (vO v) (oR v * oC v * nS)).

(* LayerConvolution2D.cpp:89-98: (im2colT, out); the number of samples is kept in _iSamples *)
Definition fwdConv v (fast : bool) (w col mIn : M) : res (M * M) :=
  convOk v ;;;
  col <- (if fast then l <- lut v ;; im2colLUT v l mIn col else im2col v mIn col) ;;
  t <- mtranspose F col ;; o <- mmul F w t ;; o <- reshapeToOut v (mrows mIn) o ;; Ok (col, o).
(* LayerConvolution2D.cpp:100-126: (gradientWeight, gradientIn) *)
Definition bwdConv v (fast first : bool) (nS : nat) (w col mIn mG gin : M) : res (M * M) :=
  assert_ (mrows mG =? nS) ;;; assert_ (mcols mG =? oR v * oC v * vO v) ;;;
  u <- reshapeFromOut v nS mG ;;
  gw <- mmul F u col ;;
  assert_ (mrows gw =? mrows w) ;;; assert_ (mcols gw =? mcols w) ;;;
  if first then Ok (gw, gin) else
  wt <- mtranspose F w ;; gc <- mmul F wt u ;;
  gi <- (if fast then col2imLUT v nS gc gin else col2im v nS gc gin) ;;
  assert_ (mrows gi =? mrows mIn) ;;; assert_ (mcols gi =? mcols mIn) ;;; Ok (gw, gi).

End Model.
