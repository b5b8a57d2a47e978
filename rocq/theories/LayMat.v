(* LayMat.v - forward and backward passes of the layers working cell by cell or by matrix products.
   Each function takes the members it reads, the input, and - where the C++ writes into the previous content of the
   destination - that content ([out], [gin]); it returns the new values.  [first] is _bFirstLayer. *)
From Coq Require Import List Arith Bool ZArith String.
From Verif Require Import Base Scalar Mat Loss Act.
Import ListNotations.
Local Open Scope nat_scope.

Section Model.
Variable F : FOps.
Notation M := (mat F).

(* random draws of one call: rf i is the i-th value returned by a float distribution, rz i the i-th engine output.
   Theorems quantify over all of them. *)
Record rnd := mkRnd { rf : nat -> F; rz : nat -> Z }.

(* for (i<n) for (j<k) *)
Definition loop2 {S} (n k : nat) (body : nat -> nat -> S -> res S) (s : S) : res S :=
  forN n (fun i s => forN k (fun j s => body i j s) s) s.

(* Matrix.cpp:468-482 setRandomUniform, setRandomNormal *)
Definition setRandom (g : nat -> F) (m : M) : res M := forN (msize m) (fun i m => mset1 m i (g i)) m.

(** * Initializers.cpp *)
(* 16-22, 32-38, 48-54: setRandom then a scale; 24-30, 40-46, 56-73: normal draws; 64-67, 75-84 *)
Definition initCompute (name : string) (g : nat -> F) (m : M) (nI nO : nat) : res M :=
  let scaled num den := r <- setRandom g (mresize F m nI nO) ;; mscale F r (flm F Lsqrt (fdiv F (fofN F num) (fofN F den))) in
  let plain := setRandom g (mresize F m nI nO) in
  (if name =? "GlorotUniform" then scaled 6 (nI + nO)
  else if name =? "GlorotNormal" then plain
  else if name =? "HeUniform" then scaled 6 nI
  else if name =? "HeNormal" then plain
  else if name =? "LecunUniform" then scaled 3 nI
  else if name =? "LecunNormal" then plain
  else if name =? "Uniform" then plain
  else if name =? "Normal" then plain
  else if name =? "Zeros" then msetZero F m nI nO
  else if name =? "Ones" then msetOnes F m nI nO
  else Ok m)%string. (* 120: unknown name, m untouched *)

(** * Dense, Dot *)
(* LayerDense.cpp:53-59 *)
Definition fwdDense (w b mIn : M) : res M :=
  assert_ (mcols mIn =? mrows w) ;;; assert_ (mcols w =? mcols b) ;;;
  o <- mmul F mIn w ;; rowWiseAdd F o b.
(* mIn.transpose()*mGradientOut then * (1.f/mIn.rows()) : LayerDense.cpp:63-66, LayerDot.cpp:61 *)
Definition gradDot (mIn mG : M) : res M :=
  t <- mtranspose F mIn ;; g <- mmul F t mG ;; mscale F g (fdiv F (f1 F) (fofN F (mrows mIn))).
(* mGradientOut * (_weight.transpose()) : LayerDense.cpp:71, LayerDot.cpp:64 *)
Definition backDot (w mG : M) : res M := t <- mtranspose F w ;; mmul F mG t.
(* LayerDense.cpp:61-72: (gradientWeight, gradientBias, gradientIn) *)
Definition bwdDense (first : bool) (w mIn mG gin : M) : res (M * M * M) :=
  gw <- gradDot mIn mG ;; gb <- colWiseMean F mG ;;
  gi <- (if first then Ok gin else backDot w mG) ;; Ok (gw, gb, gi).
(* LayerDot.cpp:52-56 *)
Definition fwdDot (w mIn : M) : res M := assert_ (mcols mIn =? mrows w) ;;; mmul F mIn w.
(* LayerDot.cpp:58-65 *)
Definition bwdDot (first : bool) (w mIn mG gin : M) : res (M * M) :=
  gw <- gradDot mIn mG ;; gi <- (if first then Ok gin else backDot w mG) ;; Ok (gw, gi).

(** * Bias, Gain, Affine and the Global variants.  A parameter of size 0 is created by the first forward pass. *)
(* LayerBias.cpp:40-46: (bias, out) *)
Definition fwdBias (name : string) (g : nat -> F) (b mIn : M) : res (M * M) :=
  b <- (if msize b =? 0 then initCompute name g b 1 (mcols mIn) else Ok b) ;;
  o <- rowWiseAdd F mIn b ;; Ok (b, o).
(* LayerBias.cpp:48-58, also the bias part of the others: (gradientBias, gradientIn) *)
Definition bwdBias (first : bool) (mG gin : M) : res (M * M) :=
  gb <- colWiseMean F mG ;; Ok (gb, if first then gin else mG).

(* m(i,j) *= w(j) for all cells: LayerGain.cpp:44-48, 59-63, LayerAffine.cpp:65-69 *)
Definition colScale (m w : M) : res M :=
  loop2 (mrows m) (mcols m) (fun i j m => x <- mget2 m i j ;; y <- mget1 w j ;; mset2 m i j (fmul F x y)) m.
(* colWiseMean((mIn.transpose())*mGradientOut): LayerGain.cpp:53, LayerAffine.cpp:59 *)
Definition gradGain (mIn mG : M) : res M := t <- mtranspose F mIn ;; p <- mmul F t mG ;; colWiseMean F p.
(* LayerGain.cpp:37-49: (weight, out) *)
Definition fwdGain (w mIn : M) : res (M * M) :=
  w <- (if msize w =? 0 then msetOnes F w 1 (mcols mIn) else Ok w) ;;
  o <- colScale mIn w ;; Ok (w, o).
(* LayerGain.cpp:51-64: (gradientWeight, gradientIn) *)
Definition bwdGain (first : bool) (w mIn mG gin : M) : res (M * M) :=
  gw <- gradGain mIn mG ;; gi <- (if first then Ok gin else colScale mG w) ;; Ok (gw, gi).
(* LayerAffine.cpp:39-54: (weight, bias, out) *)
Definition fwdAffine (w b mIn out : M) : res (M * M * M) :=
  ' (w, b) <- (if msize b =? 0
               then b <- msetZero F b 1 (mcols mIn) ;; w <- msetOnes F w 1 (mcols mIn) ;; Ok (w, b) else Ok (w, b)) ;;
  let out := mresize F out (mrows mIn) (mcols mIn) in
  o <- loop2 (mrows out) (mcols out) (fun i j o =>
         x <- mget2 mIn i j ;; y <- mget1 w j ;; z <- mget1 b j ;; mset2 o i j (fadd F (fmul F x y) z)) out ;;
  Ok (w, b, o).
(* LayerAffine.cpp:56-70: (gradientWeight, gradientBias, gradientIn) *)
Definition bwdAffine (first : bool) (w mIn mG gin : M) : res (M * M * M) :=
  gb <- colWiseMean F mG ;; gw <- gradGain mIn mG ;;
  gi <- (if first then Ok gin else colScale mG w) ;; Ok (gw, gb, gi).

(* LayerGlobalGain.cpp:39-42 *)
Definition fwdGlobalGain (w mIn : M) : res M := x <- mget1 w 0 ;; mscale F mIn x.
(* ((mIn.transpose())*mGradientOut).mean(): LayerGlobalGain.cpp:46, LayerGlobalAffine.cpp:51 *)
Definition gradGlobalGain (mIn mG : M) : res F := t <- mtranspose F mIn ;; p <- mmul F t mG ;; mmean F p.
(* LayerGlobalGain.cpp:44-52 *)
Definition bwdGlobalGain (first : bool) (w gw mIn mG gin : M) : res (M * M) :=
  v <- gradGlobalGain mIn mG ;; gw <- mset1 gw 0 v ;;
  gi <- (if first then Ok gin else x <- mget1 w 0 ;; mscale F mG x) ;; Ok (gw, gi).
(* LayerGlobalBias.cpp:37-40, 42-52 *)
Definition fwdGlobalBias (b mIn : M) : res M := x <- mget1 b 0 ;; maddS F mIn x.
Definition bwdGlobalBias (first : bool) (gb mG gin : M) : res (M * M) :=
  v <- mmean F mG ;; gb <- mset1 gb 0 v ;; Ok (gb, if first then gin else mG).
(* LayerGlobalAffine.cpp:44-47, 49-58 *)
Definition fwdGlobalAffine (w b mIn : M) : res M :=
  x <- mget1 w 0 ;; o <- mscale F mIn x ;; y <- mget1 b 0 ;; maddS F o y.
Definition bwdGlobalAffine (first : bool) (w gw gb mIn mG gin : M) : res (M * M * M) :=
  v <- gradGlobalGain mIn mG ;; gw <- mset1 gw 0 v ;; u <- mmean F mG ;; gb <- mset1 gb 0 u ;;
  gi <- (if first then Ok gin else x <- mget1 w 0 ;; mscale F mG x) ;; Ok (gw, gb, gi).

(* LayerChannelBias.cpp:50-54, 56-66 *)
Definition fwdChannelBias (nR nC nH : nat) (b mIn : M) : res M := channelWiseAdd F mIn (mrows mIn) nH nR nC b.
Definition bwdChannelBias (nR nC nH : nat) (first : bool) (mG gin : M) : res (M * M) :=
  gb <- channelWiseMean F mG (mrows mG) nH nR nC ;; Ok (gb, if first then gin else mG).

(** * Activation: None is a null _pActivation *)
Definition actApply (a : option actKind) (x : F) : res F := match a with Some k => Ok (act_apply F k x) | None => Err ENull end.
Definition actDeriv (a : option actKind) (x : F) : res F := match a with Some k => Ok (act_deriv F k x) | None => Err ENull end.
Definition notNull (a : option actKind) : bool := match a with Some _ => true | None => false end.
(* LayerActivation.cpp:34-41 *)
Definition fwdAct (a : option actKind) (mIn out : M) : res M :=
  assert_ (notNull a) ;;;
  let out := mresize F out (mrows mIn) (mcols mIn) in
  forN (msize out) (fun i o => x <- mget1 mIn i ;; y <- actApply a x ;; mset1 o i y) out.
(* LayerActivation.cpp:43-57 *)
Definition bwdAct (a : option actKind) (first : bool) (mIn mG gin : M) : res M :=
  assert_ (mrows mIn =? mrows mG) ;;; assert_ (mcols mIn =? mcols mG) ;;; assert_ (notNull a) ;;;
  if first then Ok gin else
  let gin := mresize F gin (mrows mG) (mcols mG) in
  g <- forN (msize gin) (fun i g => x <- mget1 mIn i ;; y <- actDeriv a x ;; mset1 g i y) gin ;;
  mcwiseProduct F g mG.

(* LayerGatedActivation.cpp:42-53 *)
Definition fwdGated (a1 a2 : option actKind) (mIn out : M) : res M :=
  assert_ (Nat.even (mcols mIn)) ;;;
  let h := mcols mIn / 2 in
  loop2 (mrows mIn) h (fun r c o =>
    x <- mget2 mIn r c ;; y1 <- actApply a1 x ;; z <- mget2 mIn r (c + h) ;; y2 <- actApply a2 z ;;
    mset2 o r c (fmul F y1 y2)) (mresize F out (mrows mIn) h).
(* LayerGatedActivation.cpp:55-72 *)
Definition bwdGated (a1 a2 : option actKind) (first : bool) (mIn mG gin : M) : res M :=
  if first then Ok gin else
  let h := mcols mIn / 2 in
  loop2 (mrows mIn) h (fun r c gi =>
    g <- mget2 mG r c ;; x <- mget2 mIn r c ;; z <- mget2 mIn r (c + h) ;;
    u2 <- actApply a2 z ;; d1 <- actDeriv a1 x ;;
    gi <- mset2 gi r c (fmul F (fmul F g u2) d1) ;;
    u1 <- actApply a1 x ;; d2 <- actDeriv a2 z ;;
    mset2 gi r (c + h) (fmul F (fmul F g u1) d2)) (mresize F gin (mrows mIn) (mcols mIn)).

(** * Parametric rectifiers *)
(* LayerCRelu.cpp:36-49 *)
Definition fwdCRelu (mIn out : M) : res M :=
  o <- msetZero F out (mrows mIn) (mcols mIn * 2) ;;
  loop2 (mrows mIn) (mcols mIn) (fun r c o =>
    f <- mget2 mIn r c ;;
    if fle F (f0 F) f then mset2 o r c f else mset2 o r (c + mcols mIn) (fopp F f)) o.
(* LayerCRelu.cpp:51-66 *)
Definition bwdCRelu (first : bool) (mIn mG gin : M) : res M :=
  if first then Ok gin else
  g <- msetZero F gin (mrows mIn) (mcols mIn) ;;
  loop2 (mrows mIn) (mcols mIn) (fun r c g =>
    f <- mget2 mIn r c ;;
    if flt F (f0 F) f then (x <- mget2 mG r c ;; mset2 g r c x)
    else (x <- mget2 mG r (c + mcols mIn) ;; mset2 g r c (fopp F x))) g.

(* LayerPRelu.cpp:38-54: (weight, gradientWeight, out) *)
Definition fwdPRelu (w gw mIn : M) : res (M * M * M) :=
  ' (w, gw) <- (if msize w =? 0
                then w <- msetConstR F w 1 (mcols mIn) (flit F 1 4) ;; Ok (w, mresize F gw (mrows w) (mcols w)) else Ok (w, gw)) ;;
  o <- loop2 (mrows mIn) (mcols mIn) (fun i j o =>
         x <- mget2 o i j ;;
         if flt F x (f0 F) then (y <- mget1 w j ;; mset2 o i j (fmul F x y)) else Ok o) mIn ;;
  Ok (w, gw, o).
(* LayerPRelu.cpp:56-81: (gradientWeight, gradientIn) *)
Definition bwdPRelu (first : bool) (w gw mIn mG gin : M) : res (M * M) :=
  gw <- msetConst F gw (f0 F) ;;
  gw <- loop2 (mrows mIn) (mcols mIn) (fun i j gw =>
          x <- mget2 mIn i j ;;
          if flt F x (f0 F) then (v <- mget2 gw 0 j ;; g <- mget2 mG i j ;; mset2 gw 0 j (fadd F v (fmul F x g))) else Ok gw) gw ;;
  gw <- mdivS F gw (fofN F (mrows mIn)) ;;
  gi <- (if first then Ok gin else
         loop2 (mrows mG) (mcols mG) (fun i j gi =>
           x <- mget2 mIn i j ;;
           if flt F x (f0 F) then (g <- mget2 gi i j ;; y <- mget1 w j ;; mset2 gi i j (fmul F g y)) else Ok gi) mG) ;;
  Ok (gw, gi).

(* LayerRRelu.cpp:20-22 *)
Definition rreluMean (a1 a2 : F) : F := fmul F (fadd F (fdiv F (f1 F) a1) (fdiv F (f1 F) a2)) (flit F 1 2).
(* LayerRRelu.cpp:40-58: (slopes, out); g i is the i-th draw of the uniform distribution on [1/a1, 1/a2] *)
Definition fwdRRelu (train : bool) (g : nat -> F) (a1 a2 : F) (slopes mIn : M) : res (M * M) :=
  if train then
    s <- setRandom g (mresize F slopes (mrows mIn) (mcols mIn)) ;;
    o <- forN (msize mIn) (fun i o => x <- mget1 o i ;; if flt F x (f0 F) then (y <- mget1 s i ;; mset1 o i (fmul F x y)) else Ok o) mIn ;;
    Ok (s, o)
  else
    o <- forN (msize mIn) (fun i o => x <- mget1 o i ;; if flt F x (f0 F) then mset1 o i (fmul F x (rreluMean a1 a2)) else Ok o) mIn ;;
    Ok (slopes, o).
(* LayerRRelu.cpp:60-72 *)
Definition bwdRRelu (first : bool) (slopes mIn mG gin : M) : res M :=
  if first then Ok gin else
  forN (msize mG) (fun i gi =>
    x <- mget1 mIn i ;;
    if flt F x (f0 F) then (g <- mget1 gi i ;; y <- mget1 slopes i ;; mset1 gi i (fmul F g y)) else Ok gi) mG.

(* LayerPELU.cpp:38-57: (weight, gradientWeight, out); row 0 of the weight is a, row 1 is b *)
Definition fwdPELU (w gw mIn : M) : res (M * M * M) :=
  ' (w, gw) <- (if msize w =? 0
                then w <- msetConst F (mresize F w 2 (mcols mIn)) (f1 F) ;; Ok (w, mresize F gw (mrows w) (mcols w)) else Ok (w, gw)) ;;
  o <- loop2 (mrows mIn) (mcols mIn) (fun i j o =>
         x <- mget2 o i j ;; a <- mget2 w 0 j ;; b <- mget2 w 1 j ;;
         mset2 o i j (if flt F (f0 F) x then fmul F x (fdiv F a b) else fmul F a (flm F Lexpm1 (fdiv F x b)))) mIn ;;
  Ok (w, gw, o).
(* LayerPELU.cpp:59-105: (weight, gradientWeight, gradientIn) *)
Definition bwdPELU (first : bool) (w gw mIn mG gin : M) : res (M * M * M) :=
  let tenth := flit F 1 10 in
  gw <- msetConst F gw (f0 F) ;;
  w <- forN (mcols mIn) (fun j w =>
         a <- mget2 w 0 j ;; w <- (if flt F a tenth then mset2 w 0 j tenth else Ok w) ;;
         b <- mget2 w 1 j ;; (if flt F b tenth then mset2 w 1 j tenth else Ok w)) w ;;
  gw <- loop2 (mrows mIn) (mcols mIn) (fun i j gw =>
          x <- mget2 mIn i j ;; a <- mget2 w 0 j ;; b <- mget2 w 1 j ;;
          let e := flm F Lexp (fdiv F x b) in
          let q := fmul F (fopp F a) (fdiv F x (fmul F b b)) in
          v <- mget2 gw 0 j ;;
          gw <- mset2 gw 0 j (fadd F v (if flt F (f0 F) x then fdiv F x b else fsub F e (f1 F))) ;;
          u <- mget2 gw 1 j ;;
          mset2 gw 1 j (fadd F u (if flt F (f0 F) x then q else fmul F q e))) gw ;;
  gw <- mdivS F gw (fofN F (mrows mIn)) ;;
  gi <- (if first then Ok gin else
         loop2 (mrows mG) (mcols mG) (fun i j gi =>
           x <- mget2 mIn i j ;; a <- mget2 w 0 j ;; b <- mget2 w 1 j ;; g <- mget2 gi i j ;;
           mset2 gi i j (fmul F g (if flt F (f0 F) x then fdiv F a b else fmul F (fdiv F a b) (flm F Lexp (fdiv F x b))))) mG) ;;
  Ok (w, gw, gi).

(* LayerTERELU.cpp:36-37, 41-59: _alpha = _mu = 1; (weight, gradientWeight, out) *)
Definition fwdTERELU (w gw mIn : M) : res (M * M * M) :=
  let alpha := f1 F in let mu := f1 F in
  ' (w, gw) <- (if msize w =? 0
                then w <- msetConstR F w 1 (mcols mIn) (f1 F) ;; Ok (w, mresize F gw (mrows w) (mcols w)) else Ok (w, gw)) ;;
  o <- loop2 (mrows mIn) (mcols mIn) (fun i j o =>
         x <- mget2 mIn i j ;;
         if fle F x (f0 F) then mset2 o i j (fmul F alpha (flm F Lexpm1 x))
         else if fle F mu x then (y <- mget1 w j ;; mset2 o i j (fmul F y (fsub F mu (flm F Lexpm1 (fsub F mu x)))))
         else Ok o) mIn ;;
  Ok (w, gw, o).
(* LayerTERELU.cpp:61-88: (gradientWeight, gradientIn) *)
Definition bwdTERELU (first : bool) (w gw mIn mG gin : M) : res (M * M) :=
  let alpha := f1 F in let mu := f1 F in
  gw <- msetConst F gw (f0 F) ;;
  gw <- loop2 (mrows mIn) (mcols mIn) (fun i j gw =>
          x <- mget2 mIn i j ;;
          if fle F mu x then (v <- mget2 gw 0 j ;; mset2 gw 0 j (fadd F v (fsub F mu (flm F Lexpm1 (fsub F mu x))))) else Ok gw) gw ;;
  gw <- mdivS F gw (fofN F (mrows mIn)) ;;
  gi <- (if first then Ok gin else
         loop2 (mrows mG) (mcols mG) (fun i j gi =>
           x <- mget2 mIn i j ;;
           if fle F x (f0 F) then (g <- mget2 gi i j ;; mset2 gi i j (fmul F g (fmul F alpha (flm F Lexp x))))
           else if fle F mu x then (g <- mget2 gi i j ;; y <- mget1 w j ;; mset2 gi i j (fmul F g (fmul F y (flm F Lexp (fsub F mu x)))))
           else Ok gi) mG) ;;
  Ok (gw, gi).

(** * Dropout and noise *)
(* conversion of a float to int (32 bits) then to unsigned: Matrix.cpp:488 *)
Definition bernoulliLimit (p : F) : res Z :=
  z <- toInt F (fmul F p (fofZ F 65536)) ;;
  if ((-2147483648 <=? z) && (z <=? 2147483647))%Z then Ok (z mod 4294967296)%Z else Err ECast.
Definition setQuickBernoulli (p : F) (g : nat -> Z) (m : M) : res M := l <- bernoulliLimit p ;; quickBernoulli F l g m.
(* LayerDropout.cpp:29-40: (mask, out) *)
Definition fwdDropout (train : bool) (rate : F) (g : nat -> Z) (mask mIn : M) : res (M * M) :=
  if train && negb (feq F rate (f0 F)) then
    k <- setQuickBernoulli (fsub F (f1 F) rate) g (mresize F mask (mrows mIn) (mcols mIn)) ;;
    k <- mscale F k (fdiv F (f1 F) (fsub F (f1 F) rate)) ;;
    o <- mcwiseProduct F mIn k ;; Ok (k, o)
  else Ok (mask, mIn).
(* LayerDropout.cpp:42-53 *)
Definition bwdDropout (first : bool) (rate : F) (mask mG gin : M) : res M :=
  if first then Ok gin else if negb (feq F rate (f0 F)) then mcwiseProduct F mG mask else Ok mG.
(* LayerGaussianDropout.cpp:30-43: (mask, out); g i: i-th normal draw *)
Definition fwdGaussianDropout (train : bool) (g : nat -> F) (mask mIn : M) : res (M * M) :=
  if train then
    let k := mresize F mask 1 (msize mIn) in
    k <- forN (msize k) (fun i k => mset2 k 0 i (g i)) k ;;
    d <- masDiagonal F k ;; o <- mmul F mIn d ;; Ok (k, o)
  else Ok (mask, mIn).
(* LayerGaussianDropout.cpp:45-54 *)
Definition bwdGaussianDropout (train first : bool) (mask mG gin : M) : res M :=
  assert_ train ;;; if first then Ok gin else d <- masDiagonal F mask ;; mmul F mG d.
(* LayerGaussianNoise.cpp:29-37, LayerUniformNoise.cpp:27-35; the backward passes return the gradient (39-47, 37-44) *)
Definition fwdNoise (train : bool) (noise : F) (g : nat -> F) (mIn : M) : res M :=
  if train && flt F (f0 F) noise
  then forN (msize mIn) (fun i o => x <- mget1 o i ;; mset1 o i (fadd F x (g i))) mIn else Ok mIn.
Definition bwdPass (first : bool) (mG gin : M) : res M := Ok (if first then gin else mG).

(** * Softmax, Softmin *)
(* S -= max; S = exp(S) : LayerSoftmax.cpp:35-36, 55-56, LayerSoftmin.cpp:38-39, 56-57 *)
Definition expRow (s : M) : res M := x <- mmaxCoeff F s ;; s <- msubS F s x ;; mapLoop (flm F Lexp) s.
(* m.row(r) = v : copies through the view of row r *)
Definition rowAssign (m : M) (r : nat) (v : M) : res M :=
  assert_ (r <? mrows m) ;;; forN (mcols m) (fun j m => x <- mget1 v j ;; mset2 m r j x) m.
(* loop of LayerSoftmax.cpp:32-38, LayerSoftmin.cpp:35-41 *)
Definition softRows (m : M) : res M :=
  forN (mrows m) (fun r o =>
    s <- mrow F o r ;; s <- expRow s ;; t <- msum F s ;; q <- mdivS F s t ;; rowAssign o r q) m.
(* LayerSoftmax.cpp:27-39 *)
Definition fwdSoftmax (mIn : M) : res M := softRows mIn.
(* LayerSoftmin.cpp:30-42 *)
Definition fwdSoftmin (mIn : M) : res M := o <- mneg F mIn ;; softRows o.
(* LayerSoftmax.cpp:43-65 *)
Definition bwdSoftmax (first : bool) (mIn mG gin : M) : res M :=
  if first then Ok gin else
  forN (mrows mIn) (fun r gi =>
    s <- mrow F mIn r ;; s <- expRow s ;; t <- msum F s ;; s <- mdivS F s t ;;
    forN (mcols s) (fun c gi =>
      p <- mget1 s c ;; g <- mget2 gi r c ;; mset2 gi r c (fmul F g (fmul F p (fsub F (f1 F) p)))) gi) mG.
(* LayerSoftmin.cpp:45-66 *)
Definition bwdSoftmin (first : bool) (mIn mG gin : M) : res M :=
  if first then Ok gin else
  forN (mrows mIn) (fun r gi =>
    s <- mrow F mIn r ;; s <- mneg F s ;; s <- expRow s ;; t <- msum F s ;;
    forN (mcols s) (fun c gi =>
      e <- mget1 s c ;; g <- mget2 mG r c ;;
      mset2 gi r c (fdiv F (fmul F (fopp F g) (fmul F e (fsub F t e))) (fmul F t t))) gi)
    (mresize F gin (mrows mG) (mcols mG)).

(** * Time distributed layers *)
Definition ndiv (a b : nat) : res nat := if b =? 0 then Err EDiv else Ok (a / b).
(* LayerTimeDistributedBias.cpp:45-51 *)
Definition fwdTDBias (fs : nat) (b mIn : M) : res M :=
  k <- ndiv (msize mIn) fs ;; v <- viewResize F mIn k fs ;;
  o <- rowWiseAdd F v b ;; Ok (mresize F o (mrows mIn) (mcols mIn)).
(* LayerTimeDistributedBias.cpp:53-65 *)
Definition bwdTDBias (fs : nat) (first : bool) (mG gin : M) : res (M * M) :=
  k <- ndiv (msize mG) fs ;; v <- viewResize F mG k fs ;;
  gb <- colWiseMean F v ;; Ok (gb, if first then gin else mG).
(* LayerTimeDistributedDot.cpp:55-62 *)
Definition fwdTDDot (fi fo : nat) (w mIn : M) : res M :=
  k <- ndiv (mcols mIn) fi ;; v <- viewResize F mIn (k * mrows mIn) fi ;;
  o <- mmul F v w ;; Ok (mresize F o (mrows mIn) (k * fo)).
(* LayerTimeDistributedDot.cpp:64-80: (gradientWeight, gradientIn) *)
Definition bwdTDDot (fi fo : nat) (first : bool) (w mIn mG gin : M) : res (M * M) :=
  k <- ndiv (mcols mG) fo ;; gr <- viewResize F mG (k * mrows mG) fo ;; v <- viewResize F mIn (k * mrows mIn) fi ;;
  t <- mtranspose F v ;; p <- mmul F t gr ;; gw <- mscale F p (fdiv F (f1 F) (fofN F (mrows mIn))) ;;
  gi <- (if first then Ok gin else wt <- mtranspose F w ;; g <- mmul F gr wt ;; Ok (mresize F g (mrows mIn) (k * fi))) ;;
  Ok (gw, gi).
(* LayerTimeDistributedDense.cpp:58-67 *)
Definition fwdTDDense (fi fo : nat) (w b mIn : M) : res M :=
  k <- ndiv (mcols mIn) fi ;; v <- viewResize F mIn (k * mrows mIn) fi ;;
  o <- mmul F v w ;; o <- rowWiseAdd F o b ;; Ok (mresize F o (mrows mIn) (k * fo)).
(* LayerTimeDistributedDense.cpp:69-86: (gradientWeight, gradientBias, gradientIn) *)
Definition bwdTDDense (fi fo : nat) (first : bool) (w mIn mG gin : M) : res (M * M * M) :=
  k <- ndiv (mcols mG) fo ;; gr <- viewResize F mG (k * mrows mG) fo ;; v <- viewResize F mIn (k * mrows mIn) fi ;;
  t <- mtranspose F v ;; p <- mmul F t gr ;; gw <- mscale F p (fdiv F (f1 F) (fofN F (mrows mIn))) ;;
  gb <- colWiseMean F gr ;;
  gi <- (if first then Ok gin else wt <- mtranspose F w ;; g <- mmul F gr wt ;; Ok (mresize F g (mrows mIn) (k * fi))) ;;
  Ok (gw, gb, gi).

End Model.
Arguments rf {F}. Arguments rz {F}.
