(* Layer.v - layer objects: members, constructors, init, clone, and the virtual forward / backpropagation.
   One record holds the members of every class; a class uses those listed beside its [kind].
   Initializers draw from [rf r]; [rf r (n+i)] are the draws following the first n. *)
From Coq Require Import List Arith Bool ZArith String.
From Verif Require Import Base Scalar Mat Act LayMat LayImg LayRnn.
Import ListNotations.
Local Open Scope nat_scope.

Section Model.
Variable F : FOps.
Notation M := (mat F).

(* the class of the object with the arguments of its constructor.  LayerGLU, LayerReGLU, LayerSwiGLU, LayerBilinear, ...
   are KGated with fixed activations. *)
Inductive kind :=
| KDense (nI nO : nat) | KDot (nI nO : nat) | KBias | KGain | KAffine | KGlobalGain | KGlobalBias | KGlobalAffine
| KChannelBias (nR nC nH : nat)
| KAct (a : option actKind) | KGated (a1 a2 : option actKind) | KCRelu | KPRelu | KRRelu (a1 a2 : F) | KPELU | KTERELU
| KDropout (rate : F) | KGaussianDropout (p : F) | KGaussianNoise (s : F) | KUniformNoise (s : F)
| KSoftmax | KSoftmin
| KTDBias (fs : nat) | KTDDot (fi fo : nat) | KTDDense (fi fo : nat)
| KMaxPool (p : pool) | KGlobalMaxPool (nR nC nH : nat) | KAvgPool (p : pool) | KGlobalAvgPool (nR nC nH : nat)
| KZeroPad (nR nC nH nB : nat) | KFlip (nR nC nH : nat)
| KConv (v : conv) (fast : bool)
| KSimpleRnn (fs u : nat) | KSimplestRnn (fs : nat).

(* Layer.h:53-60 and the members of the derived classes.
   lmem: _mask (dropouts), _slopes (RRelu), _mMaxIndex (max pools), _im2colT (convolution), _flipped (flip).
   lns: _iSamples (convolution).  lrnn: members of the recurrent classes (wH is unused by SimplestRNN, which uses lw). *)
Record layer := mkLay {
  lk : kind; lwi : string; lbi : string;
  lw : M; lgw : M; lb : M; lgb : M;
  ltrain : bool; lfirst : bool;
  lmem : M; lns : nat; lrnn : rnn F }.

Definition setP l w gw b gb := mkLay (lk l) (lwi l) (lbi l) w gw b gb (ltrain l) (lfirst l) (lmem l) (lns l) (lrnn l).
Definition setW l w := setP l w (lgw l) (lb l) (lgb l).
Definition setB l b := setP l (lw l) (lgw l) b (lgb l).
Definition setWB l w b := setP l w (lgw l) b (lgb l).
Definition setGW l g := setP l (lw l) g (lb l) (lgb l).
Definition setGB l g := setP l (lw l) (lgw l) (lb l) g.
Definition setGWB l g h := setP l (lw l) g (lb l) h.
Definition setMem l m := mkLay (lk l) (lwi l) (lbi l) (lw l) (lgw l) (lb l) (lgb l) (ltrain l) (lfirst l) m (lns l) (lrnn l).
Definition setNs l n := mkLay (lk l) (lwi l) (lbi l) (lw l) (lgw l) (lb l) (lgb l) (ltrain l) (lfirst l) (lmem l) n (lrnn l).
Definition setRnn l s := mkLay (lk l) (lwi l) (lbi l) (lw l) (lgw l) (lb l) (lgb l) (ltrain l) (lfirst l) (lmem l) (lns l) s.
(* Layer.cpp:36-44 set_first_layer, set_train_mode *)
Definition setFirst l f := mkLay (lk l) (lwi l) (lbi l) (lw l) (lgw l) (lb l) (lgb l) (ltrain l) f (lmem l) (lns l) (lrnn l).
Definition setTrain l t := mkLay (lk l) (lwi l) (lbi l) (lw l) (lgw l) (lb l) (lgb l) t (lfirst l) (lmem l) (lns l) (lrnn l).
(* Layer.cpp:46-54 has_weights, has_biases *)
Definition hasWeights l : bool := negb (msize (lw l) =? 0).
Definition hasBiases l : bool := negb (msize (lb l) =? 0).

Definition rnn0 : rnn F := mkRnn (mempty F) (mempty F) (mempty F) (mempty F) [].
Definition after (r : rnd F) (n : nat) : nat -> F := fun i => rf r (n + i).

(* LayerRNN members with SimplestRNN's _weight in the place of _whh *)
Definition simplestOf l : rnn F := let s := lrnn l in mkRnn (lw l) (wX s) (bH s) (hh s) (saved s).

(** * init()
   LayerDense.cpp:38-51, LayerDot.cpp:36-50, LayerBias.cpp:34-38, LayerGain.cpp:30-35, LayerAffine.cpp:31-37,
   LayerGlobalGain.cpp:32-37, LayerGlobalBias.cpp:31-35, LayerGlobalAffine.cpp:36-42, LayerChannelBias.cpp:37-41,
   LayerPRelu/PELU/TERELU.cpp:32-36 (34-39), LayerTimeDistributedBias.cpp:39-43, LayerTimeDistributedDot.cpp:47-53,
   LayerTimeDistributedDense.cpp:50-56, LayerConvolution2D.cpp:56-67, LayerSimpleRNN.cpp:22-30,
   LayerSimplestRNN.cpp:22-27; the others do nothing *)
Definition layInit (r : rnd F) (l : layer) : res layer :=
  match lk l with
  | KDense nI nO =>
      if (nI =? 0) || (nO =? 0) then Ok l else
      w <- initCompute F (lwi l) (rf r) (lw l) nI nO ;; b <- initCompute F (lbi l) (after r (nI * nO)) (lb l) 1 nO ;; Ok (setWB l w b)
  | KDot nI nO =>
      if (nI =? 0) || (nO =? 0) then Ok l else
      w <- initCompute F (lwi l) (rf r) (lw l) nI nO ;; Ok (setW l w)
  | KBias => Ok (setB l (mresize F (lb l) 0 0))
  | KGain | KPRelu | KPELU | KTERELU => Ok (setW l (mresize F (lw l) 0 0))
  | KAffine => Ok (setWB l (mresize F (lw l) 0 0) (mresize F (lb l) 0 0))
  | KGlobalGain => w <- msetConst F (lw l) (f1 F) ;; Ok (setW l w)
  | KGlobalBias => b <- msetConst F (lb l) (f0 F) ;; Ok (setB l b)
  | KGlobalAffine => w <- msetConst F (lw l) (f1 F) ;; b <- msetConst F (lb l) (f0 F) ;; Ok (setWB l w b)
  | KChannelBias nR nC nH => b <- initCompute F (lbi l) (rf r) (lb l) 1 nH ;; Ok (setB l b)
  | KTDBias fs => b <- initCompute F (lbi l) (rf r) (lb l) 1 fs ;; Ok (setB l b)
  | KTDDot fi fo => w <- initCompute F (lwi l) (rf r) (lw l) fi fo ;; Ok (setW l w)
  | KTDDense fi fo =>
      w <- initCompute F (lwi l) (rf r) (lw l) fi fo ;; b <- initCompute F (lbi l) (after r (fi * fo)) (lb l) 1 fo ;; Ok (setWB l w b)
  | KConv v fast =>
      let a := flm F Lsqrt (fdiv F (fofN F 6) (fofN F (vR v * vC v * vI v + oC v * oR v * vO v))) in
      w <- setRandom F (rf r) (mresize F (lw l) (vO v) (vkr v * vkc v * vI v)) ;; w <- mscale F w a ;;
      g <- msetConst F (mresize F (lgw l) (mrows w) (mcols w)) (f0 F) ;; Ok (setP l w g (lb l) (lgb l))
  | KSimpleRnn fs u => s <- initRnn F Simple fs u (rf r) (after r (u * u)) (lrnn l) ;; Ok (setRnn l s)
  | KSimplestRnn fs => s <- initRnn F Simplest fs fs (rf r) (after r (fs * fs)) (simplestOf l) ;; Ok (setRnn (setW l (wH s)) s)
  | _ => Ok l
  end.

(** * Constructors *)
(* Layer.cpp:14-22 *)
Definition layBase (k : kind) (wi bi : string) : layer :=
  mkLay k wi bi (mempty F) (mempty F) (mempty F) (mempty F) false false (mempty F) 0 rnn0.
(* what the constructors do besides filling members and calling init() *)
Definition layCtor (l : layer) : res layer :=
  match lk l with
  | KGlobalGain => Ok (setP l (mresize F (lw l) 1 1) (mresize F (lgw l) 1 1) (lb l) (lgb l))                    (* LayerGlobalGain.cpp:16-17 *)
  | KGlobalBias => Ok (setP l (lw l) (lgw l) (mresize F (lb l) 1 1) (mresize F (lgb l) 1 1))                    (* LayerGlobalBias.cpp:16-17 *)
  | KGlobalAffine =>                                                                                            (* LayerGlobalAffine.cpp:16-19 *)
      Ok (setP l (mresize F (lw l) 1 1) (mresize F (lgw l) 1 1) (mresize F (lb l) 1 1) (mresize F (lgb l) 1 1))
  | KAct a => assert_ (notNull a) ;;; Ok l                                                                      (* LayerActivation.cpp:21 *)
  | KMaxPool p | KAvgPool p => poolOk p ;;; Ok l
  | KConv v fast => convOk v ;;; lut v ;;; Ok l                                                                 (* LayerConvolution2D.cpp:47 *)
  | _ => Ok l
  end.
Definition layNew (r : rnd F) (k : kind) (wi bi : string) : res layer := l <- layCtor (layBase k wi bi) ;; layInit r l.

(** * clone() *)
(* the constructor arguments used by clone: LayerActivation.cpp:31 and LayerGatedActivation.cpp:34 go through the name *)
Definition cloneAct (a : option actKind) : res (option actKind) :=
  match a with Some k => Ok (get_activation (act_name k)) | None => Err ENull end.
Definition cloneKind (k : kind) : res kind :=
  match k with
  | KAct a => b <- cloneAct a ;; Ok (KAct b)
  | KGated a1 a2 => b1 <- cloneAct a1 ;; b2 <- cloneAct a2 ;; Ok (KGated b1 b2)
  | KConv v fast => Ok (KConv v true)
  | _ => Ok k
  end.
(* LayerDense.cpp:29-36, LayerDot.cpp:29-34 (default initializer), LayerBias.cpp:26-32, LayerGain.cpp:23-28,
   LayerAffine.cpp:22-29, LayerGlobalGain.cpp:24-30, LayerGlobalBias.cpp:24-29, LayerGlobalAffine.cpp:27-34,
   LayerChannelBias.cpp:30-35, LayerPRelu/PELU/TERELU.cpp:24-30 (25-32), LayerTimeDistributed*.cpp, LayerConvolution2D.cpp:81-87,
   LayerSimpleRNN.cpp:32-41, LayerSimplestRNN.cpp:29-36; the others construct with the same arguments *)
Definition layClone (r : rnd F) (l : layer) : res layer :=
  k <- cloneKind (lk l) ;;
  n <- layNew r k (match lk l with KDot _ _ => "GlorotUniform"%string | _ => lwi l end) (lbi l) ;;
  Ok (match lk l with
      | KDense _ _ | KAffine | KGlobalAffine | KTDDense _ _ => setWB n (lw l) (lb l)
      | KDot _ _ | KGain | KGlobalGain | KTDDot _ _ => setW n (lw l)
      | KBias | KGlobalBias | KChannelBias _ _ _ | KTDBias _ => setB n (lb l)
      | KPRelu | KPELU | KTERELU | KConv _ _ => setP n (lw l) (lgw l) (lb n) (lgb n)
      | KSimpleRnn _ _ => setRnn n (mkRnn (wH (lrnn l)) (wX (lrnn l)) (bH (lrnn l)) (hh (lrnn l)) (saved (lrnn n)))
      | KSimplestRnn _ => setRnn (setW n (lw l)) (mkRnn (wH (lrnn n)) (wX (lrnn n)) (bH (lrnn n)) (hh (lrnn l)) (saved (lrnn n)))
      | _ => n
      end).

(** * forward: the new object and the new mOut *)
Definition layForward (r : rnd F) (l : layer) (mIn out : M) : res (layer * M) :=
  let keep o := Ok (l, o) in
  match lk l with
  | KDense _ _ => o <- fwdDense F (lw l) (lb l) mIn ;; keep o
  | KDot _ _ => o <- fwdDot F (lw l) mIn ;; keep o
  | KBias => ' (b, o) <- fwdBias F (lbi l) (rf r) (lb l) mIn ;; Ok (setB l b, o)
  | KGain => ' (w, o) <- fwdGain F (lw l) mIn ;; Ok (setW l w, o)
  | KAffine => ' (w, b, o) <- fwdAffine F (lw l) (lb l) mIn out ;; Ok (setWB l w b, o)
  | KGlobalGain => o <- fwdGlobalGain F (lw l) mIn ;; keep o
  | KGlobalBias => o <- fwdGlobalBias F (lb l) mIn ;; keep o
  | KGlobalAffine => o <- fwdGlobalAffine F (lw l) (lb l) mIn ;; keep o
  | KChannelBias nR nC nH => o <- fwdChannelBias F nR nC nH (lb l) mIn ;; keep o
  | KAct a => o <- fwdAct F a mIn out ;; keep o
  | KGated a1 a2 => o <- fwdGated F a1 a2 mIn out ;; keep o
  | KCRelu => o <- fwdCRelu F mIn out ;; keep o
  | KPRelu => ' (w, g, o) <- fwdPRelu F (lw l) (lgw l) mIn ;; Ok (setP l w g (lb l) (lgb l), o)
  | KRRelu a1 a2 => ' (s, o) <- fwdRRelu F (ltrain l) (rf r) a1 a2 (lmem l) mIn ;; Ok (setMem l s, o)
  | KPELU => ' (w, g, o) <- fwdPELU F (lw l) (lgw l) mIn ;; Ok (setP l w g (lb l) (lgb l), o)
  | KTERELU => ' (w, g, o) <- fwdTERELU F (lw l) (lgw l) mIn ;; Ok (setP l w g (lb l) (lgb l), o)
  | KDropout rate => ' (m, o) <- fwdDropout F (ltrain l) rate (rz r) (lmem l) mIn ;; Ok (setMem l m, o)
  | KGaussianDropout p => ' (m, o) <- fwdGaussianDropout F (ltrain l) (rf r) (lmem l) mIn ;; Ok (setMem l m, o)
  | KGaussianNoise s | KUniformNoise s => o <- fwdNoise F (ltrain l) s (rf r) mIn ;; keep o
  | KSoftmax => o <- fwdSoftmax F mIn ;; keep o
  | KSoftmin => o <- fwdSoftmin F mIn ;; keep o
  | KTDBias fs => o <- fwdTDBias F fs (lb l) mIn ;; keep o
  | KTDDot fi fo => o <- fwdTDDot F fi fo (lw l) mIn ;; keep o
  | KTDDense fi fo => o <- fwdTDDense F fi fo (lw l) (lb l) mIn ;; keep o
  | KMaxPool p => ' (m, o) <- fwdMaxPool F p (ltrain l) (lmem l) mIn out ;; Ok (setMem l m, o)
  | KGlobalMaxPool nR nC nH => ' (m, o) <- fwdGlobalMaxPool F nR nC nH (ltrain l) (lmem l) mIn out ;; Ok (setMem l m, o)
  | KAvgPool p => o <- fwdAvgPool F p mIn out ;; keep o
  | KGlobalAvgPool nR nC nH => o <- fwdGlobalAvgPool F nR nC nH mIn out ;; keep o
  | KZeroPad nR nC nH nB => o <- fwdZeroPad F nR nC nH nB mIn out ;; keep o
  | KFlip nR nC nH => ' (f, o) <- fwdFlip F nR nC nH (ltrain l) (rz r) (lmem l) mIn ;; Ok (setMem l f, o)
  | KConv v fast => ' (c, o) <- fwdConv F v fast (lw l) (lmem l) mIn ;; Ok (setNs (setMem l c) (mrows mIn), o)
  | KSimpleRnn fs u =>
      ' (s, o) <- fwdRnn F Simple fs u (ltrain l) (rf r) (after r (u * u)) mIn out (lrnn l) ;; Ok (setRnn l s, o)
  | KSimplestRnn fs =>
      ' (s, o) <- fwdRnn F Simplest fs fs (ltrain l) (rf r) (after r (fs * fs)) mIn out (simplestOf l) ;;
      Ok (setRnn (setW l (wH s)) s, o)
  end.

(* LayerRNN.cpp:43-65 with LayerSimpleRNN.cpp:51-58: the frame function is empty, _gradientWeight is never sized *)
Definition bwdSimpleRnn (fs : nat) (st : rnn F) (gw mIn : M) : res M :=
  if fs =? 0 then Err EDiv else
  let nb := mcols mIn / fs in
  sum <- forL (rev (seq 1 (nb - 2))) (fun i sum =>
    match nth_error (saved st) i, nth_error (saved st) (i - 1) with
    | Some _, Some _ =>
        colExtract F mIn (i * fs) (i * fs + fs) ;;;
        (if msize sum =? 0 then Ok gw else maddM F sum gw)
    | _, _ => Err EOob
    end) (mempty F) ;;
  mscale F sum (fdiv F (f1 F) (fofN F nb)).

(** * backpropagation: the new object and the new mGradientIn *)
Definition layBackward (l : layer) (mIn mG gin : M) : res (layer * M) :=
  let keep g := Ok (l, g) in
  match lk l with
  | KDense _ _ => ' (gw, gb, gi) <- bwdDense F (lfirst l) (lw l) mIn mG gin ;; Ok (setGWB l gw gb, gi)
  | KDot _ _ => ' (gw, gi) <- bwdDot F (lfirst l) (lw l) mIn mG gin ;; Ok (setGW l gw, gi)
  | KBias => ' (gb, gi) <- bwdBias F (lfirst l) mG gin ;; Ok (setGB l gb, gi)
  | KGain => ' (gw, gi) <- bwdGain F (lfirst l) (lw l) mIn mG gin ;; Ok (setGW l gw, gi)
  | KAffine => ' (gw, gb, gi) <- bwdAffine F (lfirst l) (lw l) mIn mG gin ;; Ok (setGWB l gw gb, gi)
  | KGlobalGain => ' (gw, gi) <- bwdGlobalGain F (lfirst l) (lw l) (lgw l) mIn mG gin ;; Ok (setGW l gw, gi)
  | KGlobalBias => ' (gb, gi) <- bwdGlobalBias F (lfirst l) (lgb l) mG gin ;; Ok (setGB l gb, gi)
  | KGlobalAffine => ' (gw, gb, gi) <- bwdGlobalAffine F (lfirst l) (lw l) (lgw l) (lgb l) mIn mG gin ;; Ok (setGWB l gw gb, gi)
  | KChannelBias nR nC nH => ' (gb, gi) <- bwdChannelBias F nR nC nH (lfirst l) mG gin ;; Ok (setGB l gb, gi)
  | KAct a => gi <- bwdAct F a (lfirst l) mIn mG gin ;; keep gi
  | KGated a1 a2 => gi <- bwdGated F a1 a2 (lfirst l) mIn mG gin ;; keep gi
  | KCRelu => gi <- bwdCRelu F (lfirst l) mIn mG gin ;; keep gi
  | KPRelu => ' (gw, gi) <- bwdPRelu F (lfirst l) (lw l) (lgw l) mIn mG gin ;; Ok (setGW l gw, gi)
  | KRRelu a1 a2 => gi <- bwdRRelu F (lfirst l) (lmem l) mIn mG gin ;; keep gi
  | KPELU => ' (w, gw, gi) <- bwdPELU F (lfirst l) (lw l) (lgw l) mIn mG gin ;; Ok (setP l w gw (lb l) (lgb l), gi)
  | KTERELU => ' (gw, gi) <- bwdTERELU F (lfirst l) (lw l) (lgw l) mIn mG gin ;; Ok (setGW l gw, gi)
  | KDropout rate => gi <- bwdDropout F (lfirst l) rate (lmem l) mG gin ;; keep gi
  | KGaussianDropout p => gi <- bwdGaussianDropout F (ltrain l) (lfirst l) (lmem l) mG gin ;; keep gi
  | KGaussianNoise _ | KUniformNoise _ => gi <- bwdPass F (lfirst l) mG gin ;; keep gi
  | KSoftmax => gi <- bwdSoftmax F (lfirst l) mIn mG gin ;; keep gi
  | KSoftmin => gi <- bwdSoftmin F (lfirst l) mIn mG gin ;; keep gi
  | KTDBias fs => ' (gb, gi) <- bwdTDBias F fs (lfirst l) mG gin ;; Ok (setGB l gb, gi)
  | KTDDot fi fo => ' (gw, gi) <- bwdTDDot F fi fo (lfirst l) (lw l) mIn mG gin ;; Ok (setGW l gw, gi)
  | KTDDense fi fo => ' (gw, gb, gi) <- bwdTDDense F fi fo (lfirst l) (lw l) mIn mG gin ;; Ok (setGWB l gw gb, gi)
  | KMaxPool p => gi <- bwdMaxPool F p (lfirst l) (lmem l) mG gin ;; keep gi
  | KGlobalMaxPool nR nC nH => gi <- bwdGlobalMaxPool F nR nC nH (lfirst l) (lmem l) mG gin ;; keep gi
  | KAvgPool p => gi <- bwdAvgPool F p (lfirst l) mG gin ;; keep gi
  | KGlobalAvgPool nR nC nH => gi <- bwdGlobalAvgPool F nR nC nH (lfirst l) mG gin ;; keep gi
  | KZeroPad nR nC nH nB => gi <- bwdZeroPad F nR nC nH nB (lfirst l) mG gin ;; keep gi
  | KFlip nR nC nH => gi <- bwdFlip F nR nC nH (lfirst l) (lmem l) mIn mG gin ;; keep gi
  | KConv v fast => ' (gw, gi) <- bwdConv F v fast (lfirst l) (lns l) (lw l) (lmem l) mIn mG gin ;; Ok (setGW l gw, gi)
  | KSimpleRnn fs u => gw <- bwdSimpleRnn fs (lrnn l) (lgw l) mIn ;; Ok (setGW l gw, gin)
  | KSimplestRnn fs => ' (gw, gi) <- bwdRnn F fs (lfirst l) (simplestOf l) mIn gin ;; Ok (setGW l gw, gi)
  end.
End Model.
Arguments mkLay {F}. Arguments lk {F}. Arguments lwi {F}. Arguments lbi {F}. Arguments lw {F}. Arguments lgw {F}.
Arguments lb {F}. Arguments lgb {F}. Arguments ltrain {F}. Arguments lfirst {F}. Arguments lmem {F}. Arguments lns {F}. Arguments lrnn {F}.
Arguments setP {F}. Arguments setW {F}. Arguments setB {F}. Arguments setWB {F}. Arguments setGW {F}. Arguments setGB {F}.
Arguments setGWB {F}. Arguments setMem {F}. Arguments setNs {F}. Arguments setRnn {F}. Arguments setFirst {F}. Arguments setTrain {F}.
Arguments hasWeights {F}. Arguments hasBiases {F}.
Arguments KDense {F}. Arguments KDot {F}. Arguments KBias {F}. Arguments KGain {F}. Arguments KAffine {F}. Arguments KGlobalGain {F}.
Arguments KGlobalBias {F}. Arguments KGlobalAffine {F}. Arguments KChannelBias {F}. Arguments KAct {F}. Arguments KGated {F}.
Arguments KCRelu {F}. Arguments KPRelu {F}. Arguments KRRelu {F}. Arguments KPELU {F}. Arguments KTERELU {F}. Arguments KDropout {F}.
Arguments KGaussianDropout {F}. Arguments KGaussianNoise {F}. Arguments KUniformNoise {F}. Arguments KSoftmax {F}. Arguments KSoftmin {F}.
Arguments KTDBias {F}. Arguments KTDDot {F}. Arguments KTDDense {F}. Arguments KMaxPool {F}. Arguments KGlobalMaxPool {F}.
Arguments KAvgPool {F}. Arguments KGlobalAvgPool {F}. Arguments KZeroPad {F}. Arguments KFlip {F}. Arguments KConv {F}.
Arguments KSimpleRnn {F}. Arguments KSimplestRnn {F}.
