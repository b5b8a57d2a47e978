(* LayRnn.v - the recurrent layers.  Both keep their members in one record; SimplestRNN uses only wH. *)
From Coq Require Import List Arith Bool ZArith.
From Verif Require Import Base Scalar Mat LayMat.
Import ListNotations.
Local Open Scope nat_scope.

Section Model.
Variable F : FOps.
Notation M := (mat F).

(* _whh or _weight, _wxh, _bh, _h, _savedH *)
Record rnn := mkRnn { wH : M; wX : M; bH : M; hh : M; saved : list M }.
Inductive rkind := Simple | Simplest.

(* LayerSimpleRNN.cpp:22-30, LayerSimplestRNN.cpp:22-27, LayerRNN.cpp:67-71: init.  g1, g2 are the random draws *)
Definition initRnn (k : rkind) (fs u : nat) (g1 g2 : nat -> F) (st : rnn) : res rnn :=
  match k with
  | Simple =>
      a <- setRandom F g1 (mresize F (wH st) u u) ;; b <- setRandom F g2 (mresize F (wX st) fs u) ;;
      c <- msetZero F (bH st) 1 u ;; d <- msetZero F (hh st) 1 u ;; Ok (mkRnn a b c d [])
  | Simplest => a <- setRandom F g1 (mresize F (wH st) u u) ;; Ok (mkRnn a (wX st) (bH st) (hh st) [])
  end.

(* LayerSimpleRNN.cpp:43-49 (the result of rowWiseAdd is dropped), LayerSimplestRNN.cpp:38-46: the new _h, also the output *)
Definition frameRnn (k : rkind) (u : nat) (x : M) (st : rnn) : res M :=
  match k with
  | Simple =>
      a <- mmul F (hh st) (wH st) ;; b <- mmul F x (wX st) ;; h <- maddM F a b ;;
      rowWiseAdd F h (bH st) ;;; mtanh F h
  | Simplest =>
      h <- (if mrows (hh st) =? mrows x then Ok (hh st) else msetZero F (hh st) (mrows x) u) ;;
      a <- mmul F h (wH st) ;; maddM F a x
  end.

(* number of turns of LayerRNN.cpp:33, for (iS = 0; iS < cols - frame; iS += frame) when frame divides cols *)
Definition turns (fs cols : nat) : nat := cols / fs - 1.

(* LayerRNN.cpp:22-41; [out] is the previous content of mOut *)
Definition fwdRnn (k : rkind) (fs u : nat) (train : bool) (g1 g2 : nat -> F) (mIn out : M) (st : rnn) : res (rnn * M) :=
  if fs =? 0 then Err EDiv else
  assert_ (mcols mIn mod fs =? 0) ;;;
  st <- (if negb (msize mIn =? fs) || train then initRnn k fs u g1 g2 st else Ok st) ;;
  forN (turns fs (mcols mIn)) (fun i p =>
    x <- colExtract F mIn (i * fs) (i * fs + fs) ;;
    h <- frameRnn k u x (fst p) ;;
    let st := fst p in
    Ok (mkRnn (wH st) (wX st) (bH st) h (if train then saved st ++ [h] else saved st), h)) (st, out).

(* LayerSimplestRNN.cpp:48-61: (gradientWeight, gradientIn) *)
Definition bwdFrame (first : bool) (w h hm1 gin : M) : res (M * M) :=
  t <- mtranspose F h ;; gw <- mmul F t hm1 ;; gw <- mscale F gw (fdiv F (f1 F) (fofN F (mrows gw))) ;;
  gi <- (if first then Ok gin else mmul F t w) ;; Ok (gw, gi).
(* LayerRNN.cpp:43-65 with SimplestRNN frames; frames iS = nb-2 down to 1.  The sum starts as an empty matrix. *)
Definition bwdRnn (fs : nat) (first : bool) (st : rnn) (mIn gin : M) : res (M * M) :=
  if fs =? 0 then Err EDiv else
  let nb := mcols mIn / fs in
  ' (sum, gi) <- forL (rev (seq 1 (nb - 2))) (fun i p =>
    match nth_error (saved st) i, nth_error (saved st) (i - 1) with
    | Some h, Some hm1 =>
        colExtract F mIn (i * fs) (i * fs + fs) ;;;
        ' (gw, gi) <- bwdFrame first (wH st) h hm1 (snd p) ;;
        s <- (if msize (fst p) =? 0 then Ok gw else maddM F (fst p) gw) ;; Ok (s, gi)
    | _, _ => Err EOob
    end) (mempty F, gin) ;;
  gw <- mscale F sum (fdiv F (f1 F) (fofN F nb)) ;; Ok (gw, gi).
End Model.
Arguments mkRnn {F}. Arguments wH {F}. Arguments wX {F}. Arguments bH {F}. Arguments hh {F}. Arguments saved {F}.
