(* Reader.v - model of the MNIST and CIFAR-10 readers (src/MNISTReader.cpp, src/CIFAR10Reader.cpp, src/DataSource.cpp).
   A file is absent (None) or a list of bytes; opening an existing file succeeds; memory allocation succeeds. *)
From Coq Require Import List Arith Bool NArith ZArith Lia.
From Coq.Init Require Import Byte.
From Coq.Strings Require Import Byte.
From Verif Require Import Base Scalar Mat.
Import ListNotations.

(* std::ifstream opened in binary mode: what is left to read; no failure so far *)
Record stream := mkStream { sLeft : list byte; sGood : bool }.
(* istream::read(buf, n) ([istream.unformatted]): after a failure nothing is stored; otherwise as many bytes as there are,
   failure if these are fewer than n.  None in a buffer: a byte with an indeterminate value. *)
Definition sread (s : stream) (n : nat) (buf : list (option byte)) : stream * list (option byte) :=
  if sGood s then
    let got := firstn n (sLeft s) in
    (mkStream (skipn n (sLeft s)) (n <=? length (sLeft s)), map Some got ++ skipn (length got) buf)
  else (s, buf).
Definition fresh (n : nat) : list (option byte) := repeat None n.
(* using a byte *)
Definition ubyte (buf : list (option byte)) (i : nat) : res byte :=
  x <- rget buf i ;; match x with Some b => Ok b | None => Err EUninit end.
Definition bN (b : byte) : N := to_N b.

(* the value of an unsigned int stored in 4 bytes on a little-endian machine *)
Definition loadInt (buf : list (option byte)) : res N :=
  b0 <- ubyte buf 0 ;; b1 <- ubyte buf 1 ;; b2 <- ubyte buf 2 ;; b3 <- ubyte buf 3 ;;
  Ok (bN b0 + 256 * bN b1 + 65536 * bN b2 + 16777216 * bN b3)%N.
Definition wrap32 (x : N) : N := (x mod 4294967296)%N.
(* MNISTReader.cpp:114-122 swap_int *)
Definition swapInt (i : N) : N :=
  let c1 := N.land i 255 in let c2 := N.land (N.shiftr i 8) 255 in let c3 := N.land (N.shiftr i 16) 255 in let c4 := N.land (N.shiftr i 24) 255 in
  wrap32 (N.shiftl c1 24 + N.shiftl c2 16 + N.shiftl c3 8 + c4)%N.
(* MNISTReader.cpp:73, 92-94: reading an unsigned int, then swap_int *)
Definition readInt (s : stream) : res (stream * N) :=
  let '(s, b) := sread s 4 (fresh 4) in i <- loadInt b ;; Ok (s, swapInt i).

Section Reader.
Variable F : FOps.
Notation M := (mat F).
Definition fByte (b : byte) : F := fofZ F (Z.of_N (bN b)).
(* *pData++ = p[i], for i < n, pData starting at cell off *)
Definition storeBytes (m : M) (off n : nat) (p : list (option byte)) : res M :=
  forN n (fun i m => b <- ubyte p i ;; d <- rset (mdata m) (off + i) (fByte b) ;; Ok (mkMat (mrows m) (mcols m) d)) m.

(* MNISTReader.cpp:45-112 read_Matrix *)
Definition readMatrix (file : option (list byte)) (m : M) : res (bool * M) :=
  match file with
  | None => Ok (false, m)
  | Some bytes =>
    let '(s, b) := sread (mkStream bytes true) 2 (fresh 2) in
    lo <- ubyte b 0 ;; hi <- ubyte b 1 ;;
    if negb (bN lo + 256 * bN hi =? 0)%N then Ok (false, m) else
    let '(s, b) := sread s 1 (fresh 1) in
    ty <- ubyte b 0 ;;
    if negb (bN ty =? 8)%N then Ok (false, m) else
    let '(s, b) := sread s 1 (fresh 1) in
    dim <- ubyte b 0 ;;
    if (bN dim =? 1)%N then
      ' (s, size) <- readInt s ;;
      let n := N.to_nat size in
      let m := mresize F m n 1 in
      let '(s, p) := sread s n (fresh n) in
      m <- storeBytes m 0 n p ;; Ok (true, m)
    else if (bN dim =? 3)%N then
      ' (s, nbImages) <- readInt s ;;
      ' (s, nbRows) <- readInt s ;;
      ' (s, nbCols) <- readInt s ;;
      let n := N.to_nat nbImages in
      let sz := N.to_nat (wrap32 (nbRows * nbCols)) in
      let m := mresize F m n sz in
      ' (s, p, m) <- forN n (fun i st => let '(s, p, m) := st in
        let '(s, p) := sread s sz p in
        assert_ (i <? mrows m) ;;;
        m <- storeBytes m (i * sz) sz p ;; Ok (s, p, m)) (s, fresh sz, m) ;;
      Ok (true, m)
    else Ok (false, m)
  end.

(* DataSource.h:28-36, DataSource.cpp:5-9 the constructor, 34-48 the flags *)
Record dataSource := mkDS { dTrain : M; dTrainT : M; dVal : M; dValT : M; dHasTrain : bool; dHasVal : bool }.
Definition dsNew : dataSource := mkDS (mempty F) (mempty F) (mempty F) (mempty F) false false.
Definition hasData (d : dataSource) : bool := dHasTrain d || dHasVal d.

(* MNISTReader.cpp:16-43 load, given the four files of the folder *)
Definition mnistLoad (fTrain fTrainT fVal fValT : option (list byte)) (d : dataSource) : res (bool * dataSource) :=
  ' (ok, m) <- readMatrix fTrain (dTrain d) ;;
  let d := mkDS m (dTrainT d) (dVal d) (dValT d) (dHasTrain d) (dHasVal d) in
  if negb ok then Ok (false, d) else
  ' (ok, m) <- readMatrix fTrainT (dTrainT d) ;;
  let d := mkDS (dTrain d) m (dVal d) (dValT d) (dHasTrain d) (dHasVal d) in
  if negb ok then Ok (false, d) else
  ' (ok, m) <- readMatrix fVal (dVal d) ;;
  let d := mkDS (dTrain d) (dTrainT d) m (dValT d) (dHasTrain d) (dHasVal d) in
  if negb ok then Ok (false, d) else
  ' (ok, m) <- readMatrix fValT (dValT d) ;;
  let d := mkDS (dTrain d) (dTrainT d) (dVal d) m (dHasTrain d) (dHasVal d) in
  if negb ok then Ok (false, d) else
  a <- mdivS F (dTrain d) (fofZ F 256) ;; b <- mdivS F (dVal d) (fofZ F 256) ;;
  Ok (true, mkDS a (dTrainT d) b (dValT d) true true).

(* CIFAR10Reader.cpp:83-104 the record loop of read_batch, for nb records of px pixels; ucClass is declared inside the loop *)
Definition readRecords (nb px : nat) (s : stream) (data truth : M) : res (M * M) :=
  ' (s, line, data, truth) <- forN nb (fun i st => let '(s, line, data, truth) := st in
    let '(s, c) := sread s 1 (fresh 1) in
    cls <- ubyte c 0 ;;
    truth <- mset1 truth i (fByte cls) ;;
    let '(s, line) := sread s px line in
    data <- forN px (fun j data => b <- ubyte line j ;; mset2 data i j (fByte b)) data ;;
    Ok (s, line, data, truth)) (s, fresh px, data, truth) ;;
  Ok (data, truth).
(* CIFAR10Reader.cpp:74-105 read_batch; nb = 10000, px = 3072 *)
Definition readBatch (nb px : nat) (file : option (list byte)) (data truth : M) : res (bool * M * M) :=
  match file with
  | None => Ok (false, data, truth)
  | Some bytes =>
    ' (data, truth) <- readRecords nb px (mkStream bytes true) (mresize F data nb px) (mresize F truth nb 1) ;;
    Ok (true, data, truth)
  end.
(* CIFAR10Reader.cpp:18-72 load, read_from_folder, given the six files of the folder.  The training files are read in order,
   file k into rows 10000k ..; *)
Fixpoint readTrain (nb px k : nat) (fs : list (option (list byte))) (img tru all allT : M) : res (bool * M * M) :=
  match fs with
  | [] => Ok (true, all, allT)
  | f :: t =>
    ' (ok, img, tru) <- readBatch nb px f img tru ;;
    if negb (ok : bool) then Ok (false, all, allT) else
    all <- copyInto F img all (k * nb) ;; allT <- copyInto F tru allT (k * nb) ;;
    readTrain nb px (S k) t img tru all allT
  end.
Definition cifarLoadN (nb px total : nat) (fTrain : list (option (list byte))) (fTest : option (list byte)) (d : dataSource) : res (bool * dataSource) :=
  ' (ok, all, allT) <- readTrain nb px 0 fTrain (mempty F) (mempty F) (mresize F (dTrain d) total px) (mresize F (dTrainT d) total 1) ;;
  let d := mkDS all allT (dVal d) (dValT d) (dHasTrain d) (dHasVal d) in
  if negb (ok : bool) then Ok (false, d) else
  ' (ok, v, vt) <- readBatch nb px fTest (dVal d) (dValT d) ;;
  let d := mkDS (dTrain d) (dTrainT d) v vt (dHasTrain d) (dHasVal d) in
  if negb (ok : bool) then Ok (false, d) else
  a <- mdivS F (dTrain d) (fofZ F 255) ;; b <- mdivS F (dVal d) (fofZ F 255) ;;
  Ok (true, mkDS a (dTrainT d) b (dValT d) (dHasTrain d) (dHasVal d)).
(* 10000 records per file, 3072 pixels, 50000 training images *)
Definition cifarLoad := cifarLoadN (N.to_nat 10000) (N.to_nat 3072) (N.to_nat 50000).
End Reader.
