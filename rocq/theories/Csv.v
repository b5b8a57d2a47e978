(* Csv.v - model of src/CsvFileReader.cpp.  File names are texts; fs gives the content of a file, None when it cannot be opened. *)
From Coq Require Import String List Arith Bool Ascii.
From Verif Require Import Base Scalar Mat Text.
Import ListNotations.
Local Open Scope nat_scope.

Fixpoint chars (s : string) : text := match s with EmptyString => [] | String c r => c :: chars r end.
Fixpoint startsWith (w s : text) : bool :=
  match w, s with
  | [], _ => true
  | _, [] => false
  | a :: w, b :: s => Ascii.eqb a b && startsWith w s
  end.
(* std::string::rfind: the last position where w occurs *)
Fixpoint rfind (w s : text) : option nat :=
  match s with
  | [] => if startsWith w s then Some 0 else None
  | _ :: r => match rfind w r with Some p => Some (S p) | None => if startsWith w s then Some 0 else None end
  end.
(* CsvFileReader.cpp:16-21 replace_last *)
Definition replaceLast (s old new : text) : text :=
  match rfind old s with
  | Some p => firstn p s ++ new ++ skipn (p + length old) s
  | None => s
  end.
Definition wTrain : text := chars "train". Definition wTest : text := chars "test".
Definition wData : text := chars "data". Definition wTruth : text := chars "truth".
Fixpoint textEqb (a b : text) : bool :=
  match a, b with [], [] => true | x :: a, y :: b => Ascii.eqb x y && textEqb a b | _, _ => false end.

Section Csv.
Variable F : FOps.
Notation M := (mat F).
Variable conv : text -> F * bool.
Variable ind : res F.
Variable fuel : nat.
Variable fs : text -> option text.

(* DataSource.h:33-40 *)
Record dataSource := mkDS { dTrD : M; dTrT : M; dVaD : M; dVaT : M; dHasT : bool; dHasV : bool }.
(* DataSource.cpp:36-39 has_data *)
Definition hasData (d : dataSource) : bool := dHasT d || dHasV d.
Definition nonEmpty (m : M) : bool := negb (msize m =? 0).

(* CsvFileReader.cpp:23-66 load: the result and the new object *)
Definition csvLoad (sFile : text) (d : dataSource) : res (bool * dataSource) :=
  let sTrainData := replaceLast (replaceLast sFile wTest wTrain) wTruth wData in
  let sTrainTruth := replaceLast (replaceLast sFile wTest wTrain) wData wTruth in
  let sTestData := replaceLast (replaceLast sFile wTrain wTest) wTruth wData in
  let sTestTruth := replaceLast (replaceLast sFile wTrain wTest) wData wTruth in
  a <- fromFile F conv ind fuel (fs sTrainData) ;;
  b <- fromFile F conv ind fuel (fs sTrainTruth) ;;
  ' (c, e) <- (if negb (textEqb sTrainData sTestData) && negb (textEqb sTrainTruth sTestTruth)
               then c <- fromFile F conv ind fuel (fs sTestData) ;; e <- fromFile F conv ind fuel (fs sTestTruth) ;; Ok (c, e)
               else Ok (mresize F (dVaD d) 0 0, mresize F (dVaT d) 0 0)) ;;
  let d := mkDS a b c e (nonEmpty a && nonEmpty b) (nonEmpty c && nonEmpty e) in
  Ok (hasData d, d).
End Csv.
Arguments mkDS {F}. Arguments dTrD {F}. Arguments dTrT {F}. Arguments dVaD {F}. Arguments dVaT {F}. Arguments dHasT {F}. Arguments dHasV {F}.
