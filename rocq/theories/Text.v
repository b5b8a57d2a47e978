(* Text.v - model of the text functions of Matrix (src/Matrix.cpp toString, fromFile, fromString, toFile).
   The C++ library's conversions between floats and characters are parameters: show (operator<<), conv (strtof on the characters
   num_get has accumulated: the value stored and whether the conversion succeeded).  ind: the outcome of using an indeterminate
   float (Err EUninit, or Ok of some value when one reads the code as if every float variable had some value). *)
From Coq Require Import List Arith Bool Ascii.
From Verif Require Import Base Scalar Mat.
Import ListNotations.
Local Open Scope nat_scope.

Notation text := (list ascii).
Definition nl : ascii := "010"%char.
(* std::isspace in the C locale *)
Definition isSpace (c : ascii) : bool :=
  let n := nat_of_ascii c in (n =? 32) || ((9 <=? n) && (n <=? 13)).
Definition isDigit (c : ascii) : bool := let n := nat_of_ascii c in (48 <=? n) && (n <=? 57).
Definition isSign (c : ascii) : bool := (Ascii.eqb c "+"%char) || (Ascii.eqb c "-"%char).
Definition isExp (c : ascii) : bool := (Ascii.eqb c "e"%char) || (Ascii.eqb c "E"%char).

(* the characters std::num_get accumulates for a float (libstdc++ _M_extract_float, C locale, no grouping): an optional sign;
   digits and at most one point; after a digit an exponent letter, then an optional sign and digits *)
Inductive lexState := LStart | LMant (digit point : bool) | LExp0 | LExp1.
Definition lexStep (q : lexState) (c : ascii) : option lexState :=
  match q with
  | LStart => if isSign c then Some (LMant false false) else if isDigit c then Some (LMant true false) else if Ascii.eqb c "."%char then Some (LMant false true) else None
  | LMant d p => if isDigit c then Some (LMant true p) else if Ascii.eqb c "."%char then (if p then None else Some (LMant d true))
                 else if isExp c then (if d then Some LExp0 else None) else None
  | LExp0 => if isSign c then Some LExp1 else if isDigit c then Some LExp1 else None
  | LExp1 => if isDigit c then Some LExp1 else None
  end.
Fixpoint lexRun (q : lexState) (s : text) : text * text :=
  match s with
  | [] => ([], [])
  | c :: t => match lexStep q c with Some q' => let '(a, b) := lexRun q' t in (c :: a, b) | None => ([], s) end
  end.
Fixpoint skipSpaces (s : text) : text := match s with c :: t => if isSpace c then skipSpaces t else s | [] => [] end.
Fixpoint countNl (s : text) : nat := match s with [] => 0 | c :: t => (if Ascii.eqb c nl then 1 else 0) + countNl t end.
(* std::getline until the end of the file: the pieces between newlines (the last one may be empty) *)
Fixpoint pieces (s : text) : list text :=
  match s with
  | [] => [[]]
  | c :: t => if Ascii.eqb c nl then [] :: pieces t else match pieces t with [] => [[c]] | l :: r => (c :: l) :: r end
  end.
(* Matrix.cpp:386 std::replace ',' by ' ' *)
Definition noCommas (s : text) : text := map (fun c => if Ascii.eqb c ","%char then " "%char else c) s.

Section Text.
Variable F : FOps.
Notation M := (mat F).
Variable show : F -> text.
Variable conv : text -> F * bool.
Variable ind : res F.

(* an input string stream: what is left, eofbit, failbit *)
Record istr := mkI { iLeft : text; iEof : bool; iFail : bool }.
(* ss >> x; None: x is left as it was (the sentry failed) *)
Definition extract (s : istr) : istr * option F :=
  if iEof s || iFail s then (mkI (iLeft s) (iEof s) true, None)
  else match skipSpaces (iLeft s) with
       | [] => (mkI [] true true, None)
       | l => let '(t, r) := lexRun LStart l in let '(v, ok) := conv t in (mkI r (match r with [] => true | _ => false end) (negb ok), Some v)
       end.
(* Matrix.cpp:392-397, 413-418: while(!ss.eof()) { float sF; ss >> sF; vf.push_back(sF); } *)
Fixpoint readAll (fuel : nat) (s : istr) (vf : list F) : res (list F) :=
  if iEof s then Ok vf else
  match fuel with
  | 0 => Err EFuel
  | S n => let '(s, o) := extract s in v <- (match o with Some v => Ok v | None => ind end) ;; readAll n s (vf ++ [v])
  end.
(* std::copy(vf.begin(), vf.end(), r.data()) *)
Definition copyAll (vf : list F) (m : M) : res M :=
  d <- forN (length vf) (fun i d => x <- rget vf i ;; rset d i x) (mdata m) ;; Ok (mkMat (mrows m) (mcols m) d).

(* Matrix.cpp:371-404 fromFile *)
Definition fromFile (fuel : nat) (file : option text) : res M :=
  match file with
  | None => Ok (mempty F)
  | Some s =>
    ' (n, vf) <- forL (pieces s) (fun l '(n, vf) =>
      match l with [] => Ok (n, vf) | _ => vf <- readAll fuel (mkI (noCommas l) false false) vf ;; Ok (S n, vf) end) (0, []) ;;
    if n =? 0 then Ok (mempty F) else copyAll vf (malloc F n (length vf / n))
  end.
(* Matrix.cpp:406-426 fromString *)
Definition fromString (fuel : nat) (s : text) : res M :=
  vf <- readAll fuel (mkI s false false) [] ;;
  let nbCols := countNl s + 1 in
  let nbLine := length vf / nbCols in
  copyAll vf (mresize F (mempty F) nbLine nbCols).
(* Matrix.cpp:428-439 toFile: the content of the file *)
Definition toFile (m : M) : res text :=
  forN (mrows m) (fun i o =>
    o <- forN (mcols m) (fun j o => x <- mget2 m i j ;; Ok (o ++ show x ++ [" "%char])) o ;; Ok (o ++ [nl])) [].
(* Matrix.cpp:357-369 toString *)
Definition toString (m : M) : res text :=
  forN (mrows m) (fun i o =>
    o <- forN (mcols m) (fun j o => x <- mget2 m i j ;; Ok (o ++ show x ++ [" "%char])) o ;;
    Ok (if i + 1 <? mrows m then o ++ [nl] else o)) [].
End Text.
