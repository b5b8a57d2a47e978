(* Json.v - model of JsonFileWriter (src/JsonFile.cpp) *)
From Coq Require Import String List Arith Bool Ascii.
From Verif Require Import Base Scalar.
Import ListNotations.
Local Open Scope nat_scope.

Notation text := (list ascii).
Definition lit (s : string) : text := list_ascii_of_string s.
Definition jq : text := [""""%char].
Definition jnl : text := ["010"%char].

Section Json.
Variables (I F : Type).
(* operator<< for int and float *)
Variable showI : I -> text.
Variable showF : F -> text.

(* JsonFile.h:30-32 *)
Record jw := mkJw { jPend : bool; jInd : text; jOut : text }.
(* JsonFile.cpp:16-26 constructor, clear *)
Definition jNew : jw := mkJw false (lit "    ") [].
(* :28-31 to_string *)
Definition jText (j : jw) : text := lit "{" ++ jOut j ++ jnl ++ lit "}".
Definition comma (j : jw) : text := if jPend j then lit "," else [].
(* :33-42 enter_section *)
Definition jEnter (k : text) (j : jw) : jw :=
  mkJw false (jInd j ++ lit "    ") (jOut j ++ comma j ++ jnl ++ jInd j ++ jq ++ k ++ jq ++ lit ":{").
(* :44-50 leave_section; substr(4) throws when the string is shorter *)
Definition jLeave (j : jw) : res jw :=
  if length (jInd j) <? 4 then Err EThrow else
  let i := skipn 4 (jInd j) in Ok (mkJw true i (jOut j ++ jnl ++ i ++ lit "}")).
(* :92-99 add_string *)
Definition jRaw (k v : text) (j : jw) : jw :=
  mkJw true (jInd j) (jOut j ++ comma j ++ jnl ++ jInd j ++ jq ++ k ++ jq ++ lit ":" ++ v).
(* :78-90 add_array *)
Fixpoint jArray (xs : list F) : text := match xs with [] => [] | [x] => showF x | x :: r => showF x ++ lit "," ++ jArray r end.

(* the calls a user can make; :52-76 add(string), add(int), add(float), add(bool) *)
Inductive call := Enter (k : text) | Leave | AddS (k v : text) | AddI (k : text) (i : I) | AddF (k : text) (x : F) | AddB (k : text) (b : bool) | AddA (k : text) (xs : list F).
Definition jCall (c : call) (j : jw) : res jw :=
  match c with
  | Enter k => Ok (jEnter k j)
  | Leave => jLeave j
  | AddS k v => Ok (jRaw k (jq ++ v ++ jq) j)
  | AddI k i => Ok (jRaw k (showI i) j)
  | AddF k x => Ok (jRaw k (showF x) j)
  | AddB k b => Ok (jRaw k (if b then lit "true" else lit "false") j)
  | AddA k xs => Ok (jRaw k (lit "[" ++ jArray xs ++ lit "]") j)
  end.
Definition jRun (cs : list call) (j : jw) : res jw := forL cs jCall j.
End Json.
Arguments Enter {I F}. Arguments Leave {I F}. Arguments AddS {I F}. Arguments AddI {I F}. Arguments AddF {I F}. Arguments AddB {I F}. Arguments AddA {I F}.
