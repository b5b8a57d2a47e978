(* SpecText.v - specification vocabulary for texts of numbers *)
From Coq Require Import List Arith Bool Ascii.
Import ListNotations.

Notation text := (list ascii).
Definition digitC (c : ascii) : Prop := In c ["0"; "1"; "2"; "3"; "4"; "5"; "6"; "7"; "8"; "9"]%char.
Definition signC (s : text) : Prop := s = [] \/ s = ["+"%char] \/ s = ["-"%char].
(* decimal numerals: sign, digits, point, digits, exponent; at least one digit before the exponent *)
Definition numeral (t : text) : Prop := exists s ip fp ex, t = s ++ ip ++ fp ++ ex /\ signC s /\ Forall digitC ip /\
  (fp = [] /\ ip <> [] \/ exists d, fp = "."%char :: d /\ Forall digitC d /\ ip ++ d <> []) /\
  (ex = [] \/ exists e s' d, (e = "e"%char \/ e = "E"%char) /\ ex = e :: s' ++ d /\ signC s' /\ Forall digitC d /\ d <> []).
(* t can be completed to a numeral *)
Definition begins (t : text) : Prop := exists r, numeral (t ++ r).
(* blanks inside a line of a text *)
Definition blankC (c : ascii) : Prop := c = " "%char \/ c = "009"%char \/ c = "011"%char \/ c = "012"%char \/ c = "013"%char.
Definition newline : ascii := "010"%char.
Definition spaceC (c : ascii) : Prop := blankC c \/ c = newline.
Definition sepLine (c : ascii) : Prop := blankC c \/ c = ","%char.
(* the characters a numeral may start with *)
Definition starts (c : ascii) : Prop := digitC c \/ c = "+"%char \/ c = "-"%char \/ c = "."%char.

Section Spec.
Context {A : Type}.
Variable number : text -> A -> Prop.      (* t is the text of a number of value v *)
Variable sep : ascii -> Prop.             (* what may stand between numbers *)
(* l consists of the numbers vs: separators before a number at will, at least one between two, none at the end *)
Inductive numbers : text -> list A -> Prop :=
| nums_last : forall w t v, Forall sep w -> number t v -> numbers (w ++ t) [v]
| nums_more : forall w t v b l vs, Forall sep w -> number t v -> sep b -> numbers l vs -> numbers (w ++ t ++ b :: l) (v :: vs).
End Spec.
(* lines, each ended by a newline *)
Definition fileOf (ls : list text) : text := flat_map (fun l => l ++ [newline]) ls.
(* lines, newlines between *)
Fixpoint joined (ls : list text) : text := match ls with [] => [] | [l] => l | l :: r => l ++ newline :: joined r end.
