(* SpecCsv.v - occurrences of a word in a file name *)
From Coq Require Import List Arith Ascii.
Import ListNotations.
Notation text := (list ascii).
Definition occurs (w s : text) : Prop := exists a b, s = a ++ w ++ b.
(* the last occurrence of w in s lies between a and b *)
Definition lastAt (w s a b : text) : Prop := s = a ++ w ++ b /\ forall a' b', s = a' ++ w ++ b' -> length a' <= length a.
(* s' is s with its last w replaced by w', and conversely; neither name has the other word *)
Definition siblings (w w' s s' : text) : Prop := exists a b, lastAt w s a b /\ lastAt w' s' a b /\ ~ occurs w' s /\ ~ occurs w s'.
