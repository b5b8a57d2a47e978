(* SpecPool.v - the cell a maximum is taken from, in single precision *)
From Coq Require Import Arith Bool ZArith.
From Flocq Require Import IEEE754.BinarySingleNaN.
From Verif Require Import Base Scalar SpecNaN.

(* the starting value of the code's search, the literal -1.e38f *)
Definition floor38 : b32 := b32_div (b32_of_Z (-100000000000000000000000000000000000000)) (b32_of_Z 1).
(* cell p of n holds the first of the largest numbers, NaN cells left out, and that number exceeds -1e38 *)
Definition topCell (f : nat -> b32) (n p : nat) : Prop :=
  p < n /\ num (f p) /\ b32_lt floor38 (f p) = true /\
  (forall q, q < n -> num (f q) -> b32_le (f q) (f p) = true) /\
  (forall q, q < p -> num (f q) -> b32_lt (f q) (f p) = true).
(* every cell is NaN or at most -1e38 *)
Definition noTop (f : nat -> b32) (n : nat) : Prop := forall q, q < n -> num (f q) -> b32_le (f q) floor38 = true.
(* cell q, in row-major order, of a plane of nC columns *)
Definition cellsOf (t : nat -> nat -> b32) (nC q : nat) : b32 := t (q / nC) (q mod nC).
(* y is that number, or -1e38 when there is none *)
Definition pooled (f : nat -> b32) (n : nat) (y : b32) : Prop := (exists p, topCell f n p /\ y = f p) \/ (noTop f n /\ y = floor38).
