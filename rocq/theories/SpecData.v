(* SpecData.v - specification vocabulary for scalers, metrics and k-means *)
From Coq Require Import Reals List Arith Bool ZArith.
From Verif Require Import Scalar SpecReal.
Local Open Scope R_scope.

(* arithmetic mean and (population) variance of f 0 .. f (n-1) *)
Definition mean (n : nat) (f : nat -> R) : R := rsum n f / INR n.
Definition variance (n : nat) (f : nat -> R) : R := rsum n (fun i => (f i - mean n f) * (f i - mean n f)) / INR n.

(* the number of i < n with p i *)
Fixpoint count (n : nat) (p : nat -> bool) : nat :=
  match n with O => O | S k => (count k p + if p k then 1 else 0)%nat end.
