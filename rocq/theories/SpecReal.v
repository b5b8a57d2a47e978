(* SpecReal.v - specification vocabulary over the real numbers *)
From Coq Require Import Reals.
Local Open Scope R_scope.

(* f 0 + ... + f (n-1) *)
Fixpoint rsum (n : nat) (f : nat -> R) : R :=
  match n with O => 0 | S k => rsum k f + f k end.

(* the mean of channel h of a batch *)
Definition channelMean (nS nR nC : nat) (t : nat -> nat -> nat -> nat -> R) (h : nat) : R :=
  (rsum nS (fun s => rsum nR (fun r => rsum nC (fun c => t s h r c))) / (INR nS * INR nR * INR nC))%R.
