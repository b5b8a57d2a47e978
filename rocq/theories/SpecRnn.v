(* SpecRnn.v - what a recurrent layer should learn from; independent of the model's loops *)
From Coq Require Import List Arith Reals.
From Verif Require Import Base Scalar SpecReal Mat SpecMat.
Local Open Scope R_scope.

(* states of h' = h W + x started at h, after t frames of u values each *)
Fixpoint states (u : nat) (W X h : nat -> nat -> R) (t : nat) : nat -> nat -> R :=
  match t with
  | O => h
  | S q => fun i j => rsum u (fun l => states u W X h q i l * W l j) + X i (q * u + j)%nat
  end.
(* what SimplestRNN stores as the gradient of its weights: H t is the state after t frames, frames 2 .. nb-1 *)
Definition storedGrad (n u nb : nat) (H : nat -> nat -> nat -> R) (a b : nat) : R :=
  rsum (nb - 2) (fun t => rsum n (fun r => H (t + 2)%nat r a * H (t + 1)%nat r b) / INR u) / INR nb.
(* the state a call starts from: the one left by the previous call, or zero if that one had another number of rows *)
Definition started {F : FOps} (n u : nat) (m : mat F) (h : nat -> nat -> F) : Prop :=
  m = mgen n u h \/ mwf m /\ mrows m <> n /\ forall i j, h i j = f0 F.
