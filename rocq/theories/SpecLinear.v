(* SpecLinear.v - gradient descent on a linear model with the squared error *)
From Coq Require Import Arith Reals.
From Verif Require Import SpecReal.
Local Open Scope R_scope.

Section Lin.
Variables (N k m : nat) (X T : nat -> nat -> R).      (* N samples of k values, truths of m values *)
Definition model := ((nat -> nat -> R) * (nat -> R))%type.   (* weights, biases *)
Definition resid (p : model) (i j : nat) : R := rsum k (fun l => X i l * fst p l j) + snd p j - T i j.
(* mean squared error *)
Definition mse (p : model) : R := rsum N (fun i => rsum m (fun j => resid p i j * resid p i j)) / (INR N * INR m).
(* half its derivatives *)
Definition gradW (p : model) (l j : nat) : R := rsum N (fun i => X i l * resid p i j) / (INR N * INR m).
Definition gradB (p : model) (j : nat) : R := rsum N (fun i => resid p i j) / (INR N * INR m).
Definition gradNorm (p : model) : R := rsum m (fun j => rsum k (fun l => gradW p l j * gradW p l j) + gradB p j * gradB p j).
(* gradient descent with rate eta *)
Definition descend (eta : R) (p : model) : model := (fun l j => fst p l j - eta * gradW p l j, fun j => snd p j - eta * gradB p j).
Fixpoint iterate (eta : R) (p : model) (e : nat) : model := match e with O => p | S q => descend eta (iterate eta p q) end.
(* sum of squares of the inputs, the constant input included *)
Definition energy : R := rsum N (fun i => rsum k (fun l => X i l * X i l) + 1).
(* squared distance between two models *)
Definition dist2 (p q : model) : R := rsum m (fun j => rsum k (fun l => (fst p l j - fst q l j) * (fst p l j - fst q l j)) + (snd p j - snd q j) * (snd p j - snd q j)).
End Lin.
