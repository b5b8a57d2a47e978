(* SpecLayer.v - vocabulary of the layer statements *)
From Coq Require Import Reals List.
From Coquelicot Require Import Coquelicot.
From Verif Require Import Base Scalar Mat SpecMat SpecReal Loss SpecLoss.
Local Open Scope R_scope.

(* <G, o> : the sum over all cells of G times the cell of the matrix o *)
Definition dotM (G : nat -> nat -> R) (o : mat R) : R :=
  rsum (mrows o) (fun i => rsum (mcols o) (fun j => G i j * nth (i * mcols o + j) (mdata o) 0)).
(* <G, output> for the outcome of a forward pass.  A backward pass given the output gradient G should return the
   partial derivatives of this number (isPartial of SpecLoss.v). *)
Definition obj (G : nat -> nat -> R) (r : res (mat R)) : R := match r with Ok o => dotM G o | Err _ => 0 end.
(* forward passes that also update the layer return (state, output) *)
Definition out_ {A B} (r : res (A * B)) : res B := match r with Ok p => Ok (snd p) | Err e => Err e end.
Definition state_ {A B} (r : res (A * B)) : res A := match r with Ok p => Ok (fst p) | Err e => Err e end.

(* s*g is the gradient of L at P, for an r x c matrix argument; a gradient averaged over n rows has s = n *)
Definition gradOf (r c : nat) (s : R) (L : (nat -> nat -> R) -> R) (P g : nat -> nat -> R) : Prop :=
  forall a b, (a < r)%nat -> (b < c)%nat -> isPartial L P a b (s * g a b).

Definition softmax (k : nat) (x : nat -> R) (j : nat) : R := exp (x j) / rsum k (fun l => exp (x l)).
