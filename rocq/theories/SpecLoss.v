(* SpecLoss.v - textbook losses *)
From Coq Require Import Reals List.
From Coquelicot Require Import Coquelicot.
From Verif Require Import SpecReal SpecMat Base Scalar Mat Loss.
Local Open Scope R_scope.

(* the nine regression losses as functions of the error x = prediction - target *)
Definition errTerm (k : lossKind) (x : R) : R :=
  match k with
  | LMeanSquaredError | LL2 => x ^ 2
  | LMeanAbsoluteError | LL1 => Rabs x
  | LMeanCubicError | LL3 => Rabs x ^ 3
  | LHuber => if Rlt_dec (Rabs x) 1 then x ^ 2 / 2 else Rabs x - 1 / 2
  | LPseudoHuber => sqrt (1 + x ^ 2) - 1
  | LLogCosh => ln ((exp x + exp (- x)) / 2)
  | _ => 0
  end.
Definition isRegression (k : lossKind) : Prop :=
  match k with LCategoricalCrossEntropy | LSparseCategoricalCrossEntropy | LBinaryCrossEntropy => False | _ => True end.
(* reported as a sum over the samples (L1, L2, L3) or as a mean *)
Definition isSum (k : lossKind) : bool := match k with LL1 | LL2 | LL3 => true | _ => false end.
Definition lossColumn (k : lossKind) (n : nat) (P T : nat -> nat -> R) (j : nat) : R :=
  rsum n (fun i => errTerm k (P i j - T i j)) / (if isSum k then 1 else INR n).

(* sum of all entries of a matrix *)
Definition matTotal (m : mat R) : R := fold_right Rplus 0 (mdata m).
(* the scalar loss of a batch: what compute reports, summed *)
Definition totalLoss (junk : R) (cabs : R -> res R) (k : lossKind) (P T out : mat R) : R :=
  match compute (ROps junk) cabs k (noBalance (ROps junk)) P T out with Ok m => matTotal m | Err _ => 0 end.

(* d is the partial derivative of L at P with respect to entry (i,j) *)
Definition isPartial (L : (nat -> nat -> R) -> R) (P : nat -> nat -> R) (i j : nat) (d : R) : Prop :=
  is_derive (fun x => L (upd2 P i j x)) (P i j) d.

(* cross-entropy of one probability: -(t ln p + (1-t) ln (1-p)) and -t ln p, probabilities floored at 1e-8 *)
Definition floored (p : R) : R := Rmax p (1 / 100000000).
Definition binaryCE (p t : R) : R := - (t * ln (floored p) + (1 - t) * ln (floored (1 - p))).
Definition categoricalCE (p t : R) : R := - (t * ln (floored p)).
(* the one-hot encoding of a class number *)
Definition oneHot (cls : nat -> nat) (i j : nat) : R := if Nat.eqb (cls i) j then 1 else 0.
