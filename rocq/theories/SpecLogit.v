(* SpecLogit.v - gradient descent on a linear classifier with the cross-entropy (multinomial logistic regression) *)
From Coq Require Import Arith Reals.
From Verif Require Import Base Scalar Mat SpecReal Loss SpecLoss SpecMat SpecData LayMat Layer Net NetTrain SpecTrain SpecLinear.
Local Open Scope R_scope.

Section Logit.
Variables (N k m : nat) (X : nat -> nat -> R) (c : nat -> nat).   (* N samples of k values, sample i of class c i among m *)
Definition score (p : model) (i j : nat) : R := rsum k (fun l => X i l * fst p l j) + snd p j.
(* the probability the model gives to class j for sample i *)
Definition chance (p : model) (i j : nat) : R := exp (score p i j) / rsum m (fun l => exp (score p i l)).
(* mean cross-entropy *)
Definition cross (p : model) : R := rsum N (fun i => - ln (chance p i (c i))) / INR N.
Definition err (p : model) (i j : nat) : R := chance p i j - (if Nat.eqb (c i) j then 1 else 0).
(* its derivatives *)
Definition slopeW (p : model) (l j : nat) : R := rsum N (fun i => X i l * err p i j) / INR N.
Definition slopeB (p : model) (j : nat) : R := rsum N (fun i => err p i j) / INR N.
Definition slopeNorm (p : model) : R := rsum m (fun j => rsum k (fun l => slopeW p l j * slopeW p l j) + slopeB p j * slopeB p j).
(* gradient descent with rate eta *)
Definition down (eta : R) (p : model) : model := (fun l j => fst p l j - eta * slopeW p l j, fun j => snd p j - eta * slopeB p j).
Fixpoint run (eta : R) (p : model) (e : nat) : model := match e with O => p | S q => down eta (run eta p q) end.
(* no sample is given up: the probability of its class is at least 1e-8 *)
Definition alive (p : model) : Prop := forall i, (i < N)%nat -> 1 / 100000000 <= chance p i (c i).
(* every sample gets its highest score at its class, and nowhere else *)
Definition allRight (p : model) : Prop := forall i j, (i < N)%nat -> (j < m)%nat -> j <> c i -> score p i j < score p i (c i).
End Logit.

(* the two ways of giving the classes: a column of class numbers, or one indicator per class *)
Definition classLoss (sparse : bool) : lossKind := if sparse then LSparseCategoricalCrossEntropy else LCategoricalCrossEntropy.
Definition classTruth (sparse : bool) (N m : nat) (c : nat -> nat) : mat R := if sparse then mgen N 1 (fun i _ => INR (c i)) else mgen N m (oneHot c).
(* number of samples whose most probable class is theirs, compared as the trainer compares them (SpecTrain.v) *)
Definition hits (jk : R) (N k m : nat) (X : nat -> nat -> R) (c : nat -> nat) (sparse : bool) (p : model) : nat :=
  count N (fun i => correct (ROps jk) m (mcols (classTruth sparse N m c)) (chance k m X p i) (fun j => if sparse then INR (c i) else oneHot c i j)).
