(* SpecSoft.v - the exact softmax and what is assumed of expf and logf *)
From Coq Require Import ZArith Reals Bool List.
From Flocq Require Import Core IEEE754.BinarySingleNaN.
From Verif Require Import Base Scalar Loss SpecRound SpecNaN.
Local Open Scope R_scope.

(* the exact softmax of k values *)
Definition softmaxR (k : nat) (x : nat -> R) (j : nat) : R := exp (x j) / rsum k (fun i => exp (x i)).
(* expf of nonpositive arguments: within [0,1], 1 at zero, 0 at -infinity *)
Record expUnit (lm : libm -> b32 -> b32) : Prop := {
  eu_range : forall x, num x -> ext x <= 0 -> btw 0 1 (lm Lexp x);
  eu_zero : forall x, fin x -> val x = 0 -> btw 1 1 (lm Lexp x);
  eu_inf : btw 0 0 (lm Lexp (inf32 true)) }.
(* and at most eps away from the exponential *)
Definition expClose (lm : libm -> b32 -> b32) (eps : R) : Prop :=
  forall x, fin x -> val x <= 0 -> Rabs (val (lm Lexp x) - exp (val x)) <= eps.
(* logf of an argument in [2^-27, 1] is a float in [-32, 0] (ln 2^-27 = -18.7) *)
Definition logUnit (lm : libm -> b32 -> b32) : Prop :=
  forall x, fin x -> p2 (-27) <= val x <= 1 -> btw (-32) 0 (lm Llog x).
(* a finite float in [0,1] *)
Definition prob (x : b32) : Prop := fin x /\ 0 <= val x <= 1.
(* truth: one number in [0,1] per entry, or the number of a class per row *)
Definition truthFor (k : lossKind) (n c : nat) (T : nat -> nat -> b32) : Prop :=
  match k with
  | LCategoricalCrossEntropy => forall i j, (i < n)%nat -> (j < c)%nat -> prob (T i j)
  | LBinaryCrossEntropy => c = 1%nat /\ forall i, (i < n)%nat -> prob (T i O)
  | LSparseCategoricalCrossEntropy => forall i, (i < n)%nat -> exists t, (t < c)%nat /\ b32_toZ (T i O) = Some (Z.of_nat t)
  | _ => False
  end.
Definition truthCols (k : lossKind) (c : nat) : nat := match k with LCategoricalCrossEntropy => c | _ => 1%nat end.
