(* SpecRound.v - how far single-precision results may be from the exact ones *)
From Coq Require Import List Arith ZArith Reals.
From Flocq Require Import Core IEEE754.BinarySingleNaN.
From Verif Require Import Base Scalar Mat SpecMat Act LayMat Layer Net.
Import ListNotations.
Local Open Scope R_scope.

(* unit roundoff 2^-24, half the smallest subnormal 2^-150, overflow threshold 2^128 *)
Definition u32 : R := bpow radix2 (-24).
Definition eta32 : R := bpow radix2 (-150).
Definition max32 : R := bpow radix2 128.
Definition val (x : b32) : R := B2R x.
Definition fin (x : b32) : Prop := is_finite x = true.

(* exact sums *)
Fixpoint rsum (n : nat) (f : nat -> R) : R := match n with O => 0 | S k => rsum k f + f k end.

(* error of a sum of n products whose absolute values add up to A *)
Definition dotErr (n : nat) (A : R) : R := ((1 + u32) ^ (n + 1) - 1) * A + INR n * (1 + u32) ^ n * eta32.
(* bound of its computed absolute value *)
Definition dotMag (n : nat) (A : R) : R := (1 + u32) ^ (n + 1) * A + INR n * (1 + u32) ^ n * eta32.

(** * networks of Dense, Dot and Relu layers *)
Inductive unit32 := UDense (k m : nat) (W : nat -> nat -> b32) (b : nat -> b32) | UDot (k m : nat) (W : nat -> nat -> b32) | URelu.
(* exact output, x being one row of inputs *)
Definition exact1 (l : unit32) (x : nat -> R) (j : nat) : R :=
  match l with
  | UDense k m W b => rsum k (fun i => x i * val (W i j)) + val (b j)
  | UDot k m W => rsum k (fun i => x i * val (W i j))
  | URelu => Rmax 0 (x j)
  end.
Fixpoint exact (ls : list unit32) (x : nat -> R) : nat -> R := match ls with [] => x | l :: r => exact r (exact1 l x) end.
(* error bound of the output, e bounding the error of the inputs *)
Definition err1 (l : unit32) (x e : nat -> R) (j : nat) : R :=
  match l with
  | UDense k m W b => rsum k (fun i => e i * Rabs (val (W i j))) + dotErr (S k) (rsum k (fun i => (Rabs (x i) + e i) * Rabs (val (W i j))) + Rabs (val (b j)))
  | UDot k m W => rsum k (fun i => e i * Rabs (val (W i j))) + dotErr k (rsum k (fun i => (Rabs (x i) + e i) * Rabs (val (W i j))))
  | URelu => e j
  end.
Fixpoint errOf (ls : list unit32) (x e : nat -> R) : nat -> R := match ls with [] => e | l :: r => errOf r (exact1 l x) (err1 l x e) end.
(* widths that chain; no value can overflow *)
Definition small1 (l : unit32) (x e : nat -> R) (k m : nat) : Prop :=
  match l with
  | UDense k' m' W b => k' = k /\ m' = m /\ (0 < m)%nat /\ (forall i j, (i < k)%nat -> (j < m)%nat -> fin (W i j)) /\ (forall j, (j < m)%nat -> fin (b j)) /\
      (forall j, (j < m)%nat -> dotMag (S k) (rsum k (fun i => (Rabs (x i) + e i) * Rabs (val (W i j))) + Rabs (val (b j))) < max32)
  | UDot k' m' W => k' = k /\ m' = m /\ (0 < m)%nat /\ (forall i j, (i < k)%nat -> (j < m)%nat -> fin (W i j)) /\
      (forall j, (j < m)%nat -> dotMag k (rsum k (fun i => (Rabs (x i) + e i) * Rabs (val (W i j)))) < max32)
  | URelu => m = k
  end.
Fixpoint small (ls : list unit32) (x e : nat -> R) (k m : nat) : Prop :=
  match ls with
  | [] => m = k
  | l :: r => exists j, small1 l x e k j /\ small r (exact1 l x) (err1 l x e) j m
  end.
(* the layer object of a unit *)
Definition holds (F : FOps) (conv : b32 -> F) (l : layer F) (s : unit32) : Prop :=
  match s with
  | UDense k m W b => lk l = KDense k m /\ lw l = mgen k m (fun i j => conv (W i j)) /\ lb l = mgen 1 m (fun _ j => conv (b j))
  | UDot k m W => lk l = KDot k m /\ lw l = mgen k m (fun i j => conv (W i j))
  | URelu => lk l = KAct (Some ARelu)
  end.
Definition holdsAll (F : FOps) (conv : b32 -> F) (h : heap F) (ls : list nat) (us : list unit32) : Prop :=
  Forall2 (fun a s => exists l, hget F h a = Ok l /\ holds F conv l s) ls us.
