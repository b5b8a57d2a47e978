(* SpecMat.v - specification vocabulary for matrices *)
From Coq Require Import List Arith Bool.
From Verif Require Import Base Scalar Mat.
Import ListNotations.

(* The r x c matrix whose entry (i,j) is f i j, stored row after row. *)
Definition mgen {A} (r c : nat) (f : nat -> nat -> A) : mat A :=
  mkMat r c (flat_map (fun i => map (f i) (seq 0 c)) (seq 0 r)).

(* f with entry (i,j) replaced by v *)
Definition upd2 {A} (f : nat -> nat -> A) (i j : nat) (v : A) : nat -> nat -> A :=
  fun i' j' => if (i' =? i) && (j' =? j) then v else f i' j'.

(* A matrix object is well formed when its buffer has rows*cols cells. *)
Definition mwf {A} (m : mat A) : Prop := length (mdata m) = mrows m * mcols m.

(* A batch of nS samples, each made of nH planes (channels) of nR rows and nC columns, stored - as documented in
   Matrix.h:727 - in the order sample, channel, row, column; one matrix row per sample. *)
Definition tens {A} (nS nH nR nC : nat) (t : nat -> nat -> nat -> nat -> A) : mat A :=
  mkMat nS (nH * nR * nC)
    (flat_map (fun s => flat_map (fun h => flat_map (fun r => map (t s h r) (seq 0 nC)) (seq 0 nR)) (seq 0 nH)) (seq 0 nS)).

(* the list of (sample row, truth row) pairs *)
Definition pairedRows {A} (n k q : nat) (s t : nat -> nat -> A) : list (list A * list A) :=
  map (fun i => (map (s i) (seq 0 k), map (t i) (seq 0 q))) (seq 0 n).
