(* SpecReader.v - specification vocabulary for the binary readers *)
From Coq Require Import List Arith Bool NArith.
From Coq.Init Require Import Byte.
From Coq.Strings Require Import Byte.
Import ListNotations.

(* four bytes, most significant first, stand for x *)
Definition be4 (h : list byte) (x : N) : Prop :=
  exists b0 b1 b2 b3, h = [b0; b1; b2; b3] /\ x = (16777216 * to_N b0 + 65536 * to_N b1 + 256 * to_N b2 + to_N b3)%N.
Definition at_byte (p : list byte) (k : nat) : byte := nth k p x00.
(* Byte j of record i, when record i begins at base + stride*i; if the file ends before, the same byte of the last record
   that has it. *)
Fixpoint held (p : list byte) (stride base i j : nat) : byte :=
  match i with
  | 0 => at_byte p (base + j)
  | S i' => if i * stride + (base + j) <? length p then at_byte p (i * stride + (base + j)) else held p stride base i' j
  end.
(* the IDX files of nImg images of nR x nC pixels, and of n labels: header, then the bytes *)
Definition idxImages (hN hR hC pix : list byte) : list byte := [x00; x00; x08; x03] ++ hN ++ hR ++ hC ++ pix.
Definition idxLabels (hN lab : list byte) : list byte := [x00; x00; x08; x01] ++ hN ++ lab.
