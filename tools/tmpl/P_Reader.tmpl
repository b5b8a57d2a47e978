(* P_Reader.v - property theorems about the MNIST and CIFAR-10 readers (C60, C61) *)
From Coq Require Import List Arith Bool NArith ZArith.
From Coq.Init Require Import Byte.
From Coq.Strings Require Import Byte.
From Verif Require Import Base Scalar Mat SpecMat SpecReader Reader ReaderProofs1 ReaderProofs2 ReaderProofs3.
Import ListNotations.

(** C60.  Well-formed files (any counts, sizes, bytes; bytes after the data are ignored): *)
@thm C60_images = images_read | forall F : FOps, | fByte = fByte F
@thm C60_labels = labels_read | forall F : FOps, | fByte = fByte F
(* files refused: *)
@thm C60_wrong_magic = wrong_magic | forall F : FOps,
@thm C60_wrong_type = wrong_type | forall F : FOps,
@thm C60_wrong_dimensions = wrong_dim | forall F : FOps,
@thm C60_no_file = no_file | forall F : FOps,
(* files that are too short are never refused: they are accepted or indeterminate bytes are used *)
@thm C60_short_labels_undefined = labels_short | forall F : FOps,
@thm C60_short_images_undefined = images_short | forall F : FOps,
@thm C60_cut_images_accepted = images_cut | forall F : FOps, | fByte = fByte F
@thm C60_cut_images_refuted = cut_images_refuted
(* the four files of a folder *)
@thm C60_load = mnist_load | forall F : FOps,
@thm C60_has_data = has_data_either | forall F : FOps,
@thm C60_load_missing_file = mnist_missing | forall F : FOps,
Example C60_case : readMatrix ZOps (Some (idxImages [x00; x00; x00; x02] [x00; x00; x00; x01] [x00; x00; x00; x03] [x01; x02; x03; xff; x00; x10])) (mempty ZOps) =
  Ok (true, mkMat 2 3 [1; 2; 3; 255; 0; 16]%Z) /\ be4 [x00; x00; x01; x02] 258.
Proof. split; [vm_compute; reflexivity|]. do 4 eexists. split; reflexivity. Qed.

(** C61.  Well-formed batches: *)
@thm C61_load_partial = cifar_loads
@thm C61_batch = batch_read | forall (F : FOps) (nb px : nat), 2 <= nb -> 1 <= px -> | recLen = (1 + px); fByte = fByte F
(* missing from the full statement: the flags, and the rejection of truncated files.  Both are false: *)
@thm C61_has_data_never = cifar_no_data
@thm C61_has_data_refuted = has_data_refuted
@thm C61_never_rejects = batch_never_rejects | forall (F : FOps) (nb px : nat),
@thm C61_short_batch_undefined = batch_short | forall (F : FOps) (nb px : nat), 2 <= nb -> 1 <= px -> | recLen = (1 + px)
@thm C61_cut_batch_accepted = batch_cut | forall (F : FOps) (nb px : nat), 2 <= nb -> 1 <= px -> | recLen = (1 + px); fByte = fByte F
@thm C61_cut_batch_refuted = cut_batch_refuted
@thm C61_missing_file = cifar_missing
@thm C61_no_file = cifar_nothing
(* two records of three pixels *)
Example C61_case : readBatch ZOps 2 3 (Some [x07; x01; x02; x03; x09; x04; x05; xff]) (mempty ZOps) (mempty ZOps) = Ok (true, mkMat 2 3 [1; 2; 3; 4; 5; 255]%Z, mkMat 2 1 [7; 9]%Z).
Proof. vm_compute. reflexivity. Qed.
