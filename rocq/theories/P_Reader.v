(* P_Reader.v - property theorems about the MNIST and CIFAR-10 readers (C60, C61) *)
From Coq Require Import List Arith Bool NArith ZArith.
From Coq.Init Require Import Byte.
From Coq.Strings Require Import Byte.
From Verif Require Import Base Scalar Mat SpecMat SpecReader Reader ReaderProofs1 ReaderProofs2 ReaderProofs3.
Import ListNotations.

(** C60.  Well-formed files (any counts, sizes, bytes; bytes after the data are ignored): *)
Theorem C60_images : forall F : FOps, forall hN hR hC pix rest m n r c, be4 hN (N.of_nat n) -> be4 hR (N.of_nat r) -> be4 hC (N.of_nat c) -> mwf m -> (N.of_nat (r * c) < 4294967296)%N ->
  length pix = n * (r * c) ->
  readMatrix F (Some (idxImages hN hR hC (pix ++ rest))) m = Ok (true, mgen n (r * c) (fun i j => fByte F (at_byte pix (i * (r * c) + j)))).
Proof. exact images_read. Qed.
Print Assumptions C60_images.

Theorem C60_labels : forall F : FOps, forall hN lab rest m n, be4 hN (N.of_nat n) -> mwf m -> length lab = n ->
  readMatrix F (Some (idxLabels hN (lab ++ rest))) m = Ok (true, mgen n 1 (fun i _ => fByte F (at_byte lab i))).
Proof. exact labels_read. Qed.
Print Assumptions C60_labels.

(* files refused: *)
Theorem C60_wrong_magic : forall F : FOps, forall lo hi t m, (lo, hi) <> (x00, x00) -> readMatrix F (Some (lo :: hi :: t)) m = Ok (false, m).
Proof. exact wrong_magic. Qed.
Print Assumptions C60_wrong_magic.

Theorem C60_wrong_type : forall F : FOps, forall ty t m, ty <> x08 -> readMatrix F (Some (x00 :: x00 :: ty :: t)) m = Ok (false, m).
Proof. exact wrong_type. Qed.
Print Assumptions C60_wrong_type.

Theorem C60_wrong_dimensions : forall F : FOps, forall d t m, d <> x01 -> d <> x03 -> readMatrix F (Some (x00 :: x00 :: x08 :: d :: t)) m = Ok (false, m).
Proof. exact wrong_dim. Qed.
Print Assumptions C60_wrong_dimensions.

Theorem C60_no_file : forall F : FOps, forall m, readMatrix F None m = Ok (false, m).
Proof. exact no_file. Qed.
Print Assumptions C60_no_file.

(* files that are too short are never refused: they are accepted or indeterminate bytes are used *)
Theorem C60_short_labels_undefined : forall F : FOps, forall hN lab m n k, be4 hN (N.of_nat n) -> mwf m -> length lab = n -> k < length (idxLabels hN lab) -> readMatrix F (Some (firstn k (idxLabels hN lab))) m = Err EUninit.
Proof. exact labels_short. Qed.
Print Assumptions C60_short_labels_undefined.

Theorem C60_short_images_undefined : forall F : FOps, forall hN hR hC pix m n r c k, be4 hN (N.of_nat n) -> be4 hR (N.of_nat r) -> be4 hC (N.of_nat c) -> mwf m -> (N.of_nat (r * c) < 4294967296)%N ->
  length pix = n * (r * c) -> k < length (idxImages hN hR hC pix) -> k < 16 + r * c -> readMatrix F (Some (firstn k (idxImages hN hR hC pix))) m = Err EUninit.
Proof. exact images_short. Qed.
Print Assumptions C60_short_images_undefined.

Theorem C60_cut_images_accepted : forall F : FOps, forall hN hR hC pix m n r c k, be4 hN (N.of_nat n) -> be4 hR (N.of_nat r) -> be4 hC (N.of_nat c) -> mwf m -> (N.of_nat (r * c) < 4294967296)%N ->
  length pix = n * (r * c) -> r * c <= k -> k < n * (r * c) ->
  readMatrix F (Some (firstn (16 + k) (idxImages hN hR hC pix))) m = Ok (true, mgen n (r * c) (fun i j => fByte F (held (firstn k pix) (r * c) 0 i j))).
Proof. exact images_cut. Qed.
Print Assumptions C60_cut_images_accepted.

Theorem C60_cut_images_refuted : exists p p', length p' < length p /\ readMatrix ZOps (Some p) (mempty ZOps) = Ok (true, mkMat 2 2 [1; 2; 3; 4]%Z) /\ readMatrix ZOps (Some p') (mempty ZOps) = Ok (true, mkMat 2 2 [1; 2; 3; 2]%Z).
Proof. exact cut_images_refuted. Qed.
Print Assumptions C60_cut_images_refuted.

(* the four files of a folder *)
Theorem C60_load : forall F : FOps, forall f1 f2 f3 f4 d a at' v vt n p n' p' q q', mwf (dTrain F d) -> mwf (dTrainT F d) -> mwf (dVal F d) -> mwf (dValT F d) ->
  readMatrix F f1 (dTrain F d) = Ok (true, mgen n p a) -> readMatrix F f2 (dTrainT F d) = Ok (true, mgen n q at') ->
  readMatrix F f3 (dVal F d) = Ok (true, mgen n' p' v) -> readMatrix F f4 (dValT F d) = Ok (true, mgen n' q' vt) ->
  exists d', mnistLoad F f1 f2 f3 f4 d = Ok (true, d') /\ hasData F d' = true /\ dHasTrain F d' = true /\ dHasVal F d' = true /\
    dTrain F d' = mgen n p (fun i j => fdiv F (a i j) (fofZ F 256)) /\ dTrainT F d' = mgen n q at' /\ dVal F d' = mgen n' p' (fun i j => fdiv F (v i j) (fofZ F 256)) /\ dValT F d' = mgen n' q' vt.
Proof. exact mnist_load. Qed.
Print Assumptions C60_load.

Theorem C60_has_data : forall F : FOps, forall d, hasData F d = false <-> (dHasTrain F d = false /\ dHasVal F d = false).
Proof. exact has_data_either. Qed.
Print Assumptions C60_has_data.

Theorem C60_load_missing_file : forall F : FOps, forall f1 f2 f3 f4 d b d', f1 = None \/ f2 = None \/ f3 = None \/ f4 = None -> mnistLoad F f1 f2 f3 f4 d = Ok (b, d') -> b = false /\ dHasTrain F d' = dHasTrain F d /\ dHasVal F d' = dHasVal F d.
Proof. exact mnist_missing. Qed.
Print Assumptions C60_load_missing_file.

Example C60_case : readMatrix ZOps (Some (idxImages [x00; x00; x00; x02] [x00; x00; x00; x01] [x00; x00; x00; x03] [x01; x02; x03; xff; x00; x10])) (mempty ZOps) =
  Ok (true, mkMat 2 3 [1; 2; 3; 255; 0; 16]%Z) /\ be4 [x00; x00; x01; x02] 258.
Proof. split; [vm_compute; reflexivity|]. do 4 eexists. split; reflexivity. Qed.

(** C61.  Well-formed batches: *)
Theorem C61_load_partial : forall F nb px recs test d, nb = N.to_nat 10000 -> px = N.to_nat 3072 -> length recs = 5 -> (forall r, In r (test :: recs) -> length r = nb * (1 + px)) ->
  mwf (dTrain F d) -> mwf (dTrainT F d) -> mwf (dVal F d) -> mwf (dValT F d) ->
  exists d', cifarLoad F (map Some recs) (Some test) d = Ok (true, d') /\
    dTrain F d' = mgen (5 * nb) px (fun i j => fdiv F (fByte F (at_byte (nth (i / nb) recs []) (i mod nb * (1 + px) + (1 + j)))) (fofZ F 255)) /\
    dTrainT F d' = mgen (5 * nb) 1 (fun i _ => fByte F (at_byte (nth (i / nb) recs []) (i mod nb * (1 + px)))) /\
    dVal F d' = mgen nb px (fun i j => fdiv F (fByte F (at_byte test (i * (1 + px) + (1 + j)))) (fofZ F 255)) /\
    dValT F d' = mgen nb 1 (fun i _ => fByte F (at_byte test (i * (1 + px)))) /\
    dHasTrain F d' = dHasTrain F d /\ dHasVal F d' = dHasVal F d.
Proof. exact cifar_loads. Qed.
Print Assumptions C61_load_partial.

Theorem C61_batch : forall (F : FOps) (nb px : nat), 2 <= nb -> 1 <= px -> forall recs rest d t, mwf d -> mwf t -> length recs = nb * (1 + px) ->
  readBatch F nb px (Some (recs ++ rest)) d t = Ok (true, mgen nb px (fun i j => fByte F (at_byte recs (i * (1 + px) + (1 + j)))), mgen nb 1 (fun i _ => fByte F (at_byte recs (i * (1 + px))))).
Proof. exact batch_read. Qed.
Print Assumptions C61_batch.

(* missing from the full statement: the flags, and the rejection of truncated files.  Both are false: *)
Theorem C61_has_data_never : forall F fs ft b d', cifarLoad F fs ft (dsNew F) = Ok (b, d') -> hasData F d' = false.
Proof. exact cifar_no_data. Qed.
Print Assumptions C61_has_data_never.

Theorem C61_has_data_refuted : forall F, exists recs test d', length recs = 5 /\ (forall r, In r (test :: recs) -> length r = N.to_nat 10000 * (1 + N.to_nat 3072)) /\
  cifarLoad F (map Some recs) (Some test) (dsNew F) = Ok (true, d') /\ hasData F d' = false.
Proof. exact has_data_refuted. Qed.
Print Assumptions C61_has_data_refuted.

Theorem C61_never_rejects : forall (F : FOps) (nb px : nat), forall p d t d' t', readBatch F nb px (Some p) d t <> Ok (false, d', t').
Proof. exact batch_never_rejects. Qed.
Print Assumptions C61_never_rejects.

Theorem C61_short_batch_undefined : forall (F : FOps) (nb px : nat), 2 <= nb -> 1 <= px -> forall p d t, mwf d -> mwf t -> length p <= (nb - 1) * (1 + px) -> readBatch F nb px (Some p) d t = Err EUninit.
Proof. exact batch_short. Qed.
Print Assumptions C61_short_batch_undefined.

Theorem C61_cut_batch_accepted : forall (F : FOps) (nb px : nat), 2 <= nb -> 1 <= px -> forall p d t, mwf d -> mwf t -> (nb - 1) * (1 + px) < length p -> length p < nb * (1 + px) ->
  readBatch F nb px (Some p) d t = Ok (true, mgen nb px (fun i j => fByte F (held p (1 + px) 1 i j)), mgen nb 1 (fun i _ => fByte F (at_byte p (i * (1 + px))))).
Proof. exact batch_cut. Qed.
Print Assumptions C61_cut_batch_accepted.

Theorem C61_cut_batch_refuted : forall F nb px, 2 <= nb -> 1 <= px -> exists p, length p < nb * (1 + px) /\ exists d t, readBatch F nb px (Some p) (mempty F) (mempty F) = Ok (true, d, t).
Proof. exact cut_batch_refuted. Qed.
Print Assumptions C61_cut_batch_refuted.

Theorem C61_missing_file : forall F fs ft d b d', In None fs \/ ft = None -> cifarLoad F fs ft d = Ok (b, d') -> b = false.
Proof. exact cifar_missing. Qed.
Print Assumptions C61_missing_file.

Theorem C61_no_file : forall F d, exists d', cifarLoad F [None; None; None; None; None] None d = Ok (false, d') /\ dHasTrain F d' = dHasTrain F d /\ dHasVal F d' = dHasVal F d.
Proof. exact cifar_nothing. Qed.
Print Assumptions C61_no_file.

(* two records of three pixels *)
Example C61_case : readBatch ZOps 2 3 (Some [x07; x01; x02; x03; x09; x04; x05; xff]) (mempty ZOps) (mempty ZOps) = Ok (true, mkMat 2 3 [1; 2; 3; 4; 5; 255]%Z, mkMat 2 1 [7; 9]%Z).
Proof. vm_compute. reflexivity. Qed.
