(* ReaderProofs3.v - the CIFAR-10 reader with its sizes; witnesses *)
From Coq Require Import List Arith Bool NArith ZArith Lia.
From Coq.Init Require Import Byte.
From Coq.Strings Require Import Byte.
From Verif Require Import Base Scalar Mat SpecMat MatFacts MatProofs SpecReader Reader ReaderProofs1 ReaderProofs2.
Import ListNotations.

Lemma five : N.to_nat 50000 = 5 * N.to_nat 10000. Proof. lia. Qed.
Lemma load_sizes : forall F, cifarLoad F = cifarLoadN F (N.to_nat 10000) (N.to_nat 3072) (5 * N.to_nat 10000).
Proof. intro F. unfold cifarLoad. rewrite five. reflexivity. Qed.
(* nb records per file, px pixels per record *)
Theorem cifar_loads : forall F nb px recs test d, nb = N.to_nat 10000 -> px = N.to_nat 3072 -> length recs = 5 -> (forall r, In r (test :: recs) -> length r = nb * (1 + px)) ->
  mwf (dTrain F d) -> mwf (dTrainT F d) -> mwf (dVal F d) -> mwf (dValT F d) ->
  exists d', cifarLoad F (map Some recs) (Some test) d = Ok (true, d') /\
    dTrain F d' = mgen (5 * nb) px (fun i j => fdiv F (fByte F (at_byte (nth (i / nb) recs []) (i mod nb * (1 + px) + (1 + j)))) (fofZ F 255)) /\
    dTrainT F d' = mgen (5 * nb) 1 (fun i _ => fByte F (at_byte (nth (i / nb) recs []) (i mod nb * (1 + px)))) /\
    dVal F d' = mgen nb px (fun i j => fdiv F (fByte F (at_byte test (i * (1 + px) + (1 + j)))) (fofZ F 255)) /\
    dValT F d' = mgen nb 1 (fun i _ => fByte F (at_byte test (i * (1 + px)))) /\
    dHasTrain F d' = dHasTrain F d /\ dHasVal F d' = dHasVal F d.
Proof.
  intros F nb px recs test d En Ep L H W1 W2 W3 W4. assert (Hn : 2 <= nb) by lia. assert (Hp : 1 <= px) by lia. rewrite load_sizes, <- En, <- Ep. clear En Ep.
  destruct (cifar_load F nb px Hn Hp recs test d L H W1 W2 W3 W4) as (d' & E & A & B & C & D & Q). exists d'. split; [exact E|]. split; [exact A|]. split; [exact B|].
  split; [rewrite C; apply mgen_ext; intros i j Hi Hj; unfold imgOf; rewrite Nat.div_small, Nat.mod_small by auto; reflexivity|]. split; [rewrite D; apply mgen_ext; intros i j Hi Hj; unfold clsOf; rewrite Nat.div_small, Nat.mod_small by auto; reflexivity|]. exact Q.
Qed.
Theorem cifar_no_data : forall F fs ft b d', cifarLoad F fs ft (dsNew F) = Ok (b, d') -> hasData F d' = false.
Proof. intros F fs ft b d' E. rewrite load_sizes in E. exact (cifar_has_no_data F _ _ _ _ _ _ E). Qed.
(* a folder of well-formed files: loaded, but has_data() is false *)
Theorem has_data_refuted : forall F, exists recs test d', length recs = 5 /\ (forall r, In r (test :: recs) -> length r = N.to_nat 10000 * (1 + N.to_nat 3072)) /\
  cifarLoad F (map Some recs) (Some test) (dsNew F) = Ok (true, d') /\ hasData F d' = false.
Proof.
  intro F. remember (N.to_nat 10000) as nb eqn:En. remember (N.to_nat 3072) as px eqn:Ep.
  set (r := repeat x00 (nb * (1 + px))). assert (Lr : length r = nb * (1 + px)) by apply repeat_length. clearbody r.
  assert (H : forall q, In q (r :: [r; r; r; r; r]) -> length q = nb * (1 + px)) by (intros q [<- | [<- | [<- | [<- | [<- | [<- | []]]]]]]; exact Lr).
  destruct (cifar_loads F nb px [r; r; r; r; r] r (dsNew F) En Ep eq_refl H eq_refl eq_refl eq_refl eq_refl) as (d' & E & _).
  exists [r; r; r; r; r], r, d'. split; [reflexivity|]. split; [exact H|]. split; [exact E|]. exact (cifar_no_data F _ _ _ _ E).
Qed.
(* a file that lacks all but the first byte of its last record is accepted *)
Theorem cut_batch_refuted : forall F nb px, 2 <= nb -> 1 <= px -> exists p, length p < nb * (1 + px) /\ exists d t, readBatch F nb px (Some p) (mempty F) (mempty F) = Ok (true, d, t).
Proof.
  intros F nb px Hn Hp. exists (repeat x00 ((nb - 1) * (1 + px) + 1)). rewrite repeat_length. split; [nia|]. rewrite batch_cut; auto; try reflexivity; try (rewrite repeat_length; nia). eexists. eexists. reflexivity.
Qed.
(* an image file that lacks its last pixel is accepted *)
Theorem cut_images_refuted : exists p p', length p' < length p /\ readMatrix ZOps (Some p) (mempty ZOps) = Ok (true, mkMat 2 2 [1; 2; 3; 4]%Z) /\ readMatrix ZOps (Some p') (mempty ZOps) = Ok (true, mkMat 2 2 [1; 2; 3; 2]%Z).
Proof.
  exists (idxImages [x00; x00; x00; x02] [x00; x00; x00; x01] [x00; x00; x00; x02] [x01; x02; x03; x04]), (idxImages [x00; x00; x00; x02] [x00; x00; x00; x01] [x00; x00; x00; x02] [x01; x02; x03]).
  split; [cbn; lia|]. split; vm_compute; reflexivity.
Qed.
(* a missing file: load never reports success *)
Lemma train_missing : forall F nb px fs k img tru all allT b a t, In None fs -> readTrain F nb px k fs img tru all allT = Ok (b, a, t) -> b = false.
Proof.
  intros F nb px. induction fs as [|f fs IH]; intros k img tru all allT b a t Hi E; [contradiction|]. cbn [readTrain] in E. apply bind_inv in E. destruct E as ([[ok im] tr] & E1 & E). destruct ok; cbn [negb] in E; [|inversion E; reflexivity].
  apply bind_inv in E. destruct E as (x & _ & E). apply bind_inv in E. destruct E as (y & _ & E). destruct Hi as [-> | Hi]; [discriminate E1|]. eapply IH; eauto.
Qed.
Theorem cifar_missing : forall F fs ft d b d', In None fs \/ ft = None -> cifarLoad F fs ft d = Ok (b, d') -> b = false.
Proof.
  intros F fs ft d b d' H E. rewrite load_sizes in E. revert E. generalize (N.to_nat 10000) (N.to_nat 3072). intros nb px E. unfold cifarLoadN in E. apply bind_inv in E. destruct E as ([[o a] t] & E1 & E).
  destruct o; cbn [negb] in E; [|inversion E; reflexivity]. destruct H as [H | ->]; [apply train_missing in E1; auto; discriminate|]. cbn in E. inversion E. reflexivity.
Qed.
(* with no file at all it reports failure and leaves the flags as they were *)
Theorem cifar_nothing : forall F d, exists d', cifarLoad F [None; None; None; None; None] None d = Ok (false, d') /\ dHasTrain F d' = dHasTrain F d /\ dHasVal F d' = dHasVal F d.
Proof. intros F d. rewrite load_sizes. unfold cifarLoadN. eexists. split; [reflexivity|]. split; reflexivity. Qed.
