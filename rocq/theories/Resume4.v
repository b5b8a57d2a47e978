(* Resume4.v - concrete runs in one and in two calls; where splitting changes the result *)
From Coq Require Import String List Arith Bool Lia ZArith QArith.
From Verif Require Import Base Scalar Mat SpecMat MatFacts MatProofs Loss Optim LayMat LayImg Layer Net NetTrain SpecFit SpecResume Resume3 Order5 SpecOrder NetProofs4 TrainProofs14.
Import ListNotations.
Local Open Scope nat_scope.

(* [ordTr] with another optimiser *)
Definition resTr (F : FOps) (opt : string) (kp : bool) (b : nat) (lr mom : F) (y : nat -> F) : trainer F :=
  setSettings F (withData (trNew F) (ordX F (fun i => i), ordY F (fun i => i) y)) (mkSet F b 128 kp 0 (-1) (-1) false opt lr (fofN F 0) mom LMeanSquaredError None).
Lemma res_trainable : forall (F : FOps) opt kp b lr mom y, create_optimizer opt <> None -> trainable (ordHeap F) ordNet (resTr F opt kp b lr mom y) 1 1.
Proof.
  intros F opt kp b lr mom y Ho. unfold trainable. split; [constructor; [intros []|constructor]|]. split. { eexists. exists 1. split; [reflexivity|]. split; [repeat split; auto | reflexivity]. }
  split; [intros i a l E; destruct i; discriminate E|]. split; [exact Ho|]. split; [reflexivity|]. split; [left; reflexivity|]. split; [cbn; lia|]. split; [constructor|]. split; [constructor|].
  split; [|intros d E; discriminate E]. eexists. split; [reflexivity|]. split; [apply mwf_gen|]. split; [apply mwf_gen|]. repeat split.
Qed.
Lemma res_sized : forall F : FOps, allSized F (ordHeap F) ordNet.
Proof. intros F a l [<-|[]] E. injection E as <-. exact I. Qed.
(* the theorem applies to a Dense layer trained on three samples with any batch size, shuffles and number of epochs, in any arithmetic *)
Theorem resume_case : forall (F : FOps) R b lr mom y e1 e2, 0 < e2 -> exists h1 n1 t1 c1 h2 n2 t2 c2,
  fit F (absFloat F) R (ordHeap F) ordNet (withEpochs F e1 (resTr F "SGD" false b lr mom y)) = Ok (h1, n1, t1, c1) /\
  fit F (absFloat F) (later F e1 R) h1 n1 (withEpochs F e2 t1) = Ok (h2, n2, t2, c2) /\
  fit F (absFloat F) R (ordHeap F) ordNet (withEpochs F (e1 + e2) (resTr F "SGD" false b lr mom y)) =
    Ok (h2, n2, setHist F (withEpochs F (e1 + e2) t2) (histApp F (th F t1) (th F t2)), c1 ++ map (histApp F (th F t1)) c2).
Proof.
  intros F R b lr mom y e1 e2 He. apply (fit_resume F R (ordHeap F) ordNet (resTr F "SGD" false b lr mom y) 1 1 e1 e2); auto.
  - apply res_trainable. discriminate.
  - discriminate.
  - exists OSGD. split; [reflexivity|]. right. right. reflexivity.
  - apply res_sized.
Qed.

(* computed runs: weights and training losses after one call, after two calls *)
Definition ysq (i : nat) : Q := inject_Z (Z.of_nat (i * i + 1)).
Definition oneCall (R : fitRnd QOps) h n (t : trainer QOps) (e : nat) : option (list (option (list Q * list Q)) * list Q) :=
  match fit QOps (absFloat QOps) R h n (withEpochs QOps e t) with Ok (h', n', t', _) => Some (map (wbAt h') (nlay n'), hTL QOps (th QOps t')) | Err _ => None end.
Definition twoCalls (R : fitRnd QOps) h n (t : trainer QOps) (e1 e2 : nat) : option (list (option (list Q * list Q)) * list Q) :=
  match fit QOps (absFloat QOps) R h n (withEpochs QOps e1 t) with
  | Ok (h1, n1, t1, _) =>
      match fit QOps (absFloat QOps) (later QOps e1 R) h1 n1 (withEpochs QOps e2 t1) with Ok (h', n', t', _) => Some (map (wbAt h') (nlay n'), hTL QOps (th QOps t')) | Err _ => None end
  | Err _ => None
  end.
Lemma run_case : forall kb, kb = 0 \/ kb = 1 -> exists w l1 l2, oneCall noFR (ordHeap QOps) ordNet (resTr QOps "SGD" false kb (1 # 10) 0%Q ysq) 3 = Some (w, l1) /\
  twoCalls noFR (ordHeap QOps) ordNet (resTr QOps "SGD" false kb (1 # 10) 0%Q ysq) 1 2 = Some (w, l2) /\ length l1 = 3 /\ length l2 = 2.
Proof. intros kb [-> | ->]; do 3 eexists; vm_compute; repeat split. Qed.
(* the weights after two epochs in one call and in two calls of one epoch *)
Lemma plain_run : oneCall noFR (ordHeap QOps) ordNet (resTr QOps "SGD" false 0 (1 # 10) 0%Q ysq) 2 = Some ([Some ([53 # 75], [7 # 15])], [10 # 3; 1334 # 675])%Q /\
  twoCalls noFR (ordHeap QOps) ordNet (resTr QOps "SGD" false 0 (1 # 10) 0%Q ysq) 1 1 = Some ([Some ([53 # 75], [7 # 15])], [1334 # 675])%Q.
Proof. vm_compute. auto. Qed.

(** * where it fails *)
(* the weights after fit with e1 + e2 epochs, and after two calls, differ *)
Definition splitDiffers (h : heap QOps) (n : net) (t : trainer QOps) : Prop := exists e1 e2 w1 b1 c1 w2 b2 c2,
  0 < e2 /\ oneCall noFR h n t (e1 + e2) = Some ([Some (w1, b1)], c1) /\ twoCalls noFR h n t e1 e2 = Some ([Some (w2, b2)], c2) /\ w1 <> w2.
(* a momentum is forgotten between two calls *)
Theorem momentum_refuted : exists h n t k m, trainable h n t k m /\ nlay n <> [] /\ cKeep QOps (tc QOps t) = false /\ allSized QOps h n /\ create_optimizer (cOpt QOps (tc QOps t)) = Some OMomentum /\ splitDiffers h n t.
Proof.
  exists (ordHeap QOps), ordNet, (resTr QOps "Momentum" false 0 (1 # 10) (9 # 10) ysq), 1, 1. split; [apply res_trainable; discriminate|]. split; [discriminate|]. split; [reflexivity|]. split; [apply res_sized|]. split; [reflexivity|].
  exists 1, 1. do 6 eexists. split; [lia|]. split; [vm_compute; reflexivity|]. split; [vm_compute; reflexivity|]. discriminate.
Qed.
(* with keep-best the second call starts from the best network of the first one, and compares its losses anew *)
Theorem keep_refuted : exists h n t k m, trainable h n t k m /\ nlay n <> [] /\ cKeep QOps (tc QOps t) = true /\ allSized QOps h n /\ create_optimizer (cOpt QOps (tc QOps t)) = Some OSGD /\ splitDiffers h n t.
Proof.
  exists (ordHeap QOps), ordNet, (resTr QOps "SGD" true 0 1%Q 0%Q ysq), 1, 1. split; [apply res_trainable; discriminate|]. split; [discriminate|]. split; [reflexivity|]. split; [apply res_sized|]. split; [reflexivity|].
  exists 1, 1. do 6 eexists. split; [lia|]. split; [vm_compute; reflexivity|]. split; [vm_compute; reflexivity|]. discriminate.
Qed.
(* a LayerGain gets its gains in the first call and is trained only by the second *)
Theorem lazy_refuted : exists h n t k m, trainable h n t k m /\ nlay n <> [] /\ cKeep QOps (tc QOps t) = false /\ create_optimizer (cOpt QOps (tc QOps t)) = Some OSGD /\ splitDiffers h n t.
Proof.
  exists [Some (layWith KGain (mempty QOps) (mempty QOps))], ordNet, (resTr QOps "SGD" false 0 (1 # 10) 0%Q ysq), 1, 1. split.
  { destruct (res_trainable QOps "SGD" false 0 (1 # 10) 0%Q ysq) as (A1 & _ & _ & A2); [discriminate|]. split; [exact A1|]. split; [|split; [intros i a l E; destruct i; discriminate E|exact A2]].
    eexists. exists 1. split; [reflexivity|]. split; [|reflexivity]. split; [auto|]. split; [auto|]. do 3 (split; [reflexivity|]). cbn [layWith lk lw lb]. split; [reflexivity|]. split; [left; split; reflexivity|split; reflexivity]. }
  split; [discriminate|]. split; [reflexivity|]. split; [reflexivity|].
  exists 1, 1. do 6 eexists. split; [lia|]. split; [vm_compute; reflexivity|]. split; [vm_compute; reflexivity|]. discriminate.
Qed.
