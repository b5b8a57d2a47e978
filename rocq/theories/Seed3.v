(* Seed3.v - concrete runs for the theorems on random draws *)
From Coq Require Import String List Arith Bool Lia ZArith QArith.
From Verif Require Import Base Scalar Mat Loss Optim Regul Act LayMat LayImg LayRnn Layer Net NetTrain SpecNet SpecTrain NetProofs4 TrainProofs14 SpecSeed.
Import ListNotations.
Local Open Scope nat_scope.

Lemma hget_ok : forall (h : heap QOps) a l x, nth_error h a = Some (Some x) -> hget QOps h a = Ok l -> l = x.
Proof. intros h a l x H E. unfold hget, rget in E. rewrite H in E. cbn in E. injection E as <-. reflexivity. Qed.
(* every draw gives z; shuffles draw s *)
Definition drawQ (z : Z) : rnd QOps := mkRnd QOps (fun _ => inject_Z z) (fun _ => z).
Definition drawFR (z : Z) (s : nat) : fitRnd QOps :=
  mkFR QOps (fun _ _ => drawQ z) (fun _ => drawQ z) (fun _ _ => s) (fun _ _ _ => drawQ z) (fun _ _ _ => drawQ z) (fun _ _ => drawQ z) (fun _ _ => drawQ z) (fun _ => drawQ z).
Definition seedConf : conf := mkConf true 2 (-1) (-1) "SGD" (1#10).
(* the weights and biases after the run *)
Definition weightsAfter (R : fitRnd QOps) (batch : nat) (h : heap QOps) (n : net) : option (list (option (list Q * list Q))) :=
  match fit QOps Ok R h n (trOf seedConf batch (Some data2) (Some data2)) with Ok (h', n', _, _) => Some (map (wbAt h') (nlay n')) | Err _ => None end.

Lemma case_silent : allLayers QOps (silent QOps) oneHeap reg1 /\ oneBatch QOps (trOf seedConf 0 (Some data2) (Some data2)) /\
  weightsAfter (drawFR 3 0) 0 oneHeap reg1 = weightsAfter (drawFR 5 1) 0 oneHeap reg1 /\ weightsAfter (drawFR 3 0) 0 oneHeap reg1 <> None.
Proof.
  split; [|split].
  - intros a l [<-|[]] E. eapply hget_ok in E; [|reflexivity]; subst l. vm_compute. auto.
  - exists (fst data2), (snd data2). split; [reflexivity|left; reflexivity].
  - vm_compute. split; [reflexivity|discriminate].
Qed.
(* batches of one sample: the order matters *)
Lemma shuffle_matters : exists R1 R2, allLayers QOps (silent QOps) oneHeap reg1 /\ sameTraining QOps R1 R2 /\ weightsAfter R1 1 oneHeap reg1 <> weightsAfter R2 1 oneHeap reg1 /\
  weightsAfter R1 1 oneHeap reg1 <> None /\ weightsAfter R2 1 oneHeap reg1 <> None.
Proof.
  exists (drawFR 3 0), (drawFR 3 1). split; [|split; [intros e b i; reflexivity|vm_compute; repeat split; discriminate]].
  intros a l [<-|[]] E. eapply hget_ok in E; [|reflexivity]; subst l. vm_compute. auto.
Qed.
(* Dense then Dropout *)
Definition dropHeap : heap QOps := [Some (layWith (KDense 1 1) (mlist 1 1 [3]%Q) (mlist 1 1 [0]%Q)); Some (layWith (@KDropout QOps (1#2)%Q) (mempty QOps) (mempty QOps))].
Definition drop2 : net := mkNet [0; 1] false false.
Lemma dropout_matters : exists R1 R2, allLayers QOps (fun l => calm QOps l /\ ltrain l = false) dropHeap drop2 /\ sameShuffles QOps R1 R2 /\
  weightsAfter R1 0 dropHeap drop2 <> weightsAfter R2 0 dropHeap drop2 /\ weightsAfter R1 0 dropHeap drop2 <> None /\ weightsAfter R2 0 dropHeap drop2 <> None.
Proof.
  exists (drawFR 0 0), (drawFR 40000 0). split; [|split; [intros e b; reflexivity|vm_compute; repeat split; discriminate]].
  intros a l [<-|[<-|[]]] E; (eapply hget_ok in E; [|reflexivity]); subst l; vm_compute; auto.
Qed.
(* the same evaluation draws or not: with the training draws fixed, nothing changes *)
Definition evalFR (z : Z) : fitRnd QOps :=
  mkFR QOps (fun _ _ => drawQ z) (fun _ => drawQ z) (fun _ _ => 0) (fun _ _ _ => drawQ 0) (fun _ _ _ => drawQ z) (fun _ _ => drawQ z) (fun _ _ => drawQ z) (fun _ => drawQ z).
Lemma case_calm : sameTraining QOps (evalFR 0) (evalFR 40000) /\ weightsAfter (evalFR 0) 0 dropHeap drop2 = weightsAfter (evalFR 40000) 0 dropHeap drop2 /\ weightsAfter (evalFR 0) 0 dropHeap drop2 <> None.
Proof. split; [intros e b i; reflexivity|]. vm_compute. split; [reflexivity|discriminate]. Qed.
(* layers that draw outside training: RandomFlip, SimplestRNN on two samples *)
Definition flipHeap : heap QOps := [Some (layWith (KFlip 1 2 1) (mempty QOps) (mempty QOps))].
Definition rnnHeap : heap QOps := match layNew QOps (drawQ 1) (KSimplestRnn 1) "" "" with Ok l => [Some l] | _ => [] end.
Definition outOf (h : heap QOps) (n : net) (z : Z) (x : mat QOps) : option (list Q) :=
  match predict QOps (fun _ => drawQ z) h n x (mempty QOps) with Ok (_, o) => Some (map Qred (mdata o)) | Err _ => None end.
Lemma predict_matters : exists h x, allLayers QOps (fun l => ltrain l = false) h reg1 /\ outOf h reg1 0 x <> outOf h reg1 40000 x /\ outOf h reg1 0 x <> None /\ outOf h reg1 40000 x <> None.
Proof.
  exists flipHeap, (mlist 1 2 [1; 2]%Q). split; [|vm_compute; repeat split; discriminate].
  intros a l [<-|[]] E. eapply hget_ok in E; [|reflexivity]; subst l. reflexivity.
Qed.
Lemma predict_rnn_matters : allLayers QOps (fun l => ltrain l = false) rnnHeap reg1 /\
  outOf rnnHeap reg1 0 (mlist 2 3 [1; 2; 1; 1; 1; 1]%Q) = Some [2; 1]%Q /\ outOf rnnHeap reg1 5 (mlist 2 3 [1; 2; 1; 1; 1; 1]%Q) = Some [7; 6]%Q.
Proof.
  split; [|vm_compute; auto]. intros a l [<-|[]] E. eapply hget_ok in E; [|reflexivity]; subst l. reflexivity.
Qed.
