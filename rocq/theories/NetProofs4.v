(* NetProofs4.v - concrete networks: example for the theorems, and networks outside them *)
From Coq Require Import String List Arith Bool Lia ZArith QArith.
From Verif Require Import Base Scalar Mat SpecMat MatFacts Act LayMat LayImg LayRnn Layer Net SpecNet NetRow NetProofs1 NetProofs2.
Import ListNotations.
Local Open Scope nat_scope.

(* a layer with given weights and biases *)
Definition layWith (k : kind QOps) (w b : mat QOps) : layer QOps := setWB (layBase QOps k "GlorotUniform" "Zeros") w b.
(* a matrix given row by row *)
Definition mlist (r c : nat) (l : list Q) : mat QOps := @mkMat QOps r c l.
Definition noRnd : rnd QOps := mkRnd QOps (fun _ => 0%Q) (fun _ => 0%Z).
Definition oneRnd : rnd QOps := mkRnd QOps (fun _ => 1%Q) (fun _ => 65535%Z).

(* Dense(2,2), Relu, Gain (not yet sized), Dense(2,1) *)
Definition exHeap : heap QOps :=
  [ Some (layWith (KDense 2 2) (mlist 2 2 [1; 2; (-1); 1]%Q) (mlist 1 2 [0; (1#2)]%Q));
    Some (layWith (KAct (Some ARelu)) (mempty QOps) (mempty QOps));
    Some (layWith KGain (mempty QOps) (mempty QOps));
    Some (layWith (KDense 2 1) (mlist 2 1 [1; (1#2)]%Q) (mlist 1 1 [1]%Q)) ].
Definition exNet : net := mkNet [0; 1; 2; 3] true false.
Lemma exNet_det : detNet QOps exHeap exNet 2 1.
Proof.
  split; [discriminate|]. split; [repeat constructor; simpl; intuition discriminate|].
  exists (layWith (KDense 2 2) (mlist 2 2 [1; 2; (-1); 1]%Q) (mlist 1 2 [0; (1#2)]%Q)), 2. split; [reflexivity|]. split; [repeat split|].
  exists (layWith (KAct (Some ARelu)) (mempty QOps) (mempty QOps)), 2. split; [reflexivity|]. split; [split; [reflexivity|discriminate]|].
  exists (layWith KGain (mempty QOps) (mempty QOps)), 2. split; [reflexivity|]. split; [split; [reflexivity|split; [lia|right; repeat split]]|].
  exists (layWith (KDense 2 1) (mlist 2 1 [1; (1#2)]%Q) (mlist 1 1 [1]%Q)), 1. split; [reflexivity|]. split; [repeat split|]. reflexivity.
Qed.

(* the values a prediction returns *)
Definition outOf (r : res (heap QOps * mat QOps)) : option (list Q) := match r with Ok (_, y) => Some (mdata y) | Err _ => None end.
Lemma outOf_ok : forall r d, outOf r = Some d -> exists h y, r = Ok (h, y) /\ mdata y = d.
Proof. intros [[h y]|e] d E; inversion E; eauto. Qed.

(** * layers that are random in inference mode *)
(* LayerRandomFlip flips whatever the mode: the same call gives different results for different draws *)
Definition flipHeap : heap QOps := [Some (layWith (KFlip 1 2 1) (mempty QOps) (mempty QOps))].
Lemma flip_random : exists rs rs' h n x y y' h1 h2, ntrain n = false /\ (forall a l, hget QOps h a = Ok l -> ltrain l = false) /\
  predict QOps rs h n x (mempty QOps) = Ok (h1, y) /\ predict QOps rs' h n x (mempty QOps) = Ok (h2, y') /\ mdata y <> mdata y'.
Proof.
  exists (fun _ => noRnd), (fun _ => oneRnd), flipHeap, (mkNet [0] true false), (mlist 1 2 [1; 2]%Q).
  assert (E1 : outOf (predict QOps (fun _ => noRnd) flipHeap (mkNet [0] true false) (mlist 1 2 [1; 2]%Q) (mempty QOps)) = Some [2; 2]%Q) by (vm_compute; reflexivity).
  assert (E2 : outOf (predict QOps (fun _ => oneRnd) flipHeap (mkNet [0] true false) (mlist 1 2 [1; 2]%Q) (mempty QOps)) = Some [1; 2]%Q) by (vm_compute; reflexivity).
  apply outOf_ok in E1. apply outOf_ok in E2. destruct E1 as (h1 & y & A1 & B1), E2 as (h2 & y' & A2 & B2). exists y, y', h1, h2.
  split; [reflexivity|]. split; [|split; [exact A1|split; [exact A2|rewrite B1, B2; discriminate]]].
  intros a l E. destruct a as [|[|a]]; cbn in E; inversion E; reflexivity.
Qed.
(* recurrent layers draw new weights at the start of every forward pass over several frames *)
Definition rnnHeap : heap QOps :=
  [Some (setRnn (layBase QOps (KSimpleRnn 1 1) "GlorotUniform" "Zeros")
    (@mkRnn QOps (mlist 1 1 [1]%Q) (mlist 1 1 [1]%Q) (mlist 1 1 [0]%Q) (mempty QOps) []))].
Lemma rnn_random : exists rs rs' h n x y y' h1 h2, ntrain n = false /\ (forall a l, hget QOps h a = Ok l -> ltrain l = false) /\
  predict QOps rs h n x (mempty QOps) = Ok (h1, y) /\ predict QOps rs' h n x (mempty QOps) = Ok (h2, y') /\ mdata y <> mdata y'.
Proof.
  exists (fun _ => noRnd), (fun _ => oneRnd), rnnHeap, (mkNet [0] true false), (mlist 1 2 [1; 2]%Q).
  assert (E1 : outOf (predict QOps (fun _ => noRnd) rnnHeap (mkNet [0] true false) (mlist 1 2 [1; 2]%Q) (mempty QOps)) = Some [0]%Q) by (vm_compute; reflexivity).
  assert (E2 : outOf (predict QOps (fun _ => oneRnd) rnnHeap (mkNet [0] true false) (mlist 1 2 [1; 2]%Q) (mempty QOps)) = Some [1]%Q) by (vm_compute; reflexivity).
  apply outOf_ok in E1. apply outOf_ok in E2. destruct E1 as (h1 & y & A1 & B1), E2 as (h2 & y' & A2 & B2). exists y, y', h1, h2.
  split; [reflexivity|]. split; [|split; [exact A1|split; [exact A2|rewrite B1, B2; discriminate]]].
  intros a l E. destruct a as [|[|a]]; cbn in E; inversion E; reflexivity.
Qed.
(* a network without layers leaves the result matrix as it was *)
Lemma empty_predict : forall (F : FOps) rs h c t x out, predict F rs h (mkNet [] c t) x out = Ok (h, out).
Proof. intros. reflexivity. Qed.

(** * a single output may round to something that is not a class of a two class problem *)
Definition oneHeap : heap QOps := [Some (layWith (KDense 1 1) (mlist 1 1 [1]%Q) (mlist 1 1 [0]%Q))].
Lemma class_range_refuted : exists h n x rs h' c, detNet QOps h n 1 1 /\
  predictClasses QOps rs h n x (mempty QOps) = Ok (h', c) /\ mdata c = [(-3)%Q].
Proof.
  exists oneHeap, (mkNet [0] true false), (mlist 1 1 [(-3)%Q]), (fun _ => noRnd).
  assert (E1 : outOf (predictClasses QOps (fun _ => noRnd) oneHeap (mkNet [0] true false) (mlist 1 1 [(-3)%Q]) (mempty QOps)) = Some [(-3)%Q]) by (vm_compute; reflexivity).
  apply outOf_ok in E1. destruct E1 as (h1 & y & A1 & B1). exists h1, y. split; [|split; auto].
  split; [discriminate|]. split; [repeat constructor; simpl; intuition|].
  exists (layWith (KDense 1 1) (mlist 1 1 [1]%Q) (mlist 1 1 [0]%Q)), 1. split; [reflexivity|]. split; [repeat split|]. reflexivity.
Qed.

(** * a = a *)
Lemma self_refuted : exists (h : heap QOps) a k m x rs h1 y h' a' h2 y', detNet QOps h a k m /\
  predict QOps rs h a x (mempty QOps) = Ok (h1, y) /\ netAssign QOps true rs h a a = Ok (h', a') /\
  predict QOps rs h' a' x (mempty QOps) = Ok (h2, y') /\ mdata y = [(13#4)%Q] /\ mdata y' = [].
Proof.
  exists exHeap, exNet, 2, 1, (mlist 1 2 [1; 2]%Q), (fun _ => noRnd).
  assert (E1 : outOf (predict QOps (fun _ => noRnd) exHeap exNet (mlist 1 2 [1; 2]%Q) (mempty QOps)) = Some [(13#4)%Q]) by (vm_compute; reflexivity).
  apply outOf_ok in E1. destruct E1 as (h1 & y & A1 & B1). exists h1, y.
  destruct (self_assign_empties QOps (fun _ => noRnd) exHeap exNet) as (h' & A2 & _).
  { destruct exNet_det as (D1 & D2 & D3). split; auto. intros a Ha. simpl in Ha. destruct Ha as [<-|[<-|[<-|[<-|[]]]]]; eexists; reflexivity. }
  exists h', (mkNet [] (nclass exNet) false), h', (mempty QOps). split; [exact exNet_det|]. split; [exact A1|]. split; [exact A2|].
  split; [apply empty_predict|]. split; auto.
Qed.
