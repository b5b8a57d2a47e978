(* MetaProofs6.v - the layer factory; concrete runs of the meta-optimiser *)
From Coq Require Import String List Arith Bool Lia ZArith Reals Lra QArith.
From Verif Require Import Base Scalar Mat SpecMat Loss Optim Regul Act LayMat LayImg LayRnn Layer Net NetTrain SpecNet SpecTrain ActMono NetProofs1 NetProofs4 TrainProofs1 TrainProofs2 TrainProofs12 TrainProofs14 JsonSave Meta SpecMeta MetaProofs3 MetaProofs4 MetaProofs5.
Import ListNotations.
Local Open Scope nat_scope.

Section Factory.
Variable F : FOps.
Ltac scan := repeat match goal with H : context [if (?s =? ?x)%string then _ else _] |- _ => destruct (String.eqb_spec s x); [subst s|] end.
Lemma factory_kind : forall r s a1 a2 a3 a4 l, factory F r s a1 a2 a3 a4 = Ok l -> exists k wi bi, factoryKind F s a1 a2 a3 a4 = Ok (k, wi, bi) /\ lk l = k /\ layNew F r k wi bi = Ok l.
Proof.
  intros r s a1 a2 a3 a4 l E. unfold factory in E. apply bind_inv in E. destruct E as ([[k wi] bi] & E1 & E). exists k, wi, bi. split; [exact E1|]. split; [|exact E]. apply layNew_kind in E. tauto.
Qed.
(* the created layer is of the type asked for *)
Theorem factory_type : forall r s a1 a2 a3 a4 l, factory F r s a1 a2 a3 a4 = Ok l -> s <> "RandFlip"%string -> typeOf F (lk l) = s.
Proof.
  intros r s a1 a2 a3 a4 l E N. apply factory_kind in E. destruct E as (k & wi & bi & E & Hk & En). unfold factoryKind in E. cbv zeta in E.
  scan; try (binm E; injection E as <- <- <-; rewrite Hk; reflexivity); try congruence.
  injection E as <- <- <-. rewrite Hk. cbn [typeOf]. unfold layNew, layCtor in En. cbn [lk layBase] in En. destruct (get_activation s) as [a|] eqn:Ea; [|discriminate En].
  destruct (in_dec string_dec s list_activations_available) as [I|O]; [|rewrite (activations_unknown _ O) in Ea; discriminate]. destruct (activations_listed _ I) as (k & E1 & E2). rewrite Ea in E1. injection E1 as ->. exact E2.
Qed.
(* ... except for this name *)
Theorem factory_flip : forall r a1 a2 a3 a4 l, factory F r "RandFlip" a1 a2 a3 a4 = Ok l -> typeOf F (lk l) = "RandomFlip"%string.
Proof.
  intros r a1 a2 a3 a4 l E. apply factory_kind in E. destruct E as (k & wi & bi & E & Hk & _). unfold factoryKind in E. cbn in E. binm E. injection E as <- <- <-. rewrite Hk. reflexivity.
Qed.
Lemma not_in_all : forall s l, ~ In s l -> forallb (fun x => negb (s =? x)%string) l = true.
Proof. intros s l N. apply forallb_forall. intros x Hx. apply negb_true_iff. apply String.eqb_neq. intros ->. contradiction. Qed.
Lemma kind_act : forall s a1 a2 a3 a4, ~ In s factoryNames -> factoryKind F s a1 a2 a3 a4 = Ok (KAct (get_activation s), ""%string, ""%string).
Proof.
  intros s a1 a2 a3 a4 N. apply not_in_all in N. unfold factoryNames in N. cbn [forallb] in N. repeat (apply andb_prop in N; let H := fresh "H" in destruct N as [H N]; apply negb_true_iff in H). clear N.
  unfold factoryKind. cbv zeta. repeat match goal with H : (s =? ?x)%string = false |- _ => rewrite H; clear H end. reflexivity.
Qed.
(* a name that is neither a class name known to the factory nor an activation stops at the assertion of LayerActivation *)
Theorem factory_unknown : forall r s a1 a2 a3 a4, ~ In s factoryNames -> ~ In s list_activations_available -> factory F r s a1 a2 a3 a4 = Err EAssert.
Proof. intros r s a1 a2 a3 a4 N1 N2. unfold factory. rewrite kind_act by exact N1. cbn [bind]. unfold layNew, layCtor. cbn [lk layBase]. rewrite (activations_unknown _ N2). reflexivity. Qed.
Theorem factory_not_created : forall r s a1 a2 a3 a4, In s notCreated -> factory F r s a1 a2 a3 a4 = Err EAssert.
Proof.
  intros r s a1 a2 a3 a4 H. assert (B : forallb (fun s => negb (existsb (String.eqb s) factoryNames) && negb (existsb (String.eqb s) list_activations_available)) notCreated = true) by (vm_compute; reflexivity).
  rewrite forallb_forall in B. apply B in H. apply andb_prop in H. destruct H as [H1 H2]. apply negb_true_iff in H1, H2.
  apply factory_unknown; intro Q; [rewrite <- not_true_iff_false in H1; apply H1|rewrite <- not_true_iff_false in H2; apply H2]; apply existsb_exists; exists s; (split; [exact Q|apply String.eqb_refl]).
Qed.
(* an activation name gives the layer applying that activation *)
Theorem factory_activation : forall r s a1 a2 a3 a4, In s list_activations_available -> exists l k, factory F r s a1 a2 a3 a4 = Ok l /\ lk l = KAct (Some k) /\ act_name k = s.
Proof.
  intros r s a1 a2 a3 a4 H. assert (B : forallb (fun s => negb (existsb (String.eqb s) factoryNames)) list_activations_available = true) by (vm_compute; reflexivity).
  rewrite forallb_forall in B. pose proof (B _ H) as N1. apply negb_true_iff in N1. assert (N : ~ In s factoryNames) by (intro Q; rewrite <- not_true_iff_false in N1; apply N1; apply existsb_exists; exists s; split; [exact Q|apply String.eqb_refl]). clear B N1.
  destruct (activations_listed _ H) as (k & E1 & E2). unfold factory. rewrite kind_act by exact N. cbn [bind]. rewrite E1. unfold layNew, layCtor. cbn. eexists. exists k. split; [reflexivity|]. split; [reflexivity|exact E2].
Qed.
Theorem factory_sized : forall r s a1 a2 a3 a4 l n m p q k, factory F r s a1 a2 a3 a4 = Ok l -> toIdx F a1 = Ok n -> toIdx F a2 = Ok m -> toIdx F a3 = Ok p -> toIdx F a4 = Ok q ->
  In (s, k) (sized F n m p q) -> lk l = k.
Proof.
  intros r s a1 a2 a3 a4 l n m p q k E E1 E2 E3 E4 Hs. apply factory_kind in E. destruct E as (k0 & wi & bi & E & Hk & _). rewrite Hk. clear Hk.
  unfold sized in Hs. repeat (destruct Hs as [Hs|Hs]; [injection Hs as <- <-; cbn in E; rewrite ?E1, ?E2, ?E3, ?E4 in E; cbn [bind] in E; injection E as <- <- <-; reflexivity|]). destruct Hs.
Qed.
End Factory.

Section NoCallback.
Variable jk : R.
Notation F := (ROps jk).
Variable cabs : F -> res F.
Local Open Scope R_scope.
(* without a better-solution callback a run only ends when no accuracy above -1 was seen *)
Theorem no_callback : forall m nt net0 ds sched s s', restart F cabs m nt net0 ds sched s = Ok s' -> mCb F m = false ->
  gReports F s' = gReports F s /\ exists es, gEpochs F s' = gEpochs F s ++ es /\ Forall (fun a => a <= -1) es.
Proof.
  intros m nt net0 ds sched s s' E N. pose proof E as E0. apply restart_run in E0. destruct E0 as [E0 _]. apply nocb_run in E0; [|exact N]. cbn [mstart gReports] in E0. split; [exact E0|].
  apply best_reported in E. destruct E as (es & rs & A & B & _ & D & _). exists es. split; [exact A|]. rewrite E0 in B. assert (rs = []) by (apply (app_inv_head (gReports F s)); rewrite app_nil_r; auto). subst rs.
  apply Forall_forall. intros a Ha. destruct (Rle_or_lt a (-1)); [assumption|]. destruct (D a Ha H) as (r & [] & _).
Qed.
End NoCallback.

(** * concrete runs: Relu, or its variation Absolute, on two samples of the class 0 *)
Definition mHeap : heap QOps := [Some (layWith (KAct (Some ARelu)) (mempty QOps) (mempty QOps))].
Definition mData : mat QOps * mat QOps := (mlist 2 2 [1; 0; (-2); 1]%Q, mlist 2 2 [1; 0; 1; 0]%Q).
Definition mTr : trainer QOps := trOf (mkConf false 1 (-1) (-1) "SGD" (1#10)) 2 (Some mData) (Some mData).
Definition mConf (cb : bool) (nt rep : nat) (ov : list (optVar QOps)) : meta QOps := mkMeta QOps [mkLV QOps 0 "Absolute" 0%Q 0%Q 0%Q 0%Q] ov cb nt rep.
Definition momentum : optVar QOps := mkOV QOps "Momentum" (1#2)%Q.
Definition adam : optVar QOps := mkOV QOps "Adam" (1#100)%Q.
(* thread i takes variation i *)
Definition mDs (r i : nat) : tdraw QOps := mkTD QOps (fun _ => noRnd) (fun _ => i) (fun _ => noRnd) i noFR.
(* both threads compare before one of them writes *)
Definition cut2 : list nat := [0; 0; 0; 0; 0; 0;  1; 1; 1; 1; 1; 1;  0; 1;  1; 1;  0; 0;  0; 1].
(* one thread after the other *)
Definition one2 : list nat := repeat 0 10 ++ repeat 1 10.
Definition seen (r : res (mst QOps)) := match r with Ok s => Some (gBest QOps s, gEpochs QOps s, gReports QOps s) | Err _ => None end.
Definition optsSeen (r : res (mst QOps)) := match r with
  | Ok s => Some (map (fun x => (fst x, cOpt QOps (tc QOps (snd x)), cLr QOps (tc QOps (snd x)))) (gRuns QOps s), cOpt QOps (tc QOps (gTrain QOps s)), cLr QOps (tc QOps (gTrain QOps s))) | Err _ => None end.

Lemma cut_run : seen (mfit QOps Ok (mConf true 2 1 [momentum]) 8 mDs (fun _ => cut2) mHeap cls1 (Some mTr)) = Some (50, [50; 100], [100; 50])%Q.
Proof. vm_compute. reflexivity. Qed.
Lemma seq_run : seen (mfit QOps Ok (mConf true 2 1 [momentum]) 8 mDs (fun _ => one2) mHeap cls1 (Some mTr)) = Some (100, [50; 100], [50; 100])%Q.
Proof. vm_compute. reflexivity. Qed.

(* two threads: a worse accuracy is reported after a better one, and is kept *)
Theorem best_refuted : exists m hw ds scheds h net0 t s, mfit QOps Ok m hw ds scheds h net0 (Some t) = Ok s /\
  ~ increasing QOps (gReports QOps s) /\ ~ largest QOps (gBest QOps s) (-1)%Q (gEpochs QOps s).
Proof.
  exists (mConf true 2 1 [momentum]), 8, mDs, (fun _ => cut2), mHeap, cls1, mTr. pose proof cut_run as H.
  destruct (mfit QOps Ok (mConf true 2 1 [momentum]) 8 mDs (fun _ => cut2) mHeap cls1 (Some mTr)) as [s|e]; [|discriminate H]. exists s. split; [reflexivity|]. cbn [seen] in H.
  assert (G1 : gBest QOps s = 50%Q) by congruence. assert (G2 : gEpochs QOps s = [50%Q; 100%Q]) by congruence. assert (G3 : gReports QOps s = [100%Q; 50%Q]) by congruence. rewrite G1, G2, G3. split.
  - cbn. intros [A _]. inversion A; subst. discriminate.
  - intros (_ & _ & A). inversion A as [|x l _ A2]; subst. inversion A2; subst. discriminate.
Qed.
(* one thread, one repetition, one variation: the training uses the optimiser of the user; the variation is left in the user's trainer *)
Lemma unused_run : optsSeen (mfit QOps Ok (mConf true 1 1 [momentum]) 8 mDs (fun _ => repeat 0 10) mHeap cls1 (Some mTr)) = Some ([(0, "SGD"%string, (1#10)%Q)], "Momentum"%string, (1#2)%Q).
Proof. vm_compute. reflexivity. Qed.
Theorem variation_refuted : exists m hw ds scheds h net0 t s v u, mfit QOps Ok m hw ds scheds h net0 (Some t) = Ok s /\ mOv QOps m = [v] /\ gRuns QOps s = [(0, u)] /\ cOpt QOps (tc QOps u) <> ovName QOps v.
Proof.
  exists (mConf true 1 1 [momentum]), 8, mDs, (fun _ => repeat 0 10), mHeap, cls1, mTr. pose proof unused_run as H.
  destruct (mfit QOps Ok (mConf true 1 1 [momentum]) 8 mDs (fun _ => repeat 0 10) mHeap cls1 (Some mTr)) as [s|e]; [|discriminate H]. cbn [optsSeen] in H. exists s, momentum.
  destruct (gRuns QOps s) as [|[i u] [|y r]]; cbn [map fst snd] in H; try discriminate H. exists u. assert (i = 0) by congruence. subst i. assert (G : cOpt QOps (tc QOps u) = "SGD"%string) by congruence.
  split; [reflexivity|]. split; [reflexivity|]. split; [reflexivity|]. rewrite G. discriminate.
Qed.
Theorem trainer_refuted : exists m hw ds scheds h net0 t s, mfit QOps Ok m hw ds scheds h net0 (Some t) = Ok s /\ cOpt QOps (tc QOps (gTrain QOps s)) <> cOpt QOps (tc QOps t) /\ cLr QOps (tc QOps (gTrain QOps s)) <> cLr QOps (tc QOps t).
Proof.
  exists (mConf true 1 1 [momentum]), 8, mDs, (fun _ => repeat 0 10), mHeap, cls1, mTr. pose proof unused_run as H.
  destruct (mfit QOps Ok (mConf true 1 1 [momentum]) 8 mDs (fun _ => repeat 0 10) mHeap cls1 (Some mTr)) as [s|e]; [|discriminate H]. cbn [optsSeen] in H. exists s. split; [reflexivity|].
  assert (G1 : cOpt QOps (tc QOps (gTrain QOps s)) = "Momentum"%string) by congruence. assert (G2 : cLr QOps (tc QOps (gTrain QOps s)) = (1#2)%Q) by congruence. rewrite G1, G2. split; discriminate.
Qed.
(* two threads: the user's trainer gets the name of one variation and the learning rate of another *)
Definition mix2 : list nat := [0; 0; 0; 1; 1; 1;  0; 1; 1; 0;  0; 1;  0; 1;  1; 1;  0; 0;  0; 1].
Lemma mixed_run : optsSeen (mfit QOps Ok (mConf true 2 1 [momentum; adam]) 8 mDs (fun _ => mix2) mHeap cls1 (Some mTr)) =
  Some ([(0, "SGD"%string, (1#10)%Q); (1, "SGD"%string, (1#10)%Q)], "Adam"%string, (1#2)%Q).
Proof. vm_compute. reflexivity. Qed.
Theorem mixed_refuted : exists m hw ds scheds h net0 t s, mfit QOps Ok m hw ds scheds h net0 (Some t) = Ok s /\
  forall v, In v (mOv QOps m) -> ~ (cOpt QOps (tc QOps (gTrain QOps s)) = ovName QOps v /\ cLr QOps (tc QOps (gTrain QOps s)) = ovLr QOps v).
Proof.
  exists (mConf true 2 1 [momentum; adam]), 8, mDs, (fun _ => mix2), mHeap, cls1, mTr. pose proof mixed_run as H.
  destruct (mfit QOps Ok (mConf true 2 1 [momentum; adam]) 8 mDs (fun _ => mix2) mHeap cls1 (Some mTr)) as [s|e]; [|discriminate H]. cbn [optsSeen] in H. exists s. split; [reflexivity|].
  assert (G1 : cOpt QOps (tc QOps (gTrain QOps s)) = "Adam"%string) by congruence. assert (G2 : cLr QOps (tc QOps (gTrain QOps s)) = (1#2)%Q) by congruence. rewrite G1, G2.
  intros v [<-|[<-|[]]] [A B]; discriminate.
Qed.
(* no callback: the call of the empty function object *)
Theorem no_callback_refuted : exists m hw ds scheds h net0 t, mCb QOps m = false /\ mfit QOps Ok m hw ds scheds h net0 (Some t) = Err EThrow.
Proof. exists (mConf false 1 1 []), 8, mDs, (fun _ => repeat 0 10), mHeap, cls1, mTr. split; [reflexivity|]. vm_compute. reflexivity. Qed.
(* two threads race on each of the three shared objects *)
Definition mInit : mst QOps := mkMS QOps mHeap (-1)%Q mTr [] [] [] [].
Theorem race_refuted : forall l, exists m net0 ds sched nt s s', mrun QOps Ok m net0 ds sched (mstart QOps nt s) = Ok s' /\ race QOps m s' l.
Proof.
  intro l. set (sc := match l with LRandom => [0; 0] | LTrain => [0; 0; 0; 1] | LBest => [0; 0; 0; 0; 0; 0;  1; 1; 1; 1; 1; 1;  0] end).
  exists (mConf true 2 1 [momentum]), cls1, (mDs 0), sc, 2, mInit.
  assert (H : match mrun QOps Ok (mConf true 2 1 [momentum]) cls1 (mDs 0) sc (mstart QOps 2 mInit) with
     | Ok s => match gThreads QOps s with [p; q] => existsb (fun x => existsb (fun y => match fst x, fst y, l with LRandom, LRandom, LRandom | LTrain, LTrain, LTrain | LBest, LBest, LBest => snd x || snd y | _, _, _ => false end) (accesses QOps (mConf true 2 1 [momentum]) 1 q))
                 (accesses QOps (mConf true 2 1 [momentum]) 0 p) | _ => false end | Err _ => false end = true) by (destruct l; vm_compute; reflexivity).
  destruct (mrun QOps Ok (mConf true 2 1 [momentum]) cls1 (mDs 0) sc (mstart QOps 2 mInit)) as [s|e]; [|discriminate H]. exists s. split; [reflexivity|].
  destruct (gThreads QOps s) as [|p [|q [|]]] eqn:Et; try discriminate H. apply existsb_exists in H. destruct H as ([l1 b] & H1 & H). apply existsb_exists in H. destruct H as ([l2 c] & H2 & H). cbn [fst snd] in H.
  exists 0, 1, p, q, b, c. rewrite Et. split; [discriminate|]. split; [reflexivity|]. split; [reflexivity|].
  assert (l1 = l /\ l2 = l) as [-> ->] by (destruct l1, l2, l; try discriminate H; auto). split; [exact H1|]. split; [exact H2|]. destruct l; apply orb_prop in H; exact H.
Qed.
(* the type of a layer made by name "RandFlip" is another name, which the factory does not know *)
Theorem factory_type_refuted : exists r l, factory QOps r "RandFlip" 2%Q 3%Q 1%Q 0%Q = Ok l /\ typeOf QOps (lk l) <> "RandFlip"%string /\ forall r', factory QOps r' (typeOf QOps (lk l)) 2%Q 3%Q 1%Q 0%Q = Err EAssert.
Proof.
  exists noRnd. assert (H : match factory QOps noRnd "RandFlip" 2%Q 3%Q 1%Q 0%Q with Ok _ => true | Err _ => false end = true) by (vm_compute; reflexivity).
  destruct (factory QOps noRnd "RandFlip" 2%Q 3%Q 1%Q 0%Q) as [l|] eqn:E; [|discriminate H]. clear H. apply factory_flip in E. exists l. rewrite E. split; [reflexivity|]. split; [discriminate|].
  intro r'. apply factory_not_created. unfold notCreated. cbn [In]. tauto.
Qed.
