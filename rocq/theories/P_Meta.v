(* P_Meta.v - property theorems about the meta-optimiser and the layer factory (C68, C69, C75 to C80) *)
From Coq Require Import String List Arith Bool ZArith Reals QArith.
From Verif Require Import Base Scalar Mat SpecMat Loss Optim Regul Act LayMat LayImg LayRnn Layer Net NetTrain SpecNet SpecTrain ActMono NetProofs4 TrainProofs12 TrainProofs14 JsonSave Meta SpecMeta MetaProofs1 MetaProofs2 MetaProofs3 MetaProofs4 MetaProofs5 MetaProofs6.
Import ListNotations.
Local Open Scope nat_scope.

(** C68.  The full statement, for any schedule, is false: new_epoch compares, assigns and calls without a lock. *)
Theorem C68_best_refuted : exists m hw ds scheds h net0 t s, mfit QOps Ok m hw ds scheds h net0 (Some t) = Ok s /\
  ~ increasing QOps (gReports QOps s) /\ ~ largest QOps (gBest QOps s) (-1)%Q (gEpochs QOps s).
Proof. exact best_refuted. Qed.
Print Assumptions C68_best_refuted.

(* it holds when no other thread runs between the comparison and the callback *)
Theorem C68_ordered_partial : forall (jk : R) (cabs : ROps jk -> res (ROps jk)), (forall m nt net0 ds sched s s', restart (ROps jk) cabs m nt net0 ds sched s = Ok s' -> undisturbed (ROps jk) cabs m net0 ds sched (mstart (ROps jk) nt s) -> exists es rs,
  gEpochs (ROps jk) s' = gEpochs (ROps jk) s ++ es /\ gReports (ROps jk) s' = gReports (ROps jk) s ++ rs /\ increasing (ROps jk) rs /\ largest (ROps jk) (gBest (ROps jk) s') (-1) es /\
  ((gBest (ROps jk) s' = -1 /\ rs = []) \/ exists rs', rs = rs' ++ [gBest (ROps jk) s']))%R.
Proof. exact best_ordered. Qed.
Print Assumptions C68_ordered_partial.

(* so it holds with one thread *)
Theorem C68_one_thread : forall (jk : R) (cabs : ROps jk -> res (ROps jk)), (forall m net0 ds sched s s', restart (ROps jk) cabs m 1 net0 ds sched s = Ok s' -> exists es rs,
  gEpochs (ROps jk) s' = gEpochs (ROps jk) s ++ es /\ gReports (ROps jk) s' = gReports (ROps jk) s ++ rs /\ increasing (ROps jk) rs /\ largest (ROps jk) (gBest (ROps jk) s') (-1) es /\
  ((gBest (ROps jk) s' = -1 /\ rs = []) \/ exists rs', rs = rs' ++ [gBest (ROps jk) s']))%R.
Proof. exact best_ordered_single. Qed.
Print Assumptions C68_one_thread.

(* under any schedule what is reported was measured, and no accuracy above -1 is larger than all reported ones *)
Theorem C68_reported : forall (jk : R) (cabs : ROps jk -> res (ROps jk)), (forall m nt net0 ds sched s s', restart (ROps jk) cabs m nt net0 ds sched s = Ok s' -> exists es rs,
  gEpochs (ROps jk) s' = gEpochs (ROps jk) s ++ es /\ gReports (ROps jk) s' = gReports (ROps jk) s ++ rs /\ (forall r, In r rs -> In r es) /\
  (forall a, In a es -> -1 < a -> exists r, In r rs /\ a <= r) /\ (gBest (ROps jk) s' = -1 \/ In (gBest (ROps jk) s') rs))%R.
Proof. exact best_reported. Qed.
Print Assumptions C68_reported.

Example C68_case : seen (mfit QOps Ok (mConf true 2 1 [momentum]) 8 mDs (fun _ => one2) mHeap cls1 (Some mTr)) = Some (100, [50; 100], [50; 100])%Q /\
  seen (mfit QOps Ok (mConf true 2 1 [momentum]) 8 mDs (fun _ => cut2) mHeap cls1 (Some mTr)) = Some (50, [50; 100], [100; 50])%Q.
Proof. exact (conj seq_run cut_run). Qed.

(** C69.  False: the variation is stored in the user's trainer after the thread's copy was taken. *)
Theorem C69_variation_refuted : exists m hw ds scheds h net0 t s v u, mfit QOps Ok m hw ds scheds h net0 (Some t) = Ok s /\ mOv QOps m = [v] /\ gRuns QOps s = [(0, u)] /\ cOpt QOps (tc QOps u) <> ovName QOps v.
Proof. exact variation_refuted. Qed.
Print Assumptions C69_variation_refuted.

(* with one thread the variation drawn in one repetition is used in the next one, and the first one uses the user's settings *)
Theorem C69_one_thread : forall (F : FOps) (cabs : F -> res F), forall m hw ds scheds h net0 u s, mfit F cabs m hw ds scheds h net0 (Some u) = Ok s -> nbThreads F m hw = 1 ->
  length (gRuns F s) = mRepeat F m /\ forall r i t, nth_error (gRuns F s) r = Some (i, t) -> i = 0 /\ usesAt F m ds u t r.
Proof. exact single_runs. Qed.
Print Assumptions C69_one_thread.

(* any number of threads: the settings are those of the user's trainer; optimiser and learning rate come from it or from variations *)
Theorem C69_settings : forall (F : FOps) (cabs : F -> res F), forall m hw ds scheds h net0 u s, mfit F cabs m hw ds scheds h net0 (Some u) = Ok s ->
  (forall i t, In (i, t) (gRuns F s) -> exists o l, mayUse F m u o l /\ trainsAs F u t o l) /\ (mOv F m = [] -> gTrain F s = u).
Proof. exact runs_trainers. Qed.
Print Assumptions C69_settings.

Example C69_case : optsSeen (mfit QOps Ok (mConf true 1 3 [momentum]) 8 mDs (fun _ => repeat 0 10) mHeap cls1 (Some mTr)) =
  Some ([(0, "SGD"%string, (1#10)%Q); (0, "Momentum"%string, (1#2)%Q); (0, "Momentum"%string, (1#2)%Q)], "Momentum"%string, (1#2)%Q).
Proof. vm_compute. reflexivity. Qed.

(** C75 *)
Theorem C75_objects : forall (F : FOps) (cabs : F -> res F), forall m hw ds scheds h net0 t s, mfit F cabs m hw ds scheds h net0 (Some t) = Ok s -> (forall x, In x (nlay net0) -> x < length h) ->
  (forall x, x < length h -> nth_error (gHeap F s) x = nth_error h x) /\ (forall x, length h <= x -> x < length (gHeap F s) -> nth_error (gHeap F s) x = Some None).
Proof. exact mfit_heap. Qed.
Print Assumptions C75_objects.

Theorem C75_threads_disjoint : forall (F : FOps) (cabs : F -> res F), forall m nt net0 ds sched h t s i j p q x, (forall x, In x (nlay net0) -> x < length h) ->
  (mrun F cabs) m net0 ds sched (mstart F nt (mkMS F h (minus1 F) t [] [] [] [])) = Ok s ->
  nth_error ((gThreads F) s) i = Some p -> nth_error ((gThreads F) s) j = Some q -> i <> j -> In x (layersOf F p) -> ~ In x (layersOf F q) /\ ~ In x (nlay net0).
Proof. exact threads_disjoint. Qed.
Print Assumptions C75_threads_disjoint.

Example C75_case : match mfit QOps Ok (mConf true 2 1 [momentum]) 8 mDs (fun _ => cut2) mHeap cls1 (Some mTr) with
  | Ok s => nth_error (gHeap QOps s) 0 = nth_error mHeap 0 /\ skipn 1 (gHeap QOps s) = [None; None; None] | Err _ => False end.
Proof. vm_compute. auto. Qed.

(** C76.  False when there are optimiser variations. *)
Theorem C76_trainer_refuted : exists m hw ds scheds h net0 t s, mfit QOps Ok m hw ds scheds h net0 (Some t) = Ok s /\ cOpt QOps (tc QOps (gTrain QOps s)) <> cOpt QOps (tc QOps t) /\ cLr QOps (tc QOps (gTrain QOps s)) <> cLr QOps (tc QOps t).
Proof. exact trainer_refuted. Qed.
Print Assumptions C76_trainer_refuted.

(* not even a pair that belongs together is left *)
Theorem C76_mixed_refuted : exists m hw ds scheds h net0 t s, mfit QOps Ok m hw ds scheds h net0 (Some t) = Ok s /\
  forall v, In v (mOv QOps m) -> ~ (cOpt QOps (tc QOps (gTrain QOps s)) = ovName QOps v /\ cLr QOps (tc QOps (gTrain QOps s)) = ovLr QOps v).
Proof. exact mixed_refuted. Qed.
Print Assumptions C76_mixed_refuted.

Theorem C76_no_variation_partial : forall (F : FOps) (cabs : F -> res F) m hw ds scheds h net0 u s, mfit F cabs m hw ds scheds h net0 (Some u) = Ok s -> mOv F m = [] -> gTrain F s = u.
Proof. exact (fun F cabs m hw ds scheds h net0 u s E => proj2 (runs_trainers F cabs m hw ds scheds h net0 u s E)). Qed.
Print Assumptions C76_no_variation_partial.
(* what is left after a repetition *)
Theorem C76_after : forall (F : FOps) (cabs : F -> res F), forall m nt net0 ds sched s s', restart F cabs m nt net0 ds sched s = Ok s' -> 0 < nt -> mOv F m <> [] ->
  In (cOpt F (tc F (gTrain F s'))) (map (ovName F) (mOv F m)) /\ In (cLr F (tc F (gTrain F s'))) (map (ovLr F) (mOv F m)).
Proof. exact trainer_after. Qed.
Print Assumptions C76_after.

Example C76_case : optsSeen (mfit QOps Ok (mConf true 1 1 []) 8 mDs (fun _ => repeat 0 10) mHeap cls1 (Some mTr)) = Some ([(0, "SGD"%string, (1#10)%Q)], "SGD"%string, (1#10)%Q).
Proof. vm_compute. reflexivity. Qed.

(** C77.  False for two threads: each of the three shared objects is raced on. *)
Theorem C77_race_refuted : forall l, exists m net0 ds sched nt s s', mrun QOps Ok m net0 ds sched (mstart QOps nt s) = Ok s' /\ race QOps m s' l.
Proof. exact race_refuted. Qed.
Print Assumptions C77_race_refuted.

Theorem C77_race_random : forall (F : FOps) (cabs : F -> res F), forall m net0 ds nt s s', mrun F cabs m net0 ds [0; 0] (mstart F nt s) = Ok s' -> 2 <= nt -> nlay net0 <> [] \/ mOv F m <> [] -> (forall x, In x (nlay net0) -> x < length (gHeap F s)) ->
  race F m s' LRandom.
Proof. exact race_random. Qed.
Print Assumptions C77_race_random.

Theorem C77_race_trainer : forall (F : FOps) (cabs : F -> res F), forall m net0 ds nt s s', mrun F cabs m net0 ds [0; 0; 0; 1] (mstart F nt s) = Ok s' -> 2 <= nt -> mOv F m <> [] -> race F m s' LTrain.
Proof. exact race_trainer. Qed.
Print Assumptions C77_race_trainer.

Theorem C77_race_best : forall (F : FOps) (cabs : F -> res F), forall m net0 ds s s' i j a accs n b accs' n', nth_error (gThreads F s) i = Some (PEpochs F (a :: accs) n) -> nth_error (gThreads F s) j = Some (PEpochs F (b :: accs') n') -> i <> j ->
  flt F (gBest F s) a = true -> mstep F cabs m net0 ds i s = Ok s' -> race F m s' LBest.
Proof. exact race_best. Qed.
Print Assumptions C77_race_best.

Theorem C77_one_thread_partial : forall (F : FOps) (cabs : F -> res F), forall m net0 ds sched s s' l, mrun F cabs m net0 ds sched (mstart F 1 s) = Ok s' -> ~ race F m s' l.
Proof. exact race_one. Qed.
Print Assumptions C77_one_thread_partial.

Example C77_case : match mrun QOps Ok (mConf true 2 1 [momentum]) cls1 (mDs 0) [0; 0; 0; 1] (mstart QOps 2 mInit) with
  | Ok s => length (gThreads QOps s) = 2 | Err _ => False end.
Proof. vm_compute. reflexivity. Qed.

(** C78 *)
Theorem C78_variant : forall (F : FOps) (cabs : F -> res F), forall m nt net0 ds sched h t s i n u, (forall x, In x (nlay net0) -> x < length h) ->
  mrun F cabs m net0 ds sched (mstart F nt (mkMS F h (minus1 F) t [] [] [] [])) = Ok s -> nth_error (gThreads F s) i = Some (PTrain F n u) -> variant F m h net0 (gHeap F s) (nlay n).
Proof. exact trained_variant. Qed.
Print Assumptions C78_variant.

Example C78_case : match mrun QOps Ok (mConf true 2 1 [momentum]) cls1 (mDs 0) [0; 0; 0; 0; 0; 1; 1; 1; 1; 1] (mstart QOps 2 mInit) with
  | Ok s => map (fun p => match p with PTrain n _ => map (fun a => match hget QOps (gHeap QOps s) a with Ok l => typeOf QOps (lk l) | Err _ => ""%string end) (nlay n) | _ => [] end) (gThreads QOps s) =
            [["Relu"]; ["Absolute"]]%string
  | Err _ => False end.
Proof. vm_compute. reflexivity. Qed.

(** C79.  False: the empty function object is called as soon as an accuracy exceeds -1. *)
Theorem C79_no_callback_refuted : exists m hw ds scheds h net0 t, mCb QOps m = false /\ mfit QOps Ok m hw ds scheds h net0 (Some t) = Err EThrow.
Proof. exact no_callback_refuted. Qed.
Print Assumptions C79_no_callback_refuted.

Theorem C79_no_callback_partial : forall (jk : R) (cabs : ROps jk -> res (ROps jk)), (forall m nt net0 ds sched s s', restart (ROps jk) cabs m nt net0 ds sched s = Ok s' -> mCb (ROps jk) m = false ->
  gReports (ROps jk) s' = gReports (ROps jk) s /\ exists es, gEpochs (ROps jk) s' = gEpochs (ROps jk) s ++ es /\ Forall (fun a => a <= -1) es)%R.
Proof. exact no_callback. Qed.
Print Assumptions C79_no_callback_partial.

(* a run that is not asked for any epoch ends *)
Example C79_case : seen (mfit QOps Ok (mConf false 1 1 []) 8 mDs (fun _ => repeat 0 10) mHeap cls1 (Some (trOf (mkConf false 0 (-1) (-1) "SGD" (1#10)) 2 (Some mData) (Some mData)))) = Some ((-1)%Q, [], []).
Proof. vm_compute. reflexivity. Qed.

(** C80.  False: "RandFlip" gives a layer whose type is "RandomFlip", and eleven types are not known. *)
Theorem C80_type_refuted : exists r l, factory QOps r "RandFlip" 2%Q 3%Q 1%Q 0%Q = Ok l /\ typeOf QOps (lk l) <> "RandFlip"%string /\ forall r', factory QOps r' (typeOf QOps (lk l)) 2%Q 3%Q 1%Q 0%Q = Err EAssert.
Proof. exact factory_type_refuted. Qed.
Print Assumptions C80_type_refuted.

Theorem C80_not_created : forall F : FOps, forall r s a1 a2 a3 a4, In s notCreated -> factory F r s a1 a2 a3 a4 = Err EAssert.
Proof. exact factory_not_created. Qed.
Print Assumptions C80_not_created.

Theorem C80_type_partial : forall F : FOps, forall r s a1 a2 a3 a4 l, factory F r s a1 a2 a3 a4 = Ok l -> s <> "RandFlip"%string -> typeOf F (lk l) = s.
Proof. exact factory_type. Qed.
Print Assumptions C80_type_partial.

Theorem C80_sizes : forall F : FOps, forall r s a1 a2 a3 a4 l n m p q k, factory F r s a1 a2 a3 a4 = Ok l -> toIdx F a1 = Ok n -> toIdx F a2 = Ok m -> toIdx F a3 = Ok p -> toIdx F a4 = Ok q ->
  In (s, k) (sized F n m p q) -> lk l = k.
Proof. exact factory_sized. Qed.
Print Assumptions C80_sizes.

Theorem C80_activation : forall F : FOps, forall r s a1 a2 a3 a4, In s list_activations_available -> exists l k, factory F r s a1 a2 a3 a4 = Ok l /\ lk l = KAct (Some k) /\ act_name k = s.
Proof. exact factory_activation. Qed.
Print Assumptions C80_activation.

Theorem C80_unknown : forall F : FOps, forall r s a1 a2 a3 a4, ~ In s factoryNames -> ~ In s list_activations_available -> factory F r s a1 a2 a3 a4 = Err EAssert.
Proof. exact factory_unknown. Qed.
Print Assumptions C80_unknown.

Example C80_case : match factory QOps noRnd "MaxPool2D" 4%Q 6%Q 3%Q 0%Q with Ok l => lk l = KMaxPool (mkPool 4 6 3 2 2) /\ typeOf QOps (lk l) = "MaxPool2D"%string | Err _ => False end /\
  factory QOps noRnd "Convolution2D" 4%Q 6%Q 3%Q 3%Q = Err EAssert.
Proof. vm_compute. auto. Qed.
