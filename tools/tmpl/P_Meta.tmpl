(* P_Meta.v - property theorems about the meta-optimiser and the layer factory (C68, C69, C75 to C80) *)
From Coq Require Import String List Arith Bool ZArith Reals QArith.
From Verif Require Import Base Scalar Mat SpecMat Loss Optim Regul Act LayMat LayImg LayRnn Layer Net NetTrain SpecNet SpecTrain ActMono NetProofs4 TrainProofs12 TrainProofs14 JsonSave Meta SpecMeta MetaProofs1 MetaProofs2 MetaProofs3 MetaProofs4 MetaProofs5 MetaProofs6.
Import ListNotations.
Local Open Scope nat_scope.

(** C68.  The full statement, for any schedule, is false: new_epoch compares, assigns and calls without a lock. *)
@thm C68_best_refuted = best_refuted
(* it holds when no other thread runs between the comparison and the callback *)
@thmr C68_ordered_partial = best_ordered | forall (jk : R) (cabs : ROps jk -> res (ROps jk)), | F = (ROps jk)
(* so it holds with one thread *)
@thmr C68_one_thread = best_ordered_single | forall (jk : R) (cabs : ROps jk -> res (ROps jk)), | F = (ROps jk)
(* under any schedule what is reported was measured, and no accuracy above -1 is larger than all reported ones *)
@thmr C68_reported = best_reported | forall (jk : R) (cabs : ROps jk -> res (ROps jk)), | F = (ROps jk)
Example C68_case : seen (mfit QOps Ok (mConf true 2 1 [momentum]) 8 mDs (fun _ => one2) mHeap cls1 (Some mTr)) = Some (100, [50; 100], [50; 100])%Q /\
  seen (mfit QOps Ok (mConf true 2 1 [momentum]) 8 mDs (fun _ => cut2) mHeap cls1 (Some mTr)) = Some (50, [50; 100], [100; 50])%Q.
Proof. exact (conj seq_run cut_run). Qed.

(** C69.  False: the variation is stored in the user's trainer after the thread's copy was taken. *)
@thm C69_variation_refuted = variation_refuted
(* with one thread the variation drawn in one repetition is used in the next one, and the first one uses the user's settings *)
@thm C69_one_thread = single_runs | forall (F : FOps) (cabs : F -> res F),
(* any number of threads: the settings are those of the user's trainer; optimiser and learning rate come from it or from variations *)
@thm C69_settings = runs_trainers | forall (F : FOps) (cabs : F -> res F),
Example C69_case : optsSeen (mfit QOps Ok (mConf true 1 3 [momentum]) 8 mDs (fun _ => repeat 0 10) mHeap cls1 (Some mTr)) =
  Some ([(0, "SGD"%string, (1#10)%Q); (0, "Momentum"%string, (1#2)%Q); (0, "Momentum"%string, (1#2)%Q)], "Momentum"%string, (1#2)%Q).
Proof. vm_compute. reflexivity. Qed.

(** C75 *)
@thm C75_objects = mfit_heap | forall (F : FOps) (cabs : F -> res F),
@thm C75_threads_disjoint = threads_disjoint | forall (F : FOps) (cabs : F -> res F), | mrun = (mrun F cabs); threads = (gThreads F)
Example C75_case : match mfit QOps Ok (mConf true 2 1 [momentum]) 8 mDs (fun _ => cut2) mHeap cls1 (Some mTr) with
  | Ok s => nth_error (gHeap QOps s) 0 = nth_error mHeap 0 /\ skipn 1 (gHeap QOps s) = [None; None; None] | Err _ => False end.
Proof. vm_compute. auto. Qed.

(** C76.  False when there are optimiser variations. *)
@thm C76_trainer_refuted = trainer_refuted
(* not even a pair that belongs together is left *)
@thm C76_mixed_refuted = mixed_refuted
Theorem C76_no_variation_partial : forall (F : FOps) (cabs : F -> res F) m hw ds scheds h net0 u s, mfit F cabs m hw ds scheds h net0 (Some u) = Ok s -> mOv F m = [] -> gTrain F s = u.
Proof. exact (fun F cabs m hw ds scheds h net0 u s E => proj2 (runs_trainers F cabs m hw ds scheds h net0 u s E)). Qed.
Print Assumptions C76_no_variation_partial.
(* what is left after a repetition *)
@thm C76_after = trainer_after | forall (F : FOps) (cabs : F -> res F),
Example C76_case : optsSeen (mfit QOps Ok (mConf true 1 1 []) 8 mDs (fun _ => repeat 0 10) mHeap cls1 (Some mTr)) = Some ([(0, "SGD"%string, (1#10)%Q)], "SGD"%string, (1#10)%Q).
Proof. vm_compute. reflexivity. Qed.

(** C77.  False for two threads: each of the three shared objects is raced on. *)
@thm C77_race_refuted = race_refuted
@thm C77_race_random = race_random | forall (F : FOps) (cabs : F -> res F),
@thm C77_race_trainer = race_trainer | forall (F : FOps) (cabs : F -> res F),
@thm C77_race_best = race_best | forall (F : FOps) (cabs : F -> res F),
@thm C77_one_thread_partial = race_one | forall (F : FOps) (cabs : F -> res F),
Example C77_case : match mrun QOps Ok (mConf true 2 1 [momentum]) cls1 (mDs 0) [0; 0; 0; 1] (mstart QOps 2 mInit) with
  | Ok s => length (gThreads QOps s) = 2 | Err _ => False end.
Proof. vm_compute. reflexivity. Qed.

(** C78 *)
@thm C78_variant = trained_variant | forall (F : FOps) (cabs : F -> res F),
Example C78_case : match mrun QOps Ok (mConf true 2 1 [momentum]) cls1 (mDs 0) [0; 0; 0; 0; 0; 1; 1; 1; 1; 1] (mstart QOps 2 mInit) with
  | Ok s => map (fun p => match p with PTrain n _ => map (fun a => match hget QOps (gHeap QOps s) a with Ok l => typeOf QOps (lk l) | Err _ => ""%string end) (nlay n) | _ => [] end) (gThreads QOps s) =
            [["Relu"]; ["Absolute"]]%string
  | Err _ => False end.
Proof. vm_compute. reflexivity. Qed.

(** C79.  False: the empty function object is called as soon as an accuracy exceeds -1. *)
@thm C79_no_callback_refuted = no_callback_refuted
@thmr C79_no_callback_partial = no_callback | forall (jk : R) (cabs : ROps jk -> res (ROps jk)), | F = (ROps jk)
(* a run that is not asked for any epoch ends *)
Example C79_case : seen (mfit QOps Ok (mConf false 1 1 []) 8 mDs (fun _ => repeat 0 10) mHeap cls1 (Some (trOf (mkConf false 0 (-1) (-1) "SGD" (1#10)) 2 (Some mData) (Some mData)))) = Some ((-1)%Q, [], []).
Proof. vm_compute. reflexivity. Qed.

(** C80.  False: "RandFlip" gives a layer whose type is "RandomFlip", and eleven types are not known. *)
@thm C80_type_refuted = factory_type_refuted
@thm C80_not_created = factory_not_created | forall F : FOps,
@thm C80_type_partial = factory_type | forall F : FOps,
@thm C80_sizes = factory_sized | forall F : FOps,
@thm C80_activation = factory_activation | forall F : FOps,
@thm C80_unknown = factory_unknown | forall F : FOps,
Example C80_case : match factory QOps noRnd "MaxPool2D" 4%Q 6%Q 3%Q 0%Q with Ok l => lk l = KMaxPool (mkPool 4 6 3 2 2) /\ typeOf QOps (lk l) = "MaxPool2D"%string | Err _ => False end /\
  factory QOps noRnd "Convolution2D" 4%Q 6%Q 3%Q 3%Q = Err EAssert.
Proof. vm_compute. auto. Qed.
