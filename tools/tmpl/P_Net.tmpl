(* P_Net.v - property theorems about networks: prediction, classes, assignment (C15 - C17) *)
From Coq Require Import String List Arith Bool ZArith QArith Reals Lia.
From Verif Require Import Base Scalar Mat SpecMat MatFacts Act LayMat LayImg LayRnn Layer Net SpecNet NetProofs1 NetProofs2 NetProofs3 NetProofs4.
Import ListNotations.
Local Open Scope nat_scope.

(** C15.  [detNet F h n k m]: the network n in heap h is a stack of layers of k inputs and m outputs that draw no random
    numbers in inference mode (SpecNet.v).  RandomFlip and the recurrent layers do draw some. *)
@thm C15_batch_is_row_by_row_partial = predict_batch | forall F : FOps,
@thm C15_rows_independent_partial = predict_rows_independent | forall F : FOps,
@thm C15_flip_refuted = flip_random
@thm C15_rnn_refuted = rnn_random
@thm C15_no_layers = empty_predict
Example C15_hypothesis : detNet QOps exHeap exNet 2 1. Proof. exact exNet_det. Qed.
Example C15_case : match predict QOps (fun _ => noRnd) exHeap exNet (mlist 3 2 [1; 2; 3; 1; 0; 0]%Q) (mempty QOps) with
  Ok (_, y) => Some (mrows y, mdata y) | Err _ => None end = Some (3, [(13#4); (27#4); (5#4)]%Q).
Proof. vm_compute. reflexivity. Qed.

(** C16 *)
@thm C16_several_outputs = classes_several_real
@thm C16_several_outputs_any_arithmetic = classes_several
@thm C16_one_output_partial = classes_single
@thm C16_one_output_range_refuted = class_range_refuted
Example C16_case : match predictClasses QOps (fun _ => noRnd) exHeap (mkNet [0; 1] true false) (mlist 3 2 [1; 2; 3; 1; 0; 0]%Q) (mempty QOps) with
  Ok (_, c) => Some (mrows c, mcols c, mdata c) | Err _ => None end = Some (3, 1, [1; 1; 1]%Q).
Proof. vm_compute. reflexivity. Qed.

(** C17.  [liveNet h a]: the layer objects of a are live and distinct. *)
@thm C17_equal_partial = assign_equal | forall F : FOps,
@thm C17_independent_partial = assign_independent | forall F : FOps,
@thm C17_self_empties = self_assign_empties | forall F : FOps,
@thm C17_self_refuted = self_refuted
Example C17_case : match (' (h, a) <- netAssign QOps false (fun _ => oneRnd) exHeap netNew exNet ;; ' (_, y) <- predict QOps (fun _ => noRnd) h a (mlist 1 2 [1; 2]%Q) (mempty QOps) ;; Ok (a, y)) with
  Ok (a, y) => Some (nlay a, mdata y) | Err _ => None end = Some ([4; 5; 6; 7], [(13#4)%Q]).
Proof. vm_compute. reflexivity. Qed.
