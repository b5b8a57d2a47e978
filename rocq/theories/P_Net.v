(* P_Net.v - property theorems about networks: prediction, classes, assignment (C15 - C17) *)
From Coq Require Import String List Arith Bool ZArith QArith Reals Lia.
From Verif Require Import Base Scalar Mat SpecMat MatFacts Act LayMat LayImg LayRnn Layer Net SpecNet NetProofs1 NetProofs2 NetProofs3 NetProofs4.
Import ListNotations.
Local Open Scope nat_scope.

(** C15.  [detNet F h n k m]: the network n in heap h is a stack of layers of k inputs and m outputs that draw no random
    numbers in inference mode (SpecNet.v).  RandomFlip and the recurrent layers do draw some. *)
Theorem C15_batch_is_row_by_row_partial : forall F : FOps, forall rs h n k m nb X out, detNet F h n k m -> mwf out ->
  exists h' Y, predict F rs h n (mgen nb k X) out = Ok (h', mgen nb m Y) /\ detNet F h' n k m /\
  forall rs' out' i, mwf out' -> i < nb ->
    (exists h1, predict F rs' h n (mgen 1 k (fun _ => X i)) out' = Ok (h1, mgen 1 m (fun _ => Y i))) /\
    (exists h1, predict F rs' h' n (mgen 1 k (fun _ => X i)) out' = Ok (h1, mgen 1 m (fun _ => Y i))).
Proof. exact predict_batch. Qed.
Print Assumptions C15_batch_is_row_by_row_partial.

Theorem C15_rows_independent_partial : forall F : FOps, forall rs rs' h n k m nb nb' X X' out out', detNet F h n k m -> mwf out -> mwf out' ->
  exists h1 h2 Y Y', predict F rs h n (mgen nb k X) out = Ok (h1, mgen nb m Y) /\ predict F rs' h n (mgen nb' k X') out' = Ok (h2, mgen nb' m Y') /\
  forall i i', (forall j, X i j = X' i' j) -> forall j, Y i j = Y' i' j.
Proof. exact predict_rows_independent. Qed.
Print Assumptions C15_rows_independent_partial.

Theorem C15_flip_refuted : exists rs rs' h n x y y' h1 h2, ntrain n = false /\ (forall a l, hget QOps h a = Ok l -> ltrain l = false) /\
  predict QOps rs h n x (mempty QOps) = Ok (h1, y) /\ predict QOps rs' h n x (mempty QOps) = Ok (h2, y') /\ mdata y <> mdata y'.
Proof. exact flip_random. Qed.
Print Assumptions C15_flip_refuted.

Theorem C15_rnn_refuted : exists rs rs' h n x y y' h1 h2, ntrain n = false /\ (forall a l, hget QOps h a = Ok l -> ltrain l = false) /\
  predict QOps rs h n x (mempty QOps) = Ok (h1, y) /\ predict QOps rs' h n x (mempty QOps) = Ok (h2, y') /\ mdata y <> mdata y'.
Proof. exact rnn_random. Qed.
Print Assumptions C15_rnn_refuted.

Theorem C15_no_layers : forall (F : FOps) rs h c t x out, predict F rs h (mkNet [] c t) x out = Ok (h, out).
Proof. exact empty_predict. Qed.
Print Assumptions C15_no_layers.

Example C15_hypothesis : detNet QOps exHeap exNet 2 1. Proof. exact exNet_det. Qed.
Example C15_case : match predict QOps (fun _ => noRnd) exHeap exNet (mlist 3 2 [1; 2; 3; 1; 0; 0]%Q) (mempty QOps) with
  Ok (_, y) => Some (mrows y, mdata y) | Err _ => None end = Some (3, [(13#4); (27#4); (5#4)]%Q).
Proof. vm_compute. reflexivity. Qed.

(** C16 *)
Theorem C16_several_outputs : forall jk rs h n x cls h' nb m Y, mwf cls -> 2 <= m ->
  predict (ROps jk) rs h n x (mempty (ROps jk)) = Ok (h', mgen nb m Y) ->
  exists c, predictClasses (ROps jk) rs h n x cls = Ok (h', mgen nb 1 (fun i _ => INR (c i))) /\
  forall i, i < nb -> c i < m /\ (forall j, j < m -> (Y i j <= Y i (c i))%R) /\ (forall j, j < c i -> (Y i j < Y i (c i))%R).
Proof. exact classes_several_real. Qed.
Print Assumptions C16_several_outputs.

Theorem C16_several_outputs_any_arithmetic : forall (F : FOps) rs h n x cls h' nb m Y, mwf cls -> 2 <= m ->
  predict F rs h n x (mempty F) = Ok (h', mgen nb m Y) ->
  exists c, predictClasses F rs h n x cls = Ok (h', mgen nb 1 (fun i _ => fofN F (c i))) /\
  forall i, i < nb -> c i < m /\ argmax F (mgen 1 m (fun _ => Y i)) = Ok (c i).
Proof. exact classes_several. Qed.
Print Assumptions C16_several_outputs_any_arithmetic.

Theorem C16_one_output_partial : forall (F : FOps) rs h n x cls h' nb Y, mwf cls ->
  predict F rs h n x (mempty F) = Ok (h', mgen nb 1 Y) ->
  predictClasses F rs h n x cls = Ok (h', mgen nb 1 (fun i _ => flm F Lround (Y i 0))).
Proof. exact classes_single. Qed.
Print Assumptions C16_one_output_partial.

Theorem C16_one_output_range_refuted : exists h n x rs h' c, detNet QOps h n 1 1 /\
  predictClasses QOps rs h n x (mempty QOps) = Ok (h', c) /\ mdata c = [(-3)%Q].
Proof. exact class_range_refuted. Qed.
Print Assumptions C16_one_output_range_refuted.

Example C16_case : match predictClasses QOps (fun _ => noRnd) exHeap (mkNet [0; 1] true false) (mlist 3 2 [1; 2; 3; 1; 0; 0]%Q) (mempty QOps) with
  Ok (_, c) => Some (mrows c, mcols c, mdata c) | Err _ => None end = Some (3, 1, [1; 1; 1]%Q).
Proof. vm_compute. reflexivity. Qed.

(** C17.  [liveNet h a]: the layer objects of a are live and distinct. *)
Theorem C17_equal_partial : forall F : FOps, forall rs rs1 rs2 h a b k m nb X out, liveNet F h a -> detNet F h b k m -> (forall x, In x (nlay a) -> ~ In x (nlay b)) -> mwf out ->
  exists h' a' h1 h2 Y, netAssign F false rs h a b = Ok (h', a') /\ nclass a' = nclass b /\ detNet F h' a' k m /\
    (forall x, In x (nlay b) -> nth_error h' x = nth_error h x /\ ~ In x (nlay a')) /\
    predict F rs1 h' a' (mgen nb k X) out = Ok (h1, mgen nb m Y) /\ predict F rs2 h b (mgen nb k X) out = Ok (h2, mgen nb m Y).
Proof. exact assign_equal. Qed.
Print Assumptions C17_equal_partial.

Theorem C17_independent_partial : forall F : FOps, forall rs h a b k m, liveNet F h a -> detNet F h b k m -> (forall x, In x (nlay a) -> ~ In x (nlay b)) ->
  exists h' a', netAssign F false rs h a b = Ok (h', a') /\
  (forall h2, (forall x, ~ In x (nlay a') -> nth_error h2 x = nth_error h' x) -> forall rs1 nb X out, mwf out ->
     exists h3 h4 Y, predict F rs1 h2 b (mgen nb k X) out = Ok (h3, mgen nb m Y) /\ predict F rs1 h b (mgen nb k X) out = Ok (h4, mgen nb m Y)) /\
  (forall h2, (forall x, ~ In x (nlay b) -> nth_error h2 x = nth_error h' x) -> forall rs1 nb X out, mwf out ->
     exists h3 h4 Y, predict F rs1 h2 a' (mgen nb k X) out = Ok (h3, mgen nb m Y) /\ predict F rs1 h b (mgen nb k X) out = Ok (h4, mgen nb m Y)).
Proof. exact assign_independent. Qed.
Print Assumptions C17_independent_partial.

Theorem C17_self_empties : forall F : FOps, forall rs h a, liveNet F h a ->
  exists h', netAssign F true rs h a a = Ok (h', mkNet [] (nclass a) false) /\ forall x, In x (nlay a) -> hget F h' x = Err EFree.
Proof. exact self_assign_empties. Qed.
Print Assumptions C17_self_empties.

Theorem C17_self_refuted : exists (h : heap QOps) a k m x rs h1 y h' a' h2 y', detNet QOps h a k m /\
  predict QOps rs h a x (mempty QOps) = Ok (h1, y) /\ netAssign QOps true rs h a a = Ok (h', a') /\
  predict QOps rs h' a' x (mempty QOps) = Ok (h2, y') /\ mdata y = [(13#4)%Q] /\ mdata y' = [].
Proof. exact self_refuted. Qed.
Print Assumptions C17_self_refuted.

Example C17_case : match (' (h, a) <- netAssign QOps false (fun _ => oneRnd) exHeap netNew exNet ;; ' (_, y) <- predict QOps (fun _ => noRnd) h a (mlist 1 2 [1; 2]%Q) (mempty QOps) ;; Ok (a, y)) with
  Ok (a, y) => Some (nlay a, mdata y) | Err _ => None end = Some ([4; 5; 6; 7], [(13#4)%Q]).
Proof. vm_compute. reflexivity. Qed.
