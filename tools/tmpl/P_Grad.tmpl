(* P_Grad.v - property theorems about the gradients of a whole network (C70) *)
From Coq Require Import String List Arith Bool ZArith Reals QArith.
From Verif Require Import Base Scalar Mat SpecMat Loss SpecLoss Act SpecLayer LayMat Layer Net NetTrain SpecGrad GradProofs3 GradProofs4.
Import ListNotations.
Local Open Scope R_scope.

(** C70.  The full statement is false: the weight gradient of LayerGain is no multiple of the derivative (also Affine, GlobalGain, C42). *)
@thmr C70_gain_refuted = gain_net_refuted | forall jk : R, | F = (ROps jk)
(* For any stack of layers meeting [differentiable] (SpecGrad.v) and any loss meeting [smoothLoss]: the forward and backward passes
   succeed, parameters are unchanged, and each stored gradient, multiplied by
     kappa (depends on the loss, the batch size and the output size only)
     * the input scales of the following layers (1 except convolutions)
     * weightScale or biasScale of the layer (n for most),
   is the gradient of the batch loss. *)
@thmr C70_backprop_partial = backprop_gradients | forall jk : R, | F = (ROps jk)
(* the same gradients are in the layers after the whole batch (optimisers included, no regulariser) *)
@thmr C70_batch_partial = batch_gradients | forall jk : R, | F = (ROps jk)
(* set_net leaves the trainer as those statements need it *)
@thmr C70_set_net = setNet_ready | forall jk : R, | F = (ROps jk)
Example C70_case : (forall jk, stack jk (rs0 jk) 0 (sampleNet (ROps jk)) [0; 1; 2]%nat 2 [1; 1; 1; 1]%nat (sampleX (ROps jk)) (fun i j => match i with O => -2 | _ => 1 end) /\
    readyTrainer jk (tr1 jk 3) (net1 [0; 1; 2]%nat) LMeanSquaredError) /\
  option_map (map (fun o => match o with Some l => (mdata (lgw l), mdata (lgb l)) | None => ([], []) end))
    (match backprop QOps (fun _ => mkRnd QOps (fun _ => 0%Q) (fun _ => 0%Z)) (sampleNet QOps) (mkNet [0; 1; 2]%nat false true)
       (mkTr QOps (tc QOps (trNew QOps)) (noBalance QOps) 0 0 [] (repeat (mempty QOps) 4) (repeat (mempty QOps) 4) 3 [] [] (th QOps (trNew QOps)) 0%Q 0 None None false)
       (mgen 2 1 (sampleX QOps)) (mgen 2 1 (sampleT QOps)) with Ok (h, _) => Some h | Err _ => None end)
  = Some [([1], [1]); ([], []); ([-3], [-3 # 2])]%Q.
Proof. exact (conj (fun jk => conj (sample_stack jk) (tr1_ready jk [0; 1; 2]%nat)) sample_gradients). Qed.
