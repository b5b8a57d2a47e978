(* P_Layer.v - property theorems about single layers on row vectors (C41-C46, C54, C57).
   obj G y is the sum over all cells of G * y; gradOf r c s L P g says s * g a b is the partial derivative of L at P in
   cell (a, b), for every cell of an r x c matrix (SpecLayer.v). *)
From Coq Require Import List Arith Bool Lia ZArith QArith Reals String Lra.
From Coquelicot Require Import Coquelicot.
From Verif Require Import Base Scalar Mat SpecMat SpecReal RSum Act SpecAct LayMat SpecLayer LayProofs1 LayProofs2 LayProofs3 LayProofs4 LayProofs5 LayProofs6 LayProofs7 LayProofs8 MiscProofs.
Import ListNotations.
Local Open Scope R_scope.

(** C41 *)
@thmn C41_dense_forward = fwdDense_gen
@thmn C41_dot_forward = fwdDot_gen
@thm C41_dense_gradients = dense_gradients
@thm C41_dot_gradients = dot_gradients
(* 2 samples, 2 inputs, 1 output: weights 1/2 of the sums 1*1+3*2 and 2*1+4*2, bias (1+2)/2, input G W^T *)
Example C41_case :
  match bwdDense QOps false (mkMat 2 1 [3; 5]%Q) (mkMat 2 2 [1; 2; 3; 4]%Q) (mkMat 2 1 [1; 2]%Q) (mempty QOps) with
  | Ok (gw, gb, gi) => Some (map Qred (mdata gw), map Qred (mdata gb), map Qred (mdata gi)) | Err _ => None end
  = Some ([7#2; 5], [3#2], [3; 5; 6; 10])%Q.
Proof. vm_compute. reflexivity. Qed.

(** C42.  True for Bias; input gradients true for all; weight gradients wrong for Gain, Affine, GlobalGain and
    GlobalAffine; bias gradients of GlobalBias, GlobalAffine and ChannelBias off by a constant factor. *)
@thm C42_bias_gradients = bias_gradients
@thm C42_gain_actual_partial = gain_gradients
@thm C42_affine_actual_partial = affine_gradients
@thm C42_globalbias_actual_partial = globalbias_gradients
@thm C42_globalgain_actual_partial = globalgain_gradients
@thm C42_globalaffine_actual_partial = globalaffine_gradients
@thm C42_channelbias_actual_partial = channelbias_gradients
@thm C42_gain_refuted = gain_refuted
@thm C42_affine_refuted = affine_refuted
@thm C42_globalbias_refuted = globalbias_refuted
@thm C42_globalgain_refuted = globalgain_refuted
@thm C42_channelbias_refuted = channelbias_refuted
Example C42_case :
  match bwdBias QOps false (mkMat 2 2 [1; 2; 3; 4]%Q) (mempty QOps), bwdGain QOps false (mkMat 1 2 [1; 1]%Q) (mkMat 1 2 [1; 3]%Q) (mkMat 1 2 [1; 1]%Q) (mempty QOps) with
  | Ok (gb, _), Ok (gw, _) => Some (map Qred (mdata gb), map Qred (mdata gw)) | _, _ => None end
  = Some ([2; 3], [2; 2])%Q. (* the gain gradient should be [1; 3] *)
Proof. vm_compute. reflexivity. Qed.

(** C43.  True for PRelu, CRelu and RRelu; PELU and TERELU ignore the output gradient in the weight gradient. *)
@thm C43_prelu_gradients = prelu_gradients
@thm C43_crelu_gradient = crelu_gradient
@thm C43_rrelu_gradient = rrelu_gradient
@thmn C43_rrelu_inference = fwdRRelu_infer
@thmn C43_rrelu_inference_slope = rrelu_mean
@thm C43_pelu_actual_partial = pelu_gradients
@thm C43_pelu_keeps_weights_positive = pelu_clamps
@thm C43_terelu_actual_partial = terelu_gradients
@thm C43_pelu_refuted = pelu_refuted
@thm C43_terelu_refuted = terelu_refuted
Example C43_case :
  match bwdPRelu QOps false (mkMat 1 2 [1#4; 1#4]%Q) (mkMat 1 2 [0; 0]%Q) (mkMat 2 2 [-1; 2; -3; -4]%Q) (mkMat 2 2 [1; 2; 3; 4]%Q) (mempty QOps) with
  | Ok (gw, gi) => Some (map Qred (mdata gw), map Qred (mdata gi)) | Err _ => None end
  = Some ([-5; -8], [1#4; 2; 3#4; 1])%Q.
Proof. vm_compute. reflexivity. Qed.

(** C44 *)
@thm C44_softmax_probabilities = softmax_layer
@thm C44_softmin_probabilities = softmin_layer
Example C44_case : exists P, fwdSoftmax (ROps 0) (mgen 1 2 (fun _ _ => 7)) = Ok (mgen 1 2 P) /\ P 0%nat 0%nat = P 0%nat 1%nat /\ P 0%nat 0%nat + P 0%nat 1%nat = 1.
Proof.
  destruct (softmax_layer 0 1 2 (fun _ _ => 7) ltac:(lia)) as (P & H1 & _ & _ & H2 & H3 & _). exists P. split; [exact H1|]. split.
  - destruct (Rtotal_order (P 0%nat 0%nat) (P 0%nat 1%nat)) as [L|[L|L]]; auto; apply H3 in L; try lia; lra.
  - specialize (H2 0%nat ltac:(lia)). unfold rsum in H2; cbn in H2. lra.
Qed.

(** C45.  False: the code keeps only the diagonal of the Jacobian.  *)
@thm C45_softmax_true_gradient_partial = softmax_true_gradient
@thm C45_softmax_backward_actual_partial = softmax_backward_diagonal
@thm C45_softmax_backward_refuted = softmax_backward_refuted
@thm C45_softmax_crossentropy_actual_partial = softmax_crossentropy
@thm C45_softmax_crossentropy_exact_partial = softmax_crossentropy_exact

(** C46.  GaussianDropout in training fails for batches of more than one row. *)
@thm C46_dropout_inference = dropout_inference
@thm C46_gaussiandropout_inference = gaussiandropout_inference
@thm C46_noise_inference = noise_inference
@thm C46_dropout_rate_zero = dropout_rate0
@thm C46_dropout_training = dropout_training
@thm C46_noise_training = noise_training
@thm C46_gaussiandropout_one_row = gaussiandropout_one_row
@thm C46_gaussiandropout_many_rows = gaussiandropout_many_rows
Example C46_case :
  match fwdDropout QOps true (1#2)%Q (fun p => if Nat.even p then 0 else 65535)%Z (mempty QOps) (mkMat 1 4 [1; 2; 3; 4]%Q) with
  | Ok (m, y) => Some (map Qred (mdata y)) | Err _ => None end = Some [2; 0; 6; 0]%Q.
Proof. vm_compute. reflexivity. Qed.

(** C54.  The bias gradients are averaged over samples and frames, the weight gradients over samples only. *)
@thmn C54_dense_frames = tddense_frames
@thmn C54_dot_frames = tddot_frames
@thmn C54_bias_frames = tdbias_frames
@thm C54_dense_gradients = tddense_gradients
@thm C54_dot_gradients = tddot_gradients
@thm C54_bias_gradients = tdbias_gradients
(* 1 sample of 2 frames of 2 values, weights 2 x 1 *)
Example C54_case :
  match fwdTDDense QOps 2 1 (mkMat 2 1 [10; 1]%Q) (mkMat 1 1 [100]%Q) (mkMat 1 4 [1; 2; 3; 4]%Q) with
  | Ok y => Some (mrows y, mcols y, map Qred (mdata y)) | Err _ => None end = Some (1%nat, 2%nat, [112; 134]%Q).
Proof. vm_compute. reflexivity. Qed.

(** C57 *)
@thmn C57_gated_forward = fwdGated_gen
@thmn C57_gated_odd_width = fwdGated_odd
@thm C57_gated_gradient = gated_gradient
@thm C57_activation_gradient = activation_gradient
Example C57_case :
  match fwdGated QOps (Some AIdentity) (Some ARelu) (mkMat 1 4 [1; 2; 3; -4]%Q) (mempty QOps) with
  | Ok y => Some (map Qred (mdata y)) | Err _ => None end = Some [3; 0]%Q.
Proof. vm_compute. reflexivity. Qed.
