(* P_Image.v - property theorems about the layers working on images and sequences (C47-C53, C55, C56).
   tens nS nH nR nC t is the batch of nS images with nH planes of nR x nC cells, t s h r c being one cell; img and unimg
   pass between such a t and the matrix of nS rows. *)
From Coq Require Import List Arith Bool Lia ZArith QArith Reals String Lra.
From Coquelicot Require Import Coquelicot.
From Verif Require Import Base Scalar Mat SpecMat SpecReal RSum LayMat LayImg LayRnn SpecLayer LayTens ImgDot LayPool1 LayPool2 LayPool3 LayPool4 LayPool5 LayConv1 LayConv2 LayConv3 LayConv4 LayFlip LayRnnProofs.
Import ListNotations.
Local Open Scope R_scope.

(** C47.  Window maxima: true.  The backward pass is the gradient for one sample with one channel; otherwise it sends
    every sample and channel to the positions recorded for sample 0, channel 0, and below -1e38 it writes out of bounds. *)
@thm C47_maxpool_forward = maxpool_forward
@thm C47_maxpool_single_gradient_partial = maxpool_single_gradient
@thm C47_maxpool_backward_actual_partial = maxpool_backward_actual
@thm C47_maxpool_true_gradient = maxpool_true_gradient
@thm C47_maxpool_refuted = maxpool_refuted
@thm C47_maxpool_out_of_bounds_refuted = maxpool_oob
(* the hypotheses are met by a plane with distinct cells *)
Example C47_case : peaks 1 1 2 2 2 2 (fun _ _ r c => INR (r * 2 + c)) (fun _ _ _ _ => (1, 1)%nat).
Proof.
  intros s h r c Hs Hh Hr Hc. cbn in Hr, Hc. replace r with 0%nat by lia. replace c with 0%nat by lia. unfold mxR, mxC. cbn [fst snd]. split; [lia|]. split; [lia|]. split.
  - apply Rlt_trans with 0. { assert (0 < 10 ^ 38) by (apply pow_lt; lra). lra. } apply lt_0_INR. lia.
  - intros a b Ha Hb Hn. apply lt_INR. assert (~ (a = 1 /\ b = 1))%nat by (intros [-> ->]; apply Hn; reflexivity). lia.
Qed.

(** C48 *)
@thm C48_globalmax_forward = globalmax_forward
@thm C48_globalmax_backward = bwdGlobalMaxPool_R
@thm C48_globalmax_gradient = globalmax_gradient
Example C48_case :
  match fwdGlobalMaxPool QOps 2 2 2 true (mempty QOps) (mkMat 1 8 [1; 7; 3; 4; 9; 6; 7; 8]%Q) (mempty QOps) with
  | Ok (mx, o) => match bwdGlobalMaxPool QOps 2 2 2 false mx (mkMat 1 2 [10; 20]%Q) (mempty QOps) with Ok g => Some (map Qred (mdata o), map Qred (mdata g)) | Err _ => None end | Err _ => None end
  = Some ([7; 9], [0; 10; 0; 0; 20; 0; 0; 0])%Q.
Proof. vm_compute. reflexivity. Qed.

(** C49 *)
@thm C49_avgpool_forward = avgpool_forward
@thm C49_avgpool_gradient = avgpool_gradient
@thm C49_globalavg_forward = globalavg_forward
@thm C49_globalavg_gradient = globalavg_gradient
Example C49_case :
  match fwdAvgPool QOps (mkPool 2 4 1 2 2) (mkMat 1 8 [1; 2; 3; 4; 5; 6; 7; 8]%Q) (mempty QOps), bwdAvgPool QOps (mkPool 2 4 1 2 2) false (mkMat 1 2 [4; 8]%Q) (mempty QOps) with
  | Ok o, Ok g => Some (map Qred (mdata o), map Qred (mdata g)) | _, _ => None end = Some ([7#2; 11#2], [1; 1; 2; 2; 1; 1; 2; 2])%Q.
Proof. vm_compute. reflexivity. Qed.

(** C50 *)
@thmn C50_pad_cells = fwdZeroPad_gen
@thmn C50_pad_backward_cells = bwdZeroPad_gen
@thmn C50_pad_roundtrip = zeropad_roundtrip
@thm C50_pad_gradient = zeropad_gradient
Example C50_case :
  match fwdZeroPad QOps 1 2 1 1 (mkMat 1 2 [5; 7]%Q) (mempty QOps) with Ok o => Some (mrows o, mcols o, map Qred (mdata o)) | Err _ => None end
  = Some (1%nat, 12%nat, [0; 0; 0; 0; 0; 5; 7; 0; 0; 0; 0; 0]%Q).
Proof. vm_compute. reflexivity. Qed.

(** C51.  im2col: true for every arithmetic.  col2im: true over the reals, and bit for bit when windows do not overlap
    within an image row (kernel columns <= column stride); in float arithmetic the two orders of addition differ. *)
@thmn C51_im2col_paths = im2col_paths | forall (F : FOps),
@thm C51_col2im_paths_real_partial = col2im_paths_R
@thmn C51_col2im_paths_disjoint_partial = col2im_disjoint | forall (F : FOps) v col,
@thm C51_col2im_paths_refuted = col2im_paths_refuted
(* stride 2, 3 x 3 kernel, 5 x 5 image, two channels *)
Example C51_case : let v := mkConv 5 5 2 3 3 1 2 2 in
  let m := mgen 1 50 (fun _ k => inject_Z (Z.of_nat (k * k))) in
  match im2col QOps v m (mempty QOps), (l <- lut v ;; im2colLUT QOps v l m (mempty QOps)) with
  | Ok a, Ok b => (mrows a =? 4)%nat && (mcols a =? 18)%nat && forallb (fun p => Qeq_bool (fst p) (snd p)) (combine (mdata a) (mdata b)) | _, _ => false end = true.
Proof. vm_compute. reflexivity. Qed.

(** C52 *)
@thmn C52_windows_inside = outSize_fits
@thmn C52_conv_forward_float = fwdConv_gen | forall (F : FOps),
@thm C52_conv_forward = conv_forward
Example C52_case :
  match fwdConv QOps (mkConv 1 4 1 1 3 2 1 1) true (mkMat 2 3 [1; 2; 3; 0; 1; 0]%Q) (mempty QOps) (mkMat 1 4 [1; 2; 3; 4]%Q) with
  | Ok (_, o) => Some (map Qred (mdata o)) | Err _ => None end = Some [14; 20; 2; 3]%Q.
Proof. vm_compute. reflexivity. Qed.

(** C53: the weight gradient with factor 1, the input gradient with factor 1/(kernel cells * output channels) *)
@thm C53_conv_gradients = conv_gradients
Example C53_case :
  match fwdConv QOps (mkConv 1 4 1 1 3 1 1 1) true (mkMat 1 3 [1; 2; 3]%Q) (mempty QOps) (mkMat 1 4 [1; 2; 3; 4]%Q) with
  | Ok (col, _) => match bwdConv QOps (mkConv 1 4 1 1 3 1 1 1) true false 1 (mkMat 1 3 [1; 2; 3]%Q) col (mkMat 1 4 [1; 2; 3; 4]%Q) (mkMat 1 2 [3; 6]%Q) (mempty QOps) with
     | Ok (gw, gi) => Some (map Qred (mdata gw), map Qred (mdata gi)) | Err _ => None end | Err _ => None end = Some ([15; 24; 33], [1; 4; 7; 6])%Q.
Proof. vm_compute. reflexivity. Qed.

(** C55.  False: the last frame is never used, a single frame leaves the output as it was, every call on a sequence
    draws new weights, and SimplestRNN starts from the state left by the previous call. *)
@thmn C55_last_frame_ignored_refuted = rnn_last_frame_ignored | forall (F : FOps),
@thmn C55_single_frame_refuted = rnn_single_frame | forall (F : FOps),
@thm C55_weights_refuted = rnn_weights_refuted
@thm C55_repeat_refuted = rnn_repeat_refuted
@thmn C55_simplest_forward_partial = simplest_forward | forall (F : FOps),
@thmn C55_simple_batch_rejected = simple_batch | forall (F : FOps),
@thmn C55_short_backward = rnn_backward_short | forall (F : FOps),
Example C55_case : (* weight 2, frames 1, 10, 100: the result is (0*2 + 1)*2 + 10 *)
  match fwdRnn QOps Simplest 1 1 false (fun _ => 2%Q) (fun _ => 0%Q) (mkMat 1 3 [1; 10; 100]%Q) (mempty QOps) (@mkRnn QOps (mkMat 1 1 [7%Q]) (mempty QOps) (mempty QOps) (mempty QOps) []) with
  | Ok (st, o) => Some (map Qred (mdata o), map Qred (mdata (wH st))) | Err _ => None end = Some ([12], [2])%Q.
Proof. vm_compute. reflexivity. Qed.

(** C56.  False: the layer acts at inference and not in training, its mirrored rows are not mirrored, and in training
    its backward pass reads flags that were never drawn. *)
@thm C56_training_identity_actual = flip_training
@thmn C56_inference_actual_partial = flip_inference
@thm C56_flip_refuted = flip_refuted
@thmn C56_training_backward_refuted = flip_backward_training
