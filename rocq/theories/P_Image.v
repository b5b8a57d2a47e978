(* P_Image.v - property theorems about the layers working on images and sequences (C47-C53, C55, C56).
   tens nS nH nR nC t is the batch of nS images with nH planes of nR x nC cells, t s h r c being one cell; img and unimg
   pass between such a t and the matrix of nS rows. *)
From Coq Require Import List Arith Bool Lia ZArith QArith Reals String Lra.
From Coquelicot Require Import Coquelicot.
From Verif Require Import Base Scalar Mat SpecMat SpecReal RSum LayMat LayImg LayRnn SpecLayer LayTens ImgDot LayPool1 LayPool2 LayPool3 LayPool4 LayPool5 LayConv1 LayConv2 LayConv3 LayConv4 LayFlip LayRnnProofs.
Import ListNotations.
Local Open Scope R_scope.

(** C47.  Window maxima: true.  The backward pass is the gradient for one sample with one channel; otherwise it sends
    every sample and channel to the positions recorded for sample 0, channel 0, and below -1e38 it writes out of bounds. *)
Theorem C47_maxpool_forward : forall jk nS nH nR nC fr fc t mx out, mwf mx -> mwf out ->
  (forall s h r c, (s < nS)%nat -> (h < nH)%nat -> (r < nR / fr)%nat -> (c < nC / fc)%nat ->
     exists a b, (a < fr)%nat /\ (b < fc)%nat /\ - 10 ^ 38 < t s h (r * fr + a)%nat (c * fc + b)%nat) ->
  exists p, (forall s h r c, (s < nS)%nat -> (h < nH)%nat -> (r < nR / fr)%nat -> (c < nC / fc)%nat ->
      winMax fr fc (fun a b => t s h (r * fr + a)%nat (c * fc + b)%nat) (fst (p s h r c)) (snd (p s h r c))) /\
  fwdMaxPool (ROps jk) (mkPool nR nC nH fr fc) true mx (tens nS nH nR nC t) out =
    Ok (tens nS nH (nR / fr) (nC / fc) (fun s h r c => INR (mxR fr r (p s h r c) * nC + mxC fc c (p s h r c))),
        tens nS nH (nR / fr) (nC / fc) (fun s h r c => t s h (mxR fr r (p s h r c)) (mxC fc c (p s h r c)))) /\
  fwdMaxPool (ROps jk) (mkPool nR nC nH fr fc) false mx (tens nS nH nR nC t) out =
    Ok (mx, tens nS nH (nR / fr) (nC / fc) (fun s h r c => t s h (mxR fr r (p s h r c)) (mxC fc c (p s h r c)))).
Proof. exact maxpool_forward. Qed.
Print Assumptions C47_maxpool_forward.

Theorem C47_maxpool_single_gradient_partial : forall jk nR nC fr fc X G p mx out gin, mwf mx -> mwf out -> mwf gin -> peaks 1 1 nR nC fr fc (img nR nC X) p ->
  exists mx' gi, state_ (fwdMaxPool (ROps jk) (mkPool nR nC 1 fr fc) true mx (mgen 1 (1 * nR * nC) X) out) = Ok mx' /\
  bwdMaxPool (ROps jk) (mkPool nR nC 1 fr fc) false mx' (mgen 1 (1 * (nR / fr) * (nC / fc)) G) gin = Ok (mgen 1 (1 * nR * nC) gi) /\
  gradOf 1 (1 * nR * nC) 1 (fun X' => obj G (out_ (fwdMaxPool (ROps jk) (mkPool nR nC 1 fr fc) true mx (mgen 1 (1 * nR * nC) X') out))) X gi.
Proof. exact maxpool_single_gradient. Qed.
Print Assumptions C47_maxpool_single_gradient_partial.

Theorem C47_maxpool_backward_actual_partial : forall jk nS nH nR nC fr fc t G p mx out gin, mwf mx -> mwf out -> mwf gin -> (0 < nS)%nat -> (0 < nH)%nat ->
  peaks nS nH nR nC fr fc t p ->
  exists mx', state_ (fwdMaxPool (ROps jk) (mkPool nR nC nH fr fc) true mx (tens nS nH nR nC t) out) = Ok mx' /\
  bwdMaxPool (ROps jk) (mkPool nR nC nH fr fc) false mx' (tens nS nH (nR / fr) (nC / fc) G) gin =
    Ok (tens nS nH nR nC (routed nR nC fr fc (fun _ _ => p 0%nat 0%nat) G)).
Proof. exact maxpool_backward_actual. Qed.
Print Assumptions C47_maxpool_backward_actual_partial.

Theorem C47_maxpool_true_gradient : forall jk nS nH nR nC fr fc X G p mx out, mwf mx -> mwf out -> peaks nS nH nR nC fr fc (img nR nC X) p ->
  gradOf nS (nH * nR * nC) 1 (fun X' => obj G (out_ (fwdMaxPool (ROps jk) (mkPool nR nC nH fr fc) true mx (mgen nS (nH * nR * nC) X') out))) X
    (unimg nR nC (routed nR nC fr fc p (img (nR / fr) (nC / fc) G))).
Proof. exact maxpool_true_gradient. Qed.
Print Assumptions C47_maxpool_true_gradient.

Theorem C47_maxpool_refuted : forall jk : R, exists nS nH nR nC fr fc X G mx' gi,
  state_ (fwdMaxPool (ROps jk) (mkPool nR nC nH fr fc) true (mempty (ROps jk)) (mgen nS (nH * nR * nC) X) (mempty (ROps jk))) = Ok mx' /\
  bwdMaxPool (ROps jk) (mkPool nR nC nH fr fc) false mx' (mgen nS (nH * (nR / fr) * (nC / fc)) G) (mempty (ROps jk)) = Ok (mgen nS (nH * nR * nC) gi) /\
  peaks nS nH nR nC fr fc (img nR nC X) (fun s _ _ _ => (0, s)%nat) /\
  ~ gradOf nS (nH * nR * nC) 1 (fun X' => obj G (out_ (fwdMaxPool (ROps jk) (mkPool nR nC nH fr fc) true (mempty (ROps jk)) (mgen nS (nH * nR * nC) X') (mempty (ROps jk))))) X gi.
Proof. exact maxpool_refuted. Qed.
Print Assumptions C47_maxpool_refuted.

Theorem C47_maxpool_out_of_bounds_refuted : forall jk : R, exists nR nC fr fc X G mx', (forall s k, - 3 * 10 ^ 38 < X s k) /\
  state_ (fwdMaxPool (ROps jk) (mkPool nR nC 1 fr fc) true (mempty (ROps jk)) (mgen 1 (1 * nR * nC) X) (mempty (ROps jk))) = Ok mx' /\
  bwdMaxPool (ROps jk) (mkPool nR nC 1 fr fc) false mx' (mgen 1 (1 * (nR / fr) * (nC / fc)) G) (mempty (ROps jk)) = Err EOob.
Proof. exact maxpool_oob. Qed.
Print Assumptions C47_maxpool_out_of_bounds_refuted.

(* the hypotheses are met by a plane with distinct cells *)
Example C47_case : peaks 1 1 2 2 2 2 (fun _ _ r c => INR (r * 2 + c)) (fun _ _ _ _ => (1, 1)%nat).
Proof.
  intros s h r c Hs Hh Hr Hc. cbn in Hr, Hc. replace r with 0%nat by lia. replace c with 0%nat by lia. unfold mxR, mxC. cbn [fst snd]. split; [lia|]. split; [lia|]. split.
  - apply Rlt_trans with 0. { assert (0 < 10 ^ 38) by (apply pow_lt; lra). lra. } apply lt_0_INR. lia.
  - intros a b Ha Hb Hn. apply lt_INR. assert (~ (a = 1 /\ b = 1))%nat by (intros [-> ->]; apply Hn; reflexivity). lia.
Qed.

(** C48 *)
Theorem C48_globalmax_forward : forall jk nS nH nR nC t mx out, mwf mx -> mwf out -> (0 < nR)%nat -> (0 < nC)%nat ->
  (forall s h, (s < nS)%nat -> (h < nH)%nat -> exists r c, (r < nR)%nat /\ (c < nC)%nat /\ - 10 ^ 38 < t s h r c) ->
  exists p, (forall s h, (s < nS)%nat -> (h < nH)%nat -> firstMax (fun q => t s h (q / nC)%nat (q mod nC)%nat) (nR * nC) (p s h)) /\
  fwdGlobalMaxPool (ROps jk) nR nC nH true mx (tens nS nH nR nC t) out =
    Ok (mgen nS nH (fun s h => INR (h * (nR * nC) + p s h)), mgen nS nH (fun s h => t s h (p s h / nC)%nat (p s h mod nC)%nat)) /\
  fwdGlobalMaxPool (ROps jk) nR nC nH false mx (tens nS nH nR nC t) out =
    Ok (mx, mgen nS nH (fun s h => t s h (p s h / nC)%nat (p s h mod nC)%nat)).
Proof. exact globalmax_forward. Qed.
Print Assumptions C48_globalmax_forward.

Theorem C48_globalmax_backward : forall jk nS nH nR nC (p : nat -> nat -> nat) G gin, mwf gin ->
  (forall s h, (s < nS)%nat -> (h < nH)%nat -> (p s h < nR * nC)%nat) ->
  bwdGlobalMaxPool (ROps jk) nR nC nH false (mgen nS nH (fun s h => INR (h * (nR * nC) + p s h))) (mgen nS nH G) gin =
  Ok (tens nS nH nR nC (fun s h r c => if (r * nC + c =? p s h)%nat then G s h else 0)).
Proof. exact bwdGlobalMaxPool_R. Qed.
Print Assumptions C48_globalmax_backward.

Theorem C48_globalmax_gradient : forall jk nS nH nR nC X G p mx out gin, mwf mx -> mwf out -> mwf gin -> (0 < nR)%nat -> (0 < nC)%nat ->
  (forall s h, (s < nS)%nat -> (h < nH)%nat -> (p s h < nR * nC)%nat /\ - 10 ^ 38 < X s (h * (nR * nC) + p s h)%nat /\
     forall q, (q < nR * nC)%nat -> q <> p s h -> X s (h * (nR * nC) + q)%nat < X s (h * (nR * nC) + p s h)%nat) ->
  exists gi mx', state_ (fwdGlobalMaxPool (ROps jk) nR nC nH true mx (mgen nS (nH * nR * nC) X) out) = Ok mx' /\
  bwdGlobalMaxPool (ROps jk) nR nC nH false mx' (mgen nS nH G) gin = Ok (mgen nS (nH * nR * nC) gi) /\
  gradOf nS (nH * nR * nC) 1 (fun X' => obj G (out_ (fwdGlobalMaxPool (ROps jk) nR nC nH true mx (mgen nS (nH * nR * nC) X') out))) X gi.
Proof. exact globalmax_gradient. Qed.
Print Assumptions C48_globalmax_gradient.

Example C48_case :
  match fwdGlobalMaxPool QOps 2 2 2 true (mempty QOps) (mkMat 1 8 [1; 7; 3; 4; 9; 6; 7; 8]%Q) (mempty QOps) with
  | Ok (mx, o) => match bwdGlobalMaxPool QOps 2 2 2 false mx (mkMat 1 2 [10; 20]%Q) (mempty QOps) with Ok g => Some (map Qred (mdata o), map Qred (mdata g)) | Err _ => None end | Err _ => None end
  = Some ([7; 9], [0; 10; 0; 0; 20; 0; 0; 0])%Q.
Proof. vm_compute. reflexivity. Qed.

(** C49 *)
Theorem C49_avgpool_forward : forall jk nS nH nR nC fr fc t out, mwf out ->
  fwdAvgPool (ROps jk) (mkPool nR nC nH fr fc) (tens nS nH nR nC t) out =
  Ok (tens nS nH (nR / fr) (nC / fc) (fun s h r c => rsum fr (fun a => rsum fc (fun b => t s h (r * fr + a)%nat (c * fc + b)%nat)) / INR (fr * fc))).
Proof. exact avgpool_forward. Qed.
Print Assumptions C49_avgpool_forward.

Theorem C49_avgpool_gradient : forall jk nS nH nR nC fr fc X G out gin, mwf out -> mwf gin -> exists gi,
  bwdAvgPool (ROps jk) (mkPool nR nC nH fr fc) false (mgen nS (nH * (nR / fr) * (nC / fc)) G) gin = Ok (mgen nS (nH * nR * nC) gi) /\
  gradOf nS (nH * nR * nC) 1 (fun X' => obj G (fwdAvgPool (ROps jk) (mkPool nR nC nH fr fc) (mgen nS (nH * nR * nC) X') out)) X gi.
Proof. exact avgpool_gradient. Qed.
Print Assumptions C49_avgpool_gradient.

Theorem C49_globalavg_forward : forall jk nS nH nR nC t out, mwf out ->
  fwdGlobalAvgPool (ROps jk) nR nC nH (tens nS nH nR nC t) out = Ok (mgen nS nH (fun s h => rsum nR (fun r => rsum nC (fun c => t s h r c)) / INR (nR * nC))).
Proof. exact globalavg_forward. Qed.
Print Assumptions C49_globalavg_forward.

Theorem C49_globalavg_gradient : forall jk nS nH nR nC X G out gin, mwf out -> mwf gin -> exists gi,
  bwdGlobalAvgPool (ROps jk) nR nC nH false (mgen nS nH G) gin = Ok (mgen nS (nH * nR * nC) gi) /\
  gradOf nS (nH * nR * nC) 1 (fun X' => obj G (fwdGlobalAvgPool (ROps jk) nR nC nH (mgen nS (nH * nR * nC) X') out)) X gi.
Proof. exact globalavg_gradient. Qed.
Print Assumptions C49_globalavg_gradient.

Example C49_case :
  match fwdAvgPool QOps (mkPool 2 4 1 2 2) (mkMat 1 8 [1; 2; 3; 4; 5; 6; 7; 8]%Q) (mempty QOps), bwdAvgPool QOps (mkPool 2 4 1 2 2) false (mkMat 1 2 [4; 8]%Q) (mempty QOps) with
  | Ok o, Ok g => Some (map Qred (mdata o), map Qred (mdata g)) | _, _ => None end = Some ([7#2; 11#2], [1; 1; 2; 2; 1; 1; 2; 2])%Q.
Proof. vm_compute. reflexivity. Qed.

(** C50 *)
Theorem C50_pad_cells : (forall (F : FOps) nS nH nR nC nB (t : nat -> nat -> nat -> nat -> F) out, mwf out ->
  fwdZeroPad F nR nC nH nB (tens nS nH nR nC t) out = Ok (tens nS nH (nR + 2 * nB) (nC + 2 * nB) (fun s h r c =>
    if (nB <=? r) && (r <? nR + nB) && (nB <=? c) && (c <? nC + nB) then t s h (r - nB) (c - nB) else f0 F)))%nat.
Proof. exact fwdZeroPad_gen. Qed.
Print Assumptions C50_pad_cells.

Theorem C50_pad_backward_cells : (forall (F : FOps) nS nH nR nC nB (t : nat -> nat -> nat -> nat -> F) gin, mwf gin ->
  bwdZeroPad F nR nC nH nB false (tens nS nH (nR + 2 * nB) (nC + 2 * nB) t) gin = Ok (tens nS nH nR nC (fun s h r c => t s h (r + nB) (c + nB))))%nat.
Proof. exact bwdZeroPad_gen. Qed.
Print Assumptions C50_pad_backward_cells.

Theorem C50_pad_roundtrip : (forall (F : FOps) nS nH nR nC nB m out gin, mwf m -> mrows m = nS -> mcols m = nH * nR * nC -> mwf out -> mwf gin ->
  (y <- fwdZeroPad F nR nC nH nB m out ;; bwdZeroPad F nR nC nH nB false y gin) = Ok m)%nat.
Proof. exact zeropad_roundtrip. Qed.
Print Assumptions C50_pad_roundtrip.

Theorem C50_pad_gradient : forall jk nS nH nR nC nB X G out gin, mwf out -> mwf gin -> exists gi,
  bwdZeroPad (ROps jk) nR nC nH nB false (mgen nS (nH * (nR + 2 * nB) * (nC + 2 * nB)) G) gin = Ok (mgen nS (nH * nR * nC) gi) /\
  gradOf nS (nH * nR * nC) 1 (fun X' => obj G (fwdZeroPad (ROps jk) nR nC nH nB (mgen nS (nH * nR * nC) X') out)) X gi.
Proof. exact zeropad_gradient. Qed.
Print Assumptions C50_pad_gradient.

Example C50_case :
  match fwdZeroPad QOps 1 2 1 1 (mkMat 1 2 [5; 7]%Q) (mempty QOps) with Ok o => Some (mrows o, mcols o, map Qred (mdata o)) | Err _ => None end
  = Some (1%nat, 12%nat, [0; 0; 0; 0; 0; 5; 7; 0; 0; 0; 0; 0]%Q).
Proof. vm_compute. reflexivity. Qed.

(** C51.  im2col: true for every arithmetic.  col2im: true over the reals, and bit for bit when windows do not overlap
    within an image row (kernel columns <= column stride); in float arithmetic the two orders of addition differ. *)
Theorem C51_im2col_paths : forall (F : FOps), (forall v nS (t : nat -> nat -> nat -> nat -> F) col, mwf col -> exists l, lut v = Ok l /\
  im2colLUT F v l (tens nS (vI v) (vR v) (vC v) t) col = im2col F v (tens nS (vI v) (vR v) (vC v) t) col)%nat.
Proof. exact im2col_paths. Qed.
Print Assumptions C51_im2col_paths.

Theorem C51_col2im_paths_real_partial : forall jk v col nS im, mwf im ->
  col2imLUT (ROps jk) v nS (mgen (vI v * vkr v * vkc v) (nS * oR v * oC v) col) im = col2im (ROps jk) v nS (mgen (vI v * vkr v * vkc v) (nS * oR v * oC v) col) im.
Proof. exact col2im_paths_R. Qed.
Print Assumptions C51_col2im_paths_real_partial.

Theorem C51_col2im_paths_disjoint_partial : forall (F : FOps) v col, (forall nS im, mwf im -> vkc v <= vsc v ->
  col2imLUT F v nS (mgen (vI v * vkr v * vkc v) (nS * oR v * oC v) col) im = col2im F v nS (mgen (vI v * vkr v * vkc v) (nS * oR v * oC v) col) im)%nat.
Proof. exact col2im_disjoint. Qed.
Print Assumptions C51_col2im_paths_disjoint_partial.

Theorem C51_col2im_paths_refuted : forall lm pw junk, exists v nS col, 
  let F := B32Ops lm pw junk in
  col2imLUT F v nS (mgen (vI v * vkr v * vkc v) (nS * oR v * oC v) col) (mempty F) <> col2im F v nS (mgen (vI v * vkr v * vkc v) (nS * oR v * oC v) col) (mempty F).
Proof. exact col2im_paths_refuted. Qed.
Print Assumptions C51_col2im_paths_refuted.

(* stride 2, 3 x 3 kernel, 5 x 5 image, two channels *)
Example C51_case : let v := mkConv 5 5 2 3 3 1 2 2 in
  let m := mgen 1 50 (fun _ k => inject_Z (Z.of_nat (k * k))) in
  match im2col QOps v m (mempty QOps), (l <- lut v ;; im2colLUT QOps v l m (mempty QOps)) with
  | Ok a, Ok b => (mrows a =? 4)%nat && (mcols a =? 18)%nat && forallb (fun p => Qeq_bool (fst p) (snd p)) (combine (mdata a) (mdata b)) | _, _ => false end = true.
Proof. vm_compute. reflexivity. Qed.

(** C52 *)
Theorem C52_windows_inside : (forall n k s r a, r < outSize n k s -> a < k -> r * s + a < n)%nat.
Proof. exact outSize_fits. Qed.
Print Assumptions C52_windows_inside.

Theorem C52_conv_forward_float : forall (F : FOps), (forall v fast nS (w : nat -> nat -> F) (t : nat -> nat -> nat -> nat -> F) col, convOk v = Ok tt -> mwf col ->
  fwdConv F v fast (mgen (vO v) (vI v * vkr v * vkc v) w) col (tens nS (vI v) (vR v) (vC v) t) =
  Ok (mgen (nS * oR v * oC v) (vI v * vkr v * vkc v) (colAt v t),
      tens nS (vO v) (oR v) (oC v) (fun s o r c => fsum F (vI v * vkr v * vkc v) (fun k =>
        fmul F (w o k) (t s (k / vkc v / vkr v) (r * vsr v + (k / vkc v) mod vkr v) (c * vsc v + k mod vkc v))))))%nat.
Proof. exact fwdConv_gen. Qed.
Print Assumptions C52_conv_forward_float.

Theorem C52_conv_forward : forall jk v fast nS w t col, convOk v = Ok tt -> mwf col ->
  fwdConv (ROps jk) v fast (mgen (vO v) (vI v * vkr v * vkc v) w) col (tens nS (vI v) (vR v) (vC v) t) =
  Ok (mgen (nS * oR v * oC v) (vI v * vkr v * vkc v) (colAt v t),
      tens nS (vO v) (oR v) (oC v) (fun s o r c => rsum (vI v) (fun h => rsum (vkr v) (fun a => rsum (vkc v) (fun b =>
        w o ((h * vkr v + a) * vkc v + b)%nat * t s h (r * vsr v + a)%nat (c * vsc v + b)%nat))))).
Proof. exact conv_forward. Qed.
Print Assumptions C52_conv_forward.

Example C52_case :
  match fwdConv QOps (mkConv 1 4 1 1 3 2 1 1) true (mkMat 2 3 [1; 2; 3; 0; 1; 0]%Q) (mempty QOps) (mkMat 1 4 [1; 2; 3; 4]%Q) with
  | Ok (_, o) => Some (map Qred (mdata o)) | Err _ => None end = Some [14; 20; 2; 3]%Q.
Proof. vm_compute. reflexivity. Qed.

(** C53: the weight gradient with factor 1, the input gradient with factor 1/(kernel cells * output channels) *)
Theorem C53_conv_gradients : forall jk v fast nS (W X G : nat -> nat -> R) col gin, convOk v = Ok tt -> mwf col -> mwf gin -> (0 < vkr v)%nat -> (0 < vkc v)%nat -> (0 < vO v)%nat -> exists col' gw gi,
  state_ (fwdConv (ROps jk) v fast (mgen (vO v) (vI v * vkr v * vkc v) W) col (mgen nS (vI v * vR v * vC v) X)) = Ok col' /\
  (forall first : bool, bwdConv (ROps jk) v fast first nS (mgen (vO v) (vI v * vkr v * vkc v) W) col' (mgen nS (vI v * vR v * vC v) X) (mgen nS (vO v * oR v * oC v) G) gin =
    Ok (mgen (vO v) (vI v * vkr v * vkc v) gw, if first then gin else mgen nS (vI v * vR v * vC v) gi)) /\
  gradOf (vO v) (vI v * vkr v * vkc v) 1 (fun W' => obj G (out_ (fwdConv (ROps jk) v fast (mgen (vO v) (vI v * vkr v * vkc v) W') col (mgen nS (vI v * vR v * vC v) X)))) W gw /\
  gradOf nS (vI v * vR v * vC v) (INR (vkr v * vkc v * vO v)) (fun X' => obj G (out_ (fwdConv (ROps jk) v fast (mgen (vO v) (vI v * vkr v * vkc v) W) col (mgen nS (vI v * vR v * vC v) X')))) X gi.
Proof. exact conv_gradients. Qed.
Print Assumptions C53_conv_gradients.

Example C53_case :
  match fwdConv QOps (mkConv 1 4 1 1 3 1 1 1) true (mkMat 1 3 [1; 2; 3]%Q) (mempty QOps) (mkMat 1 4 [1; 2; 3; 4]%Q) with
  | Ok (col, _) => match bwdConv QOps (mkConv 1 4 1 1 3 1 1 1) true false 1 (mkMat 1 3 [1; 2; 3]%Q) col (mkMat 1 4 [1; 2; 3; 4]%Q) (mkMat 1 2 [3; 6]%Q) (mempty QOps) with
     | Ok (gw, gi) => Some (map Qred (mdata gw), map Qred (mdata gi)) | Err _ => None end | Err _ => None end = Some ([15; 24; 33], [1; 4; 7; 6])%Q.
Proof. vm_compute. reflexivity. Qed.

(** C55.  False: the last frame is never used, a single frame leaves the output as it was, every call on a sequence
    draws new weights, and SimplestRNN starts from the state left by the previous call. *)
Theorem C55_last_frame_ignored_refuted : forall (F : FOps), (forall k fs u train g1 g2 n nb (X X' : nat -> nat -> F) out st,
  (forall i j, j < (nb - 1) * fs -> X i j = X' i j) ->
  fwdRnn F k fs u train g1 g2 (mgen n (nb * fs) X) out st = fwdRnn F k fs u train g1 g2 (mgen n (nb * fs) X') out st)%nat.
Proof. exact rnn_last_frame_ignored. Qed.
Print Assumptions C55_last_frame_ignored_refuted.

Theorem C55_single_frame_refuted : forall (F : FOps), (forall k fs u g1 g2 n (X : nat -> nat -> F) out st st' o,
  fwdRnn F k fs u false g1 g2 (mgen n fs X) out st = Ok (st', o) -> o = out)%nat.
Proof. exact rnn_single_frame. Qed.
Print Assumptions C55_single_frame_refuted.

Theorem C55_weights_refuted : exists g st mIn st' o, fwdRnn QOps Simplest 1 1 false g g mIn (mempty QOps) st = Ok (st', o) /\ mdata (wH st') <> mdata (wH st).
Proof. exact rnn_weights_refuted. Qed.
Print Assumptions C55_weights_refuted.

Theorem C55_repeat_refuted : exists g mIn st st1 st2 o1 o2,
  fwdRnn QOps Simplest 1 1 false g g mIn (mempty QOps) st = Ok (st1, o1) /\ fwdRnn QOps Simplest 1 1 false g g mIn (mempty QOps) st1 = Ok (st2, o2) /\ mdata o1 <> mdata o2.
Proof. exact rnn_repeat_refuted. Qed.
Print Assumptions C55_repeat_refuted.

Theorem C55_simplest_forward_partial : forall (F : FOps), (forall u g1 g2 n nb (X h : nat -> nat -> F) out st, 0 < u -> 2 <= nb -> mwf (wH st) -> hh st = mgen n u h ->
  exists st', fwdRnn F Simplest u u false g1 g2 (mgen n (nb * u) X) out st = Ok (st', mgen n u (runSimplest u n (drawn u g1) u X (nb - 1) h)) /\
    wH st' = mgen u u (drawn u g1) /\ hh st' = mgen n u (runSimplest u n (drawn u g1) u X (nb - 1) h))%nat.
Proof. exact simplest_forward. Qed.
Print Assumptions C55_simplest_forward_partial.

Theorem C55_simple_batch_rejected : forall (F : FOps), (forall fs u train g1 g2 n nb (X : nat -> nat -> F) out st, 0 < fs -> 2 <= nb -> 2 <= n ->
  mwf (wH st) -> mwf (wX st) -> mwf (bH st) -> mwf (hh st) ->
  fwdRnn F Simple fs u train g1 g2 (mgen n (nb * fs) X) out st = Err EAssert)%nat.
Proof. exact simple_batch. Qed.
Print Assumptions C55_simple_batch_rejected.

Theorem C55_short_backward : forall (F : FOps), (forall fs first st n nb (X : nat -> nat -> F) gin, 0 < fs -> nb <= 2 ->
  exists gw, bwdRnn F fs first st (mgen n (nb * fs) X) gin = Ok (gw, gin) /\ msize gw = 0)%nat.
Proof. exact rnn_backward_short. Qed.
Print Assumptions C55_short_backward.

Example C55_case : (* weight 2, frames 1, 10, 100: the result is (0*2 + 1)*2 + 10 *)
  match fwdRnn QOps Simplest 1 1 false (fun _ => 2%Q) (fun _ => 0%Q) (mkMat 1 3 [1; 10; 100]%Q) (mempty QOps) (@mkRnn QOps (mkMat 1 1 [7%Q]) (mempty QOps) (mempty QOps) (mempty QOps) []) with
  | Ok (st, o) => Some (map Qred (mdata o), map Qred (mdata (wH st))) | Err _ => None end = Some ([12], [2])%Q.
Proof. vm_compute. reflexivity. Qed.

(** C56.  False: the layer acts at inference and not in training, its mirrored rows are not mirrored, and in training
    its backward pass reads flags that were never drawn. *)
Theorem C56_training_identity_actual : forall (F : FOps) nR nC nH g flipped mIn, fwdFlip F nR nC nH true g flipped mIn = Ok (flipped, mIn).
Proof. exact flip_training. Qed.
Print Assumptions C56_training_identity_actual.

Theorem C56_inference_actual_partial : (forall jk nS nH nR nC g flipped t, mwf flipped -> 0 < nC ->
  fwdFlip (ROps jk) nR nC nH false g flipped (tens nS nH nR nC t) =
  Ok (mgen nS 1 (fun s _ => if (g s mod 65536 <? 32768)%Z then 1%R else 0%R),
      tens nS nH nR nC (fun s h r c => if (g s mod 65536 <? 32768)%Z then t s h r (Nat.max c (nC - 1 - c)) else t s h r c)))%nat.
Proof. exact flip_inference. Qed.
Print Assumptions C56_inference_actual_partial.

Theorem C56_flip_refuted : exists nR nC nH g mIn f o, fwdFlip QOps nR nC nH false g (mempty QOps) mIn = Ok (f, o) /\
  mIn = mkMat 1 nC [QArith_base.inject_Z 1; QArith_base.inject_Z 2; QArith_base.inject_Z 3] /\ mdata o <> mdata mIn /\ mdata o <> rev (mdata mIn).
Proof. exact flip_refuted. Qed.
Print Assumptions C56_flip_refuted.

Theorem C56_training_backward_refuted : (forall (F : FOps) nR nC nH g mIn mG gin, 0 < mrows mIn ->
  exists fl o, fwdFlip F nR nC nH true g (mempty F) mIn = Ok (fl, o) /\ bwdFlip F nR nC nH false fl mIn mG gin = Err EAssert)%nat.
Proof. exact flip_backward_training. Qed.
Print Assumptions C56_training_backward_refuted.

