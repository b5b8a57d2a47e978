(* P_Layer.v - property theorems about single layers on row vectors (C41-C46, C54, C57).
   obj G y is the sum over all cells of G * y; gradOf r c s L P g says s * g a b is the partial derivative of L at P in
   cell (a, b), for every cell of an r x c matrix (SpecLayer.v). *)
From Coq Require Import List Arith Bool Lia ZArith QArith Reals String Lra.
From Coquelicot Require Import Coquelicot.
From Verif Require Import Base Scalar Mat SpecMat SpecReal RSum Act SpecAct LayMat SpecLayer LayProofs1 LayProofs2 LayProofs3 LayProofs4 LayProofs5 LayProofs6 LayProofs7 LayProofs8 MiscProofs.
Import ListNotations.
Local Open Scope R_scope.

(** C41 *)
Theorem C41_dense_forward : (forall (F : FOps) n k m W b X,
  fwdDense F (mgen k m W) (mgen 1 m b) (mgen n k X) =
  Ok (mgen n m (fun i j => fadd F (fsum F k (fun l => fmul F (X i l) (W l j))) (b 0 j))))%nat.
Proof. exact fwdDense_gen. Qed.
Print Assumptions C41_dense_forward.

Theorem C41_dot_forward : (forall (F : FOps) n k m W X,
  fwdDot F (mgen k m W) (mgen n k X) = Ok (mgen n m (fun i j => fsum F k (fun l => fmul F (X i l) (W l j)))))%nat.
Proof. exact fwdDot_gen. Qed.
Print Assumptions C41_dot_forward.

Theorem C41_dense_gradients : forall jk first n k m W b X G gin, (0 < n)%nat ->
  exists gw gb gi,
    bwdDense (ROps jk) first (mgen k m W) (mgen n k X) (mgen n m G) gin = Ok (mgen k m gw, mgen 1 m gb, if first then gin else mgen n k gi) /\
    gradOf k m (INR n) (fun W' => obj G (fwdDense (ROps jk) (mgen k m W') (mgen 1 m b) (mgen n k X))) W gw /\
    gradOf 1 m (INR n) (fun b' => obj G (fwdDense (ROps jk) (mgen k m W) (mgen 1 m b') (mgen n k X))) b gb /\
    gradOf n k 1 (fun X' => obj G (fwdDense (ROps jk) (mgen k m W) (mgen 1 m b) (mgen n k X'))) X gi.
Proof. exact dense_gradients. Qed.
Print Assumptions C41_dense_gradients.

Theorem C41_dot_gradients : forall jk first n k m W X G gin, (0 < n)%nat ->
  exists gw gi,
    bwdDot (ROps jk) first (mgen k m W) (mgen n k X) (mgen n m G) gin = Ok (mgen k m gw, if first then gin else mgen n k gi) /\
    gradOf k m (INR n) (fun W' => obj G (fwdDot (ROps jk) (mgen k m W') (mgen n k X))) W gw /\
    gradOf n k 1 (fun X' => obj G (fwdDot (ROps jk) (mgen k m W) (mgen n k X'))) X gi.
Proof. exact dot_gradients. Qed.
Print Assumptions C41_dot_gradients.

(* 2 samples, 2 inputs, 1 output: weights 1/2 of the sums 1*1+3*2 and 2*1+4*2, bias (1+2)/2, input G W^T *)
Example C41_case :
  match bwdDense QOps false (mkMat 2 1 [3; 5]%Q) (mkMat 2 2 [1; 2; 3; 4]%Q) (mkMat 2 1 [1; 2]%Q) (mempty QOps) with
  | Ok (gw, gb, gi) => Some (map Qred (mdata gw), map Qred (mdata gb), map Qred (mdata gi)) | Err _ => None end
  = Some ([7#2; 5], [3#2], [3; 5; 6; 10])%Q.
Proof. vm_compute. reflexivity. Qed.

(** C42.  True for Bias; input gradients true for all; weight gradients wrong for Gain, Affine, GlobalGain and
    GlobalAffine; bias gradients of GlobalBias, GlobalAffine and ChannelBias off by a constant factor. *)
Theorem C42_bias_gradients : forall jk name g first n k b X G gin, (0 < n)%nat -> (0 < k)%nat ->
  exists gb gi,
    bwdBias (ROps jk) first (mgen n k G) gin = Ok (mgen 1 k gb, if first then gin else mgen n k gi) /\
    gradOf 1 k (INR n) (fun b' => obj G (out_ (fwdBias (ROps jk) name g (mgen 1 k b') (mgen n k X)))) b gb /\
    gradOf n k 1 (fun X' => obj G (out_ (fwdBias (ROps jk) name g (mgen 1 k b) (mgen n k X')))) X gi.
Proof. exact bias_gradients. Qed.
Print Assumptions C42_bias_gradients.

Theorem C42_gain_actual_partial : forall jk first n k w X G gin, (0 < k)%nat ->
  exists gi,
    bwdGain (ROps jk) first (mgen 1 k w) (mgen n k X) (mgen n k G) gin =
      Ok (mgen 1 k (fun _ j => rsum k (fun l => rsum n (fun i => X i l * G i j)) / INR k), if first then gin else mgen n k gi) /\
    gradOf 1 k 1 (fun w' => obj G (out_ (fwdGain (ROps jk) (mgen 1 k w') (mgen n k X)))) w (fun _ j => rsum n (fun i => X i j * G i j)) /\
    gradOf n k 1 (fun X' => obj G (out_ (fwdGain (ROps jk) (mgen 1 k w) (mgen n k X')))) X gi.
Proof. exact gain_gradients. Qed.
Print Assumptions C42_gain_actual_partial.

Theorem C42_affine_actual_partial : forall jk first n k w b X G out gin, (0 < n)%nat -> (0 < k)%nat -> mwf out ->
  exists gb gi,
    bwdAffine (ROps jk) first (mgen 1 k w) (mgen n k X) (mgen n k G) gin =
      Ok (mgen 1 k (fun _ j => rsum k (fun l => rsum n (fun i => X i l * G i j)) / INR k), mgen 1 k gb, if first then gin else mgen n k gi) /\
    gradOf 1 k 1 (fun w' => obj G (out_ (fwdAffine (ROps jk) (mgen 1 k w') (mgen 1 k b) (mgen n k X) out))) w (fun _ j => rsum n (fun i => X i j * G i j)) /\
    gradOf 1 k (INR n) (fun b' => obj G (out_ (fwdAffine (ROps jk) (mgen 1 k w) (mgen 1 k b') (mgen n k X) out))) b gb /\
    gradOf n k 1 (fun X' => obj G (out_ (fwdAffine (ROps jk) (mgen 1 k w) (mgen 1 k b) (mgen n k X') out))) X gi.
Proof. exact affine_gradients. Qed.
Print Assumptions C42_affine_actual_partial.

Theorem C42_globalbias_actual_partial : forall jk first n k b gb X G gin, (0 < n)%nat -> (0 < k)%nat ->
  exists gb' gi,
    bwdGlobalBias (ROps jk) first (mgen 1 1 gb) (mgen n k G) gin = Ok (mgen 1 1 gb', if first then gin else mgen n k gi) /\
    gradOf 1 1 (INR n * INR k) (fun b' => obj G (fwdGlobalBias (ROps jk) (mgen 1 1 b') (mgen n k X))) b gb' /\
    gradOf n k 1 (fun X' => obj G (fwdGlobalBias (ROps jk) (mgen 1 1 b) (mgen n k X'))) X gi.
Proof. exact globalbias_gradients. Qed.
Print Assumptions C42_globalbias_actual_partial.

Theorem C42_globalgain_actual_partial : forall jk first n k w gw X G gin,
  exists gi,
    bwdGlobalGain (ROps jk) first (mgen 1 1 w) (mgen 1 1 gw) (mgen n k X) (mgen n k G) gin =
      Ok (mgen 1 1 (fun _ _ => rsum k (fun l => rsum k (fun j => rsum n (fun i => X i l * G i j))) / (INR k * INR k)), if first then gin else mgen n k gi) /\
    gradOf 1 1 1 (fun w' => obj G (fwdGlobalGain (ROps jk) (mgen 1 1 w') (mgen n k X))) w (fun _ _ => rsum n (fun i => rsum k (fun j => X i j * G i j))) /\
    gradOf n k 1 (fun X' => obj G (fwdGlobalGain (ROps jk) (mgen 1 1 w) (mgen n k X'))) X gi.
Proof. exact globalgain_gradients. Qed.
Print Assumptions C42_globalgain_actual_partial.

Theorem C42_globalaffine_actual_partial : forall jk first n k w b gw gb X G gin, (0 < n)%nat -> (0 < k)%nat ->
  exists gb' gi,
    bwdGlobalAffine (ROps jk) first (mgen 1 1 w) (mgen 1 1 gw) (mgen 1 1 gb) (mgen n k X) (mgen n k G) gin =
      Ok (mgen 1 1 (fun _ _ => rsum k (fun l => rsum k (fun j => rsum n (fun i => X i l * G i j))) / (INR k * INR k)), mgen 1 1 gb', if first then gin else mgen n k gi) /\
    gradOf 1 1 1 (fun w' => obj G (fwdGlobalAffine (ROps jk) (mgen 1 1 w') (mgen 1 1 b) (mgen n k X))) w (fun _ _ => rsum n (fun i => rsum k (fun j => X i j * G i j))) /\
    gradOf 1 1 (INR n * INR k) (fun b' => obj G (fwdGlobalAffine (ROps jk) (mgen 1 1 w) (mgen 1 1 b') (mgen n k X))) b gb' /\
    gradOf n k 1 (fun X' => obj G (fwdGlobalAffine (ROps jk) (mgen 1 1 w) (mgen 1 1 b) (mgen n k X'))) X gi.
Proof. exact globalaffine_gradients. Qed.
Print Assumptions C42_globalaffine_actual_partial.

Theorem C42_channelbias_actual_partial : forall jk first n nH nR nC b X G gin, (0 < n)%nat -> (0 < nR)%nat -> (0 < nC)%nat ->
  exists gb gi,
    bwdChannelBias (ROps jk) nR nC nH first (mgen n (nH * nR * nC) G) gin = Ok (mgen 1 nH gb, if first then gin else mgen n (nH * nR * nC) gi) /\
    gradOf 1 nH (INR n / (INR nR * INR nC)) (fun b' => obj G (fwdChannelBias (ROps jk) nR nC nH (mgen 1 nH b') (mgen n (nH * nR * nC) X))) b gb /\
    gradOf n (nH * nR * nC) 1 (fun X' => obj G (fwdChannelBias (ROps jk) nR nC nH (mgen 1 nH b) (mgen n (nH * nR * nC) X'))) X gi.
Proof. exact channelbias_gradients. Qed.
Print Assumptions C42_channelbias_actual_partial.

Theorem C42_gain_refuted : forall jk : R, exists n k w X G gin gw gi, (0 < n)%nat /\
  bwdGain (ROps jk) false (mgen 1 k w) (mgen n k X) (mgen n k G) gin = Ok (mgen 1 k gw, mgen n k gi) /\
  ~ gradOf 1 k (INR n) (fun w' => obj G (out_ (fwdGain (ROps jk) (mgen 1 k w') (mgen n k X)))) w gw.
Proof. exact gain_refuted. Qed.
Print Assumptions C42_gain_refuted.

Theorem C42_affine_refuted : forall jk : R, exists n k w b X G out gin gw gb gi, (0 < n)%nat /\ mwf out /\
  bwdAffine (ROps jk) false (mgen 1 k w) (mgen n k X) (mgen n k G) gin = Ok (mgen 1 k gw, mgen 1 k gb, mgen n k gi) /\
  ~ gradOf 1 k (INR n) (fun w' => obj G (out_ (fwdAffine (ROps jk) (mgen 1 k w') (mgen 1 k b) (mgen n k X) out))) w gw.
Proof. exact affine_refuted. Qed.
Print Assumptions C42_affine_refuted.

Theorem C42_globalbias_refuted : forall jk : R, exists n k b gb X G gin gb' gi, (0 < n)%nat /\
  bwdGlobalBias (ROps jk) false (mgen 1 1 gb) (mgen n k G) gin = Ok (mgen 1 1 gb', mgen n k gi) /\
  ~ gradOf 1 1 (INR n) (fun b' => obj G (fwdGlobalBias (ROps jk) (mgen 1 1 b') (mgen n k X))) b gb'.
Proof. exact globalbias_refuted. Qed.
Print Assumptions C42_globalbias_refuted.

Theorem C42_globalgain_refuted : forall jk : R, exists n k w gw X G gin gw' gi, (0 < n)%nat /\
  bwdGlobalGain (ROps jk) false (mgen 1 1 w) (mgen 1 1 gw) (mgen n k X) (mgen n k G) gin = Ok (mgen 1 1 gw', mgen n k gi) /\
  ~ gradOf 1 1 (INR n) (fun w' => obj G (fwdGlobalGain (ROps jk) (mgen 1 1 w') (mgen n k X))) w gw'.
Proof. exact globalgain_refuted. Qed.
Print Assumptions C42_globalgain_refuted.

Theorem C42_channelbias_refuted : forall jk : R, exists n nH nR nC b X G gin gb gi, (0 < n)%nat /\ (0 < nR)%nat /\ (0 < nC)%nat /\
  bwdChannelBias (ROps jk) nR nC nH false (mgen n (nH * nR * nC) G) gin = Ok (mgen 1 nH gb, mgen n (nH * nR * nC) gi) /\
  ~ gradOf 1 nH (INR n) (fun b' => obj G (fwdChannelBias (ROps jk) nR nC nH (mgen 1 nH b') (mgen n (nH * nR * nC) X))) b gb.
Proof. exact channelbias_refuted. Qed.
Print Assumptions C42_channelbias_refuted.

Example C42_case :
  match bwdBias QOps false (mkMat 2 2 [1; 2; 3; 4]%Q) (mempty QOps), bwdGain QOps false (mkMat 1 2 [1; 1]%Q) (mkMat 1 2 [1; 3]%Q) (mkMat 1 2 [1; 1]%Q) (mempty QOps) with
  | Ok (gb, _), Ok (gw, _) => Some (map Qred (mdata gb), map Qred (mdata gw)) | _, _ => None end
  = Some ([2; 3], [2; 2])%Q. (* the gain gradient should be [1; 3] *)
Proof. vm_compute. reflexivity. Qed.

(** C43.  True for PRelu, CRelu and RRelu; PELU and TERELU ignore the output gradient in the weight gradient. *)
Theorem C43_prelu_gradients : forall jk first n k w gw X G gin, (0 < n)%nat -> (0 < k)%nat ->
  (forall i j, (i < n)%nat -> (j < k)%nat -> X i j <> 0) ->
  exists gw' gi,
    bwdPRelu (ROps jk) first (mgen 1 k w) (mgen 1 k gw) (mgen n k X) (mgen n k G) gin = Ok (mgen 1 k gw', if first then gin else mgen n k gi) /\
    gradOf 1 k (INR n) (fun w' => obj G (out_ (fwdPRelu (ROps jk) (mgen 1 k w') (mgen 1 k gw) (mgen n k X)))) w gw' /\
    gradOf n k 1 (fun X' => obj G (out_ (fwdPRelu (ROps jk) (mgen 1 k w) (mgen 1 k gw) (mgen n k X')))) X gi.
Proof. exact prelu_gradients. Qed.
Print Assumptions C43_prelu_gradients.

Theorem C43_crelu_gradient : forall jk n k X G out gin, mwf out -> mwf gin ->
  (forall i j, (i < n)%nat -> (j < k)%nat -> X i j <> 0) ->
  exists gi, bwdCRelu (ROps jk) false (mgen n k X) (mgen n (2 * k) G) gin = Ok (mgen n k gi) /\
  gradOf n k 1 (fun X' => obj G (fwdCRelu (ROps jk) (mgen n k X') out)) X gi.
Proof. exact crelu_gradient. Qed.
Print Assumptions C43_crelu_gradient.

Theorem C43_rrelu_gradient : forall jk g a1 a2 s n k X G gin, mwf s ->
  (forall i j, (i < n)%nat -> (j < k)%nat -> X i j <> 0) ->
  exists s' gi, state_ (fwdRRelu (ROps jk) true g a1 a2 s (mgen n k X)) = Ok s' /\
    bwdRRelu (ROps jk) false s' (mgen n k X) (mgen n k G) gin = Ok (mgen n k gi) /\
    gradOf n k 1 (fun X' => obj G (out_ (fwdRRelu (ROps jk) true g a1 a2 s (mgen n k X')))) X gi.
Proof. exact rrelu_gradient. Qed.
Print Assumptions C43_rrelu_gradient.

Theorem C43_rrelu_inference : (forall (F : FOps) g a1 a2 s n k X,
  fwdRRelu F false g a1 a2 s (mgen n k X) =
  Ok (s, mgen n k (fun i j => if flt F (X i j) (f0 F) then fmul F (X i j) (rreluMean F a1 a2) else X i j)))%nat.
Proof. exact fwdRRelu_infer. Qed.
Print Assumptions C43_rrelu_inference.

Theorem C43_rrelu_inference_slope : (forall jk (g : nat -> R) (a1 a2 : R) (s : mat (ROps jk)) n k (X : nat -> nat -> R),
  fwdRRelu (ROps jk) false g a1 a2 s (mgen n k X) = Ok (s, mgen n k (fun i j => if Rlt_dec (X i j) 0 then (X i j / a1 + X i j / a2) / 2 else X i j)%R))%nat.
Proof. exact rrelu_mean. Qed.
Print Assumptions C43_rrelu_inference_slope.

Theorem C43_pelu_actual_partial : forall jk first n k w gw X G gin, (0 < n)%nat -> (0 < k)%nat ->
  (forall i j, (i < n)%nat -> (j < k)%nat -> X i j <> 0) -> (forall r j, (r < 2)%nat -> (j < k)%nat -> 1 / 10 <= w r j) ->
  exists gw' gi,
    bwdPELU (ROps jk) first (mgen 2 k w) (mgen 2 k gw) (mgen n k X) (mgen n k G) gin = Ok (mgen 2 k w, mgen 2 k gw', if first then gin else mgen n k gi) /\
    gradOf 2 k (INR n) (fun w' => obj (fun _ _ => 1) (out_ (fwdPELU (ROps jk) (mgen 2 k w') (mgen 2 k gw) (mgen n k X)))) w gw' /\
    gradOf n k 1 (fun X' => obj G (out_ (fwdPELU (ROps jk) (mgen 2 k w) (mgen 2 k gw) (mgen n k X')))) X gi.
Proof. exact pelu_gradients. Qed.
Print Assumptions C43_pelu_actual_partial.

Theorem C43_pelu_keeps_weights_positive : forall jk first n k w gw X G gin, (0 < k)%nat -> exists w' gw' gi,
  bwdPELU (ROps jk) first (mgen 2 k w) (mgen 2 k gw) (mgen n k X) (mgen n k G) gin = Ok (mgen 2 k w', gw', gi) /\
  forall r j, 1 / 10 <= w' r j /\ (1 / 10 <= w r j -> w' r j = w r j).
Proof. exact pelu_clamps. Qed.
Print Assumptions C43_pelu_keeps_weights_positive.

Theorem C43_terelu_actual_partial : forall jk first n k w gw X G gin, (0 < n)%nat -> (0 < k)%nat ->
  (forall i j, (i < n)%nat -> (j < k)%nat -> X i j <> 0 /\ X i j <> 1) ->
  exists gw' gi,
    bwdTERELU (ROps jk) first (mgen 1 k w) (mgen 1 k gw) (mgen n k X) (mgen n k G) gin = Ok (mgen 1 k gw', if first then gin else mgen n k gi) /\
    gradOf 1 k (INR n) (fun w' => obj (fun _ _ => 1) (out_ (fwdTERELU (ROps jk) (mgen 1 k w') (mgen 1 k gw) (mgen n k X)))) w gw' /\
    gradOf n k 1 (fun X' => obj G (out_ (fwdTERELU (ROps jk) (mgen 1 k w) (mgen 1 k gw) (mgen n k X')))) X gi.
Proof. exact terelu_gradients. Qed.
Print Assumptions C43_terelu_actual_partial.

Theorem C43_pelu_refuted : forall jk : R, exists n k w gw X G gin gw' gi, (0 < n)%nat /\ (0 < k)%nat /\
  (forall i j, (i < n)%nat -> (j < k)%nat -> X i j <> 0) /\ (forall r j, (r < 2)%nat -> (j < k)%nat -> 1 / 10 <= w r j) /\
  bwdPELU (ROps jk) false (mgen 2 k w) (mgen 2 k gw) (mgen n k X) (mgen n k G) gin = Ok (mgen 2 k w, mgen 2 k gw', mgen n k gi) /\
  ~ gradOf 2 k (INR n) (fun w' => obj G (out_ (fwdPELU (ROps jk) (mgen 2 k w') (mgen 2 k gw) (mgen n k X)))) w gw'.
Proof. exact pelu_refuted. Qed.
Print Assumptions C43_pelu_refuted.

Theorem C43_terelu_refuted : forall jk : R, exists n k w gw X G gin gw' gi, (0 < n)%nat /\ (0 < k)%nat /\
  (forall i j, (i < n)%nat -> (j < k)%nat -> X i j <> 0 /\ X i j <> 1) /\
  bwdTERELU (ROps jk) false (mgen 1 k w) (mgen 1 k gw) (mgen n k X) (mgen n k G) gin = Ok (mgen 1 k gw', mgen n k gi) /\
  ~ gradOf 1 k (INR n) (fun w' => obj G (out_ (fwdTERELU (ROps jk) (mgen 1 k w') (mgen 1 k gw) (mgen n k X)))) w gw'.
Proof. exact terelu_refuted. Qed.
Print Assumptions C43_terelu_refuted.

Example C43_case :
  match bwdPRelu QOps false (mkMat 1 2 [1#4; 1#4]%Q) (mkMat 1 2 [0; 0]%Q) (mkMat 2 2 [-1; 2; -3; -4]%Q) (mkMat 2 2 [1; 2; 3; 4]%Q) (mempty QOps) with
  | Ok (gw, gi) => Some (map Qred (mdata gw), map Qred (mdata gi)) | Err _ => None end
  = Some ([-5; -8], [1#4; 2; 3#4; 1])%Q.
Proof. vm_compute. reflexivity. Qed.

(** C44 *)
Theorem C44_softmax_probabilities : forall jk n k X, (0 < k)%nat -> exists P,
  fwdSoftmax (ROps jk) (mgen n k X) = Ok (mgen n k P) /\
  (forall i j, (i < n)%nat -> (j < k)%nat -> P i j = exp (X i j) / rsum k (fun l => exp (X i l))) /\
  (forall i j, (i < n)%nat -> (j < k)%nat -> 0 < P i j) /\
  (forall i, (i < n)%nat -> rsum k (P i) = 1) /\
  (forall i j l, (i < n)%nat -> (j < k)%nat -> (l < k)%nat -> (P i j < P i l <-> X i j < X i l)) /\
  (forall c, fwdSoftmax (ROps jk) (mgen n k (fun i j => X i j + c i)) = Ok (mgen n k P)).
Proof. exact softmax_layer. Qed.
Print Assumptions C44_softmax_probabilities.

Theorem C44_softmin_probabilities : forall jk n k X, (0 < k)%nat -> exists P,
  fwdSoftmin (ROps jk) (mgen n k X) = Ok (mgen n k P) /\
  (forall i j, (i < n)%nat -> (j < k)%nat -> P i j = exp (- X i j) / rsum k (fun l => exp (- X i l))) /\
  (forall i j, (i < n)%nat -> (j < k)%nat -> 0 < P i j) /\
  (forall i, (i < n)%nat -> rsum k (P i) = 1) /\
  (forall i j l, (i < n)%nat -> (j < k)%nat -> (l < k)%nat -> (P i j < P i l <-> X i l < X i j)) /\
  (forall c, fwdSoftmin (ROps jk) (mgen n k (fun i j => X i j + c i)) = Ok (mgen n k P)).
Proof. exact softmin_layer. Qed.
Print Assumptions C44_softmin_probabilities.

Example C44_case : exists P, fwdSoftmax (ROps 0) (mgen 1 2 (fun _ _ => 7)) = Ok (mgen 1 2 P) /\ P 0%nat 0%nat = P 0%nat 1%nat /\ P 0%nat 0%nat + P 0%nat 1%nat = 1.
Proof.
  destruct (softmax_layer 0 1 2 (fun _ _ => 7) ltac:(lia)) as (P & H1 & _ & _ & H2 & H3 & _). exists P. split; [exact H1|]. split.
  - destruct (Rtotal_order (P 0%nat 0%nat) (P 0%nat 1%nat)) as [L|[L|L]]; auto; apply H3 in L; try lia; lra.
  - specialize (H2 0%nat ltac:(lia)). unfold rsum in H2; cbn in H2. lra.
Qed.

(** C45.  False: the code keeps only the diagonal of the Jacobian.  *)
Theorem C45_softmax_true_gradient_partial : forall jk n k X G, (0 < k)%nat ->
  gradOf n k 1 (fun X' => obj G (fwdSoftmax (ROps jk) (mgen n k X'))) X
    (fun i j => softmax k (X i) j * (G i j - rsum k (fun l => G i l * softmax k (X i) l))).
Proof. exact softmax_true_gradient. Qed.
Print Assumptions C45_softmax_true_gradient_partial.

Theorem C45_softmax_backward_actual_partial : forall jk n k X G gin, (0 < k)%nat ->
  bwdSoftmax (ROps jk) false (mgen n k X) (mgen n k G) gin =
    Ok (mgen n k (fun i j => G i j * (softmax k (X i) j * (1 - softmax k (X i) j)))) /\
  forall i j, (i < n)%nat -> (j < k)%nat ->
    softmax k (X i) j * (G i j - rsum k (fun l => G i l * softmax k (X i) l)) =
    G i j * (softmax k (X i) j * (1 - softmax k (X i) j)) - softmax k (X i) j * (rsum k (fun l => G i l * softmax k (X i) l) - G i j * softmax k (X i) j).
Proof. exact softmax_backward_diagonal. Qed.
Print Assumptions C45_softmax_backward_actual_partial.

Theorem C45_softmax_backward_refuted : forall jk : R, exists n k X G gin gi, (0 < k)%nat /\
  bwdSoftmax (ROps jk) false (mgen n k X) (mgen n k G) gin = Ok (mgen n k gi) /\
  ~ gradOf n k 1 (fun X' => obj G (fwdSoftmax (ROps jk) (mgen n k X'))) X gi.
Proof. exact softmax_backward_refuted. Qed.
Print Assumptions C45_softmax_backward_refuted.

Theorem C45_softmax_crossentropy_actual_partial : forall jk n k X c gin, (0 < k)%nat -> (forall i, (i < n)%nat -> (c i < k)%nat) ->
  bwdSoftmax (ROps jk) false (mgen n k X) (mgen n k (fun i j => - ((if (j =? c i)%nat then 1 else 0) / softmax k (X i) j))) gin =
  Ok (mgen n k (fun i j => if (j =? c i)%nat then softmax k (X i) j - 1 else 0)).
Proof. exact softmax_crossentropy. Qed.
Print Assumptions C45_softmax_crossentropy_actual_partial.

Theorem C45_softmax_crossentropy_exact_partial : forall jk n k X c, (0 < k)%nat -> (forall i, (i < n)%nat -> (c i < k)%nat) ->
  gradOf n k 1 (fun X' => obj (fun i j => - ((if (j =? c i)%nat then 1 else 0) / softmax k (X i) j)) (fwdSoftmax (ROps jk) (mgen n k X'))) X
    (fun i j => softmax k (X i) j - (if (j =? c i)%nat then 1 else 0)).
Proof. exact softmax_crossentropy_exact. Qed.
Print Assumptions C45_softmax_crossentropy_exact_partial.


(** C46.  GaussianDropout in training fails for batches of more than one row. *)
Theorem C46_dropout_inference : forall (F : FOps) rate g mask mIn, fwdDropout F false rate g mask mIn = Ok (mask, mIn).
Proof. exact dropout_inference. Qed.
Print Assumptions C46_dropout_inference.

Theorem C46_gaussiandropout_inference : forall (F : FOps) g mask mIn, fwdGaussianDropout F false g mask mIn = Ok (mask, mIn).
Proof. exact gaussiandropout_inference. Qed.
Print Assumptions C46_gaussiandropout_inference.

Theorem C46_noise_inference : forall (F : FOps) noise g mIn, fwdNoise F false noise g mIn = Ok mIn.
Proof. exact noise_inference. Qed.
Print Assumptions C46_noise_inference.

Theorem C46_dropout_rate_zero : forall jk train g mask mIn, fwdDropout (ROps jk) train 0 g mask mIn = Ok (mask, mIn).
Proof. exact dropout_rate0. Qed.
Print Assumptions C46_dropout_rate_zero.

Theorem C46_dropout_training : forall jk rate g mask n k X G gin, 0 < rate < 1 -> mwf mask ->
  exists M, fwdDropout (ROps jk) true rate g mask (mgen n k X) = Ok (mgen n k M, mgen n k (fun i j => X i j * M i j)) /\
  (forall i j, M i j = 0 \/ M i j = / (1 - rate)) /\
  bwdDropout (ROps jk) false rate (mgen n k M) (mgen n k G) gin = Ok (mgen n k (fun i j => G i j * M i j)) /\
  gradOf n k 1 (fun X' => obj G (out_ (fwdDropout (ROps jk) true rate g mask (mgen n k X')))) X (fun i j => G i j * M i j).
Proof. exact dropout_training. Qed.
Print Assumptions C46_dropout_training.

Theorem C46_noise_training : forall jk noise g n k X G gin, 0 < noise ->
  fwdNoise (ROps jk) true noise g (mgen n k X) = Ok (mgen n k (fun i j => X i j + g (i * k + j)%nat)) /\
  bwdPass (ROps jk) false (mgen n k G) gin = Ok (mgen n k G) /\
  gradOf n k 1 (fun X' => obj G (fwdNoise (ROps jk) true noise g (mgen n k X'))) X G.
Proof. exact noise_training. Qed.
Print Assumptions C46_noise_training.

Theorem C46_gaussiandropout_one_row : forall jk g mask k X, mwf mask ->
  fwdGaussianDropout (ROps jk) true g mask (mgen 1 k X) = Ok (mgen 1 k (fun _ j => g j), mgen 1 k (fun _ j => X 0%nat j * g j)).
Proof. exact gaussiandropout_one_row. Qed.
Print Assumptions C46_gaussiandropout_one_row.

Theorem C46_gaussiandropout_many_rows : forall jk g mask n k X, mwf mask -> (1 < n)%nat -> (0 < k)%nat ->
  fwdGaussianDropout (ROps jk) true g mask (mgen n k X) = Err EAssert.
Proof. exact gaussiandropout_many_rows. Qed.
Print Assumptions C46_gaussiandropout_many_rows.

Example C46_case :
  match fwdDropout QOps true (1#2)%Q (fun p => if Nat.even p then 0 else 65535)%Z (mempty QOps) (mkMat 1 4 [1; 2; 3; 4]%Q) with
  | Ok (m, y) => Some (map Qred (mdata y)) | Err _ => None end = Some [2; 0; 6; 0]%Q.
Proof. vm_compute. reflexivity. Qed.

(** C54.  The bias gradients are averaged over samples and frames, the weight gradients over samples only. *)
Theorem C54_dense_frames : (forall (F : FOps) n f fi fo W b X, 0 < fi -> exists Y,
  fwdTDDense F fi fo (mgen fi fo W) (mgen 1 fo b) (mgen n (f * fi) X) = Ok (mgen n (f * fo) Y) /\
  forall i t, i < n -> t < f ->
    fwdDense F (mgen fi fo W) (mgen 1 fo b) (mgen 1 fi (fun _ => frameOf fi t (X i))) = Ok (mgen 1 fo (fun _ => frameOf fo t (Y i))))%nat.
Proof. exact tddense_frames. Qed.
Print Assumptions C54_dense_frames.

Theorem C54_dot_frames : (forall (F : FOps) n f fi fo W X, 0 < fi -> exists Y,
  fwdTDDot F fi fo (mgen fi fo W) (mgen n (f * fi) X) = Ok (mgen n (f * fo) Y) /\
  forall i t, i < n -> t < f ->
    fwdDot F (mgen fi fo W) (mgen 1 fi (fun _ => frameOf fi t (X i))) = Ok (mgen 1 fo (fun _ => frameOf fo t (Y i))))%nat.
Proof. exact tddot_frames. Qed.
Print Assumptions C54_dot_frames.

Theorem C54_bias_frames : (forall (F : FOps) n f m b X, 0 < m -> exists Y,
  fwdTDBias F m (mgen 1 m b) (mgen n (f * m) X) = Ok (mgen n (f * m) Y) /\
  forall i t, i < n -> t < f -> forall j, j < m -> frameOf m t (Y i) j = fadd F (frameOf m t (X i) j) (b 0 j))%nat.
Proof. exact tdbias_frames. Qed.
Print Assumptions C54_bias_frames.

Theorem C54_dense_gradients : forall jk first n f fi fo (W b X G : nat -> nat -> R) gin, (0 < n)%nat -> (0 < f)%nat -> (0 < fi)%nat -> (0 < fo)%nat ->
  exists gw gb gi,
    bwdTDDense (ROps jk) fi fo first (mgen fi fo W) (mgen n (f * fi) X) (mgen n (f * fo) G) gin = Ok (mgen fi fo gw, mgen 1 fo gb, if first then gin else mgen n (f * fi) gi) /\
    gradOf fi fo (INR n) (fun W' => obj G (fwdTDDense (ROps jk) fi fo (mgen fi fo W') (mgen 1 fo b) (mgen n (f * fi) X))) W gw /\
    gradOf 1 fo (INR n * INR f) (fun b' => obj G (fwdTDDense (ROps jk) fi fo (mgen fi fo W) (mgen 1 fo b') (mgen n (f * fi) X))) b gb /\
    gradOf n (f * fi) 1 (fun X' => obj G (fwdTDDense (ROps jk) fi fo (mgen fi fo W) (mgen 1 fo b) (mgen n (f * fi) X'))) X gi.
Proof. exact tddense_gradients. Qed.
Print Assumptions C54_dense_gradients.

Theorem C54_dot_gradients : forall jk first n f fi fo (W X G : nat -> nat -> R) gin, (0 < n)%nat -> (0 < fi)%nat -> (0 < fo)%nat ->
  exists gw gi,
    bwdTDDot (ROps jk) fi fo first (mgen fi fo W) (mgen n (f * fi) X) (mgen n (f * fo) G) gin = Ok (mgen fi fo gw, if first then gin else mgen n (f * fi) gi) /\
    gradOf fi fo (INR n) (fun W' => obj G (fwdTDDot (ROps jk) fi fo (mgen fi fo W') (mgen n (f * fi) X))) W gw /\
    gradOf n (f * fi) 1 (fun X' => obj G (fwdTDDot (ROps jk) fi fo (mgen fi fo W) (mgen n (f * fi) X'))) X gi.
Proof. exact tddot_gradients. Qed.
Print Assumptions C54_dot_gradients.

Theorem C54_bias_gradients : forall jk first n f m (b X G : nat -> nat -> R) gin, (0 < n)%nat -> (0 < f)%nat -> (0 < m)%nat ->
  exists gb gi,
    bwdTDBias (ROps jk) m first (mgen n (f * m) G) gin = Ok (mgen 1 m gb, if first then gin else mgen n (f * m) gi) /\
    gradOf 1 m (INR n * INR f) (fun b' => obj G (fwdTDBias (ROps jk) m (mgen 1 m b') (mgen n (f * m) X))) b gb /\
    gradOf n (f * m) 1 (fun X' => obj G (fwdTDBias (ROps jk) m (mgen 1 m b) (mgen n (f * m) X'))) X gi.
Proof. exact tdbias_gradients. Qed.
Print Assumptions C54_bias_gradients.

(* 1 sample of 2 frames of 2 values, weights 2 x 1 *)
Example C54_case :
  match fwdTDDense QOps 2 1 (mkMat 2 1 [10; 1]%Q) (mkMat 1 1 [100]%Q) (mkMat 1 4 [1; 2; 3; 4]%Q) with
  | Ok y => Some (mrows y, mcols y, map Qred (mdata y)) | Err _ => None end = Some (1%nat, 2%nat, [112; 134]%Q).
Proof. vm_compute. reflexivity. Qed.

(** C57 *)
Theorem C57_gated_forward : (forall (F : FOps) a1 a2 n h X out, mwf out ->
  fwdGated F (Some a1) (Some a2) (mgen n (2 * h) X) out =
  Ok (mgen n h (fun i c => fmul F (act_apply F a1 (X i c)) (act_apply F a2 (X i (c + h))))))%nat.
Proof. exact fwdGated_gen. Qed.
Print Assumptions C57_gated_forward.

Theorem C57_gated_odd_width : (forall (F : FOps) a1 a2 n k X out, Nat.odd k = true -> fwdGated F a1 a2 (mgen n k X) out = Err EAssert)%nat.
Proof. exact fwdGated_odd. Qed.
Print Assumptions C57_gated_odd_width.

Theorem C57_gated_gradient : forall jk a1 a2 n h X G out gin, mwf out -> mwf gin -> ~ odd_derivative a1 -> ~ odd_derivative a2 ->
  (forall i j, (i < n)%nat -> (j < h)%nat -> ~ In (X i j) (corners a1) /\ ~ In (X i (j + h)%nat) (corners a2)) ->
  exists gi, bwdGated (ROps jk) (Some a1) (Some a2) false (mgen n (2 * h) X) (mgen n h G) gin = Ok (mgen n (2 * h) gi) /\
  gradOf n (2 * h) 1 (fun X' => obj G (fwdGated (ROps jk) (Some a1) (Some a2) (mgen n (2 * h) X') out)) X gi.
Proof. exact gated_gradient. Qed.
Print Assumptions C57_gated_gradient.

Theorem C57_activation_gradient : forall jk a n k X G out gin, mwf out -> mwf gin -> ~ odd_derivative a ->
  (forall i j, (i < n)%nat -> (j < k)%nat -> ~ In (X i j) (corners a)) ->
  exists gi, bwdAct (ROps jk) (Some a) false (mgen n k X) (mgen n k G) gin = Ok (mgen n k gi) /\
  gradOf n k 1 (fun X' => obj G (fwdAct (ROps jk) (Some a) (mgen n k X') out)) X gi.
Proof. exact activation_gradient. Qed.
Print Assumptions C57_activation_gradient.

Example C57_case :
  match fwdGated QOps (Some AIdentity) (Some ARelu) (mkMat 1 4 [1; 2; 3; -4]%Q) (mempty QOps) with
  | Ok y => Some (map Qred (mdata y)) | Err _ => None end = Some [3; 0]%Q.
Proof. vm_compute. reflexivity. Qed.
