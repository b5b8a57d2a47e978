(* P_Guard.v - property theorems about arguments of the wrong size (C73, C74) *)
From Coq Require Import String List Arith Bool ZArith.
From Verif Require Import Base Scalar Mat SpecMat Act LayMat LayImg LayRnn Loss Optim KMeans Layer Net SpecGuard GuardProofs GuardProofs2 MatHeap MiscProofs.
Import ListNotations.
Local Open Scope nat_scope.

(** C73.  The full statement names every operation; copyInto has no check (C73_copyInto_refuted). *)
Theorem C73_read_cell : forall (F : FOps), forall (m : (mat F)) r c, mwf m -> guarded (mget2 m r c) (r < mrows m /\ c < mcols m).
Proof. exact get2_guarded. Qed.
Print Assumptions C73_read_cell.

Theorem C73_read_flat : forall (F : FOps), forall (m : (mat F)) i, mwf m -> guarded (mget1 m i) (i < mrows m * mcols m).
Proof. exact get1_guarded. Qed.
Print Assumptions C73_read_flat.

Theorem C73_write_cell : forall (F : FOps), forall (m : (mat F)) r c v, mwf m -> guarded (mset2 m r c v) (r < mrows m /\ c < mcols m).
Proof. exact set2_guarded. Qed.
Print Assumptions C73_write_cell.

Theorem C73_write_flat : forall (F : FOps), forall (m : (mat F)) i v, mwf m -> guarded (mset1 m i v) (i < mrows m * mcols m).
Proof. exact set1_guarded. Qed.
Print Assumptions C73_write_flat.

Theorem C73_elementwise : forall F : FOps, forall a b : (mat F), mwf a -> mwf b ->
  guarded (maddM F a b) ((sameShape F) a b) /\ guarded (msubM F a b) ((sameShape F) a b) /\ guarded (mcwiseProduct F a b) ((sameShape F) a b) /\ guarded (mcwiseQuotient F a b) ((sameShape F) a b).
Proof. exact elementwise_guarded. Qed.
Print Assumptions C73_elementwise.

Theorem C73_product : forall F : FOps, forall a b : (mat F), mwf a -> mwf b -> guarded (mmul F a b) (mcols a = mrows b).
Proof. exact product_guarded. Qed.
Print Assumptions C73_product.

Theorem C73_row_views : forall F : FOps, forall (m : (mat F)) s e i, mwf m -> guarded (viewRow F m s e) (s < e <= mrows m) /\ guarded (mrow F m i) (i < mrows m).
Proof. exact rows_guarded. Qed.
Print Assumptions C73_row_views.

Theorem C73_reshape : forall F : FOps, forall (m : (mat F)) r c, guarded (viewResize F m r c) (mrows m * mcols m = r * c).
Proof. exact reshape_guarded. Qed.
Print Assumptions C73_reshape.

Theorem C73_broadcasts : forall F : FOps, forall m d : (mat F), mwf m -> mwf d ->
  guarded (rowWiseMult F m d) (mcols d = 1 /\ mrows d = mrows m) /\ guarded (rowWiseDivide F m d) (mcols d = 1 /\ mrows d = mrows m) /\ guarded (rowWiseAdd F m d) (mrows d = 1 /\ mcols d = mcols m).
Proof. exact broadcast_guarded. Qed.
Print Assumptions C73_broadcasts.

Theorem C73_argmax : forall F : FOps, forall m : (mat F), mwf m -> guarded (argmax F m) (mrows m = 1).
Proof. exact argmax_guarded. Qed.
Print Assumptions C73_argmax.

Theorem C73_row_permutation : forall F : FOps, forall v (m p : (mat F)), mwf m -> mwf p -> guarded (applyRowPermutation F v m p) (length v = mrows m /\ Forall (fun i => i < mrows m) v).
Proof. exact permutation_guarded. Qed.
Print Assumptions C73_row_permutation.

Theorem C73_channelwise : forall F : FOps, forall mIn nS nH nR nC w, (msize w <> nH \/ mrows mIn <> nS \/ msize mIn <> nS * nH * nR * nC -> channelWiseAdd F mIn nS nH nR nC w = Err EAssert) /\
  (mrows mIn <> nS \/ msize mIn <> nS * nH * nR * nC -> channelWiseMean F mIn nS nH nR nC = Err EAssert).
Proof. exact channelwise_mismatch. Qed.
Print Assumptions C73_channelwise.

Theorem C73_in_place : forall (F : FOps) f (m : mem F) d s od os, oget F m d = Ok od -> oget F m s = Ok os ->
  (oR od <> oR os \/ oC od <> oC os -> exec F m (OpZip F f d s) = Err EAssert) /\ (oC od <> oR os -> exec F m (OpMul F d s) = Err EAssert).
Proof. exact in_place_mismatch. Qed.
Print Assumptions C73_in_place.

Theorem C73_default : forall (F : FOps) (b : mat F) i j, mwf b -> mget1 (mempty F) i = Err EAssert /\ mget2 (mempty F) i j = Err EAssert /\ guarded (mmul F (mempty F) b) (mrows b = 0).
Proof. exact default_guarded. Qed.
Print Assumptions C73_default.

Theorem C73_copyInto_refuted : exists (a m : mat ZOps) start, mwf a /\ mwf m /\ mcols a = mcols m /\ mrows m < start + mrows a /\ copyInto ZOps a m start = Err EOob.
Proof. exact copyInto_refuted. Qed.
Print Assumptions C73_copyInto_refuted.

Theorem C73_copyInto_overflow : forall F : FOps, forall (a m : (mat F)) start, mwf a -> mwf m -> mcols a = mcols m -> 0 < mcols a -> start <= mrows m -> start + mrows a > mrows m -> copyInto F a m start = Err EOob.
Proof. exact copyInto_unguarded. Qed.
Print Assumptions C73_copyInto_overflow.

Example C73_case : guarded (mmul ZOps (mkMat 1 2 [3; 4]%Z) (mkMat 2 1 [5; 6]%Z)) True /\ mmul ZOps (mkMat 1 2 [3; 4]%Z) (mkMat 2 1 [5; 6]%Z) = Ok (mkMat 1 1 [39%Z]) /\
  mmul ZOps (mkMat 1 2 [3; 4]%Z) (mkMat 1 2 [5; 6]%Z) = Err EAssert /\ copyInto ZOps (mkMat 2 1 [3; 4]%Z) (mkMat 2 1 [5; 6]%Z) 1 = Err EOob /\ mwf (mkMat 2 1 [3; 4]%Z).
Proof. split; [split; [intros _; eexists; reflexivity|intros []; exact I]|]. repeat split. Qed.

(** C74.  The pooling and padding classes do not check (C74_pooling_refuted). *)
Theorem C74_dense : forall F : FOps, forall w b mIn, mwf w -> mwf b -> mwf mIn -> mrows b = 1 -> mcols b = mcols w -> guarded (fwdDense F w b mIn) (mcols mIn = mrows w).
Proof. exact dense_guarded. Qed.
Print Assumptions C74_dense.

Theorem C74_dot : forall F : FOps, forall w mIn, mwf w -> mwf mIn -> guarded (fwdDot F w mIn) (mcols mIn = mrows w).
Proof. exact dot_guarded. Qed.
Print Assumptions C74_dot.

Theorem C74_bias : forall F : FOps, forall name g b mIn, mwf b -> mwf mIn -> msize b <> 0 -> guarded (fwdBias F name g b mIn) (mrows b = 1 /\ mcols b = mcols mIn).
Proof. exact bias_guarded. Qed.
Print Assumptions C74_bias.

Theorem C74_gated : forall F : FOps, forall a1 a2 mIn out, mwf mIn -> mwf out -> guarded (fwdGated F (Some a1) (Some a2) mIn out) (Nat.even (mcols mIn) = true).
Proof. exact gated_guarded. Qed.
Print Assumptions C74_gated.

Theorem C74_convolution : forall F : FOps, forall v fast w col mIn, convOk v = Ok tt -> mcols mIn <> vI v * vR v * vC v -> fwdConv F v fast w col mIn = Err EAssert.
Proof. exact conv_mismatch. Qed.
Print Assumptions C74_convolution.

Theorem C74_convolution_gradients : forall F : FOps, forall (l l' : layer F) v fast mIn mG gin gi, lk l = KConv v fast -> layBackward F l mIn mG gin = Ok (l', gi) ->
  mrows mG = lns l /\ mcols mG = (LayImg.oR) v * (LayImg.oC) v * vO v /\ mrows (lgw l') = mrows (lw l) /\ mcols (lgw l') = mcols (lw l) /\
  (lfirst l = true /\ gi = gin \/ lfirst l = false /\ mrows gi = mrows mIn /\ mcols gi = mcols mIn).
Proof. exact conv_backward_shapes. Qed.
Print Assumptions C74_convolution_gradients.

Theorem C74_convolution_sizes : forall v, convOk v = Ok tt <-> 2 * (vkr v / 2) <= vR v /\ 2 * (vkc v / 2) <= vC v.
Proof. exact convOk_sizes. Qed.
Print Assumptions C74_convolution_sizes.

Theorem C74_channel_bias : forall F : FOps, forall nR nC nH b mIn, 0 < mrows mIn -> mcols mIn <> nH * nR * nC -> fwdChannelBias F nR nC nH b mIn = Err EAssert.
Proof. exact channel_mismatch. Qed.
Print Assumptions C74_channel_bias.

Theorem C74_loss : forall F : FOps, forall cabs k b p t l, ~ (truthFits F) k p t -> compute F cabs k b p t l = Err EAssert.
Proof. exact compute_mismatch. Qed.
Print Assumptions C74_loss.

Theorem C74_loss_gradient : forall F : FOps, forall k b p t g, ~ (gradientFits F) k p t -> compute_gradient F k b p t g = Err EAssert.
Proof. exact gradient_mismatch. Qed.
Print Assumptions C74_loss_gradient.

Theorem C74_optimizers : forall F : FOps, forall cabs o w dw, selfChecking (okind F o) = true -> ~ sameShape F w dw -> optimize F cabs o w dw = Err EAssert.
Proof. exact optimize_mismatch. Qed.
Print Assumptions C74_optimizers.

Theorem C74_kmeans_distance : forall F : FOps, forall cabs l a b, ~ (mrows a = 1 /\ mrows b = 1 /\ mcols a = mcols b) -> kmDist F cabs l a b = Err EAssert.
Proof. exact kmDist_mismatch. Qed.
Print Assumptions C74_kmeans_distance.

Theorem C74_replace : forall F : FOps, forall h n i a, length (nlay n) <= i -> netReplace F h n i a = Err EAssert.
Proof. exact replace_mismatch. Qed.
Print Assumptions C74_replace.

Theorem C74_pooling_refuted : let p := mkPool 2 2 1 2 2 in let narrow := mkMat 1 3 [1; 2; 3]%Z in let wide := mkMat 1 5 [1; 2; 3; 4; 5]%Z in let e := mempty ZOps in
  fwdMaxPool ZOps p false e narrow e = Err EOob /\ fwdAvgPool ZOps p narrow e = Err EOob /\ fwdGlobalAvgPool ZOps 2 2 1 narrow e = Err EOob /\ fwdZeroPad ZOps 2 2 1 1 narrow e = Err EOob /\
  (exists m, fwdMaxPool ZOps p false e wide e = Ok (e, m)) /\ (exists m, fwdAvgPool ZOps p wide e = Ok m) /\ (exists m, fwdGlobalAvgPool ZOps 2 2 1 wide e = Ok m) /\ (exists m, fwdZeroPad ZOps 2 2 1 1 wide e = Ok m) /\ (exists m, fwdGlobalMaxPool ZOps 2 2 1 false e wide e = Ok (e, m)).
Proof. exact pooling_refuted. Qed.
Print Assumptions C74_pooling_refuted.

Example C74_case : fwdDense ZOps (mkMat 2 1 [3; 4]%Z) (mkMat 1 1 [5%Z]) (mkMat 1 2 [1; 2]%Z) = Ok (mkMat 1 1 [16%Z]) /\ fwdDense ZOps (mkMat 2 1 [3; 4]%Z) (mkMat 1 1 [5%Z]) (mkMat 1 3 [1; 2; 3]%Z) = Err EAssert /\
  ~ truthFits ZOps LMeanSquaredError (mkMat 1 2 [1; 2]%Z) (mkMat 1 3 [1; 2; 3]%Z) /\ truthFits ZOps LSparseCategoricalCrossEntropy (mkMat 1 2 [1; 2]%Z) (mkMat 1 1 [1%Z]) /\ convOk (mkConv 3 3 1 3 3 1 1 1) = Ok tt.
Proof. split; [reflexivity|]. split; [reflexivity|]. split; [intros (_ & C); discriminate C|]. repeat split. Qed.
