(* P_Guard.v - property theorems about arguments of the wrong size (C73, C74) *)
From Coq Require Import String List Arith Bool ZArith.
From Verif Require Import Base Scalar Mat SpecMat Act LayMat LayImg LayRnn Loss Optim KMeans Layer Net SpecGuard GuardProofs GuardProofs2 MatHeap MiscProofs.
Import ListNotations.
Local Open Scope nat_scope.

(** C73.  The full statement names every operation; copyInto has no check (C73_copyInto_refuted). *)
@thm C73_read_cell = get2_guarded | forall (F : FOps), | M = (mat F)
@thm C73_read_flat = get1_guarded | forall (F : FOps), | M = (mat F)
@thm C73_write_cell = set2_guarded | forall (F : FOps), | M = (mat F)
@thm C73_write_flat = set1_guarded | forall (F : FOps), | M = (mat F)
@thm C73_elementwise = elementwise_guarded | forall F : FOps, | M = (mat F); sameShape = (sameShape F); truthFits = (truthFits F); gradientFits = (gradientFits F)
@thm C73_product = product_guarded | forall F : FOps, | M = (mat F)
@thm C73_row_views = rows_guarded | forall F : FOps, | M = (mat F)
@thm C73_reshape = reshape_guarded | forall F : FOps, | M = (mat F)
@thm C73_broadcasts = broadcast_guarded | forall F : FOps, | M = (mat F)
@thm C73_argmax = argmax_guarded | forall F : FOps, | M = (mat F)
@thm C73_row_permutation = permutation_guarded | forall F : FOps, | M = (mat F)
@thm C73_channelwise = channelwise_mismatch | forall F : FOps, | M = (mat F)
@thm C73_in_place = in_place_mismatch
@thm C73_default = default_guarded
@thm C73_copyInto_refuted = copyInto_refuted
@thm C73_copyInto_overflow = copyInto_unguarded | forall F : FOps, | M = (mat F)
Example C73_case : guarded (mmul ZOps (mkMat 1 2 [3; 4]%Z) (mkMat 2 1 [5; 6]%Z)) True /\ mmul ZOps (mkMat 1 2 [3; 4]%Z) (mkMat 2 1 [5; 6]%Z) = Ok (mkMat 1 1 [39%Z]) /\
  mmul ZOps (mkMat 1 2 [3; 4]%Z) (mkMat 1 2 [5; 6]%Z) = Err EAssert /\ copyInto ZOps (mkMat 2 1 [3; 4]%Z) (mkMat 2 1 [5; 6]%Z) 1 = Err EOob /\ mwf (mkMat 2 1 [3; 4]%Z).
Proof. split; [split; [intros _; eexists; reflexivity|intros []; exact I]|]. repeat split. Qed.

(** C74.  The pooling and padding classes do not check (C74_pooling_refuted). *)
@thm C74_dense = dense_guarded | forall F : FOps, | M = (mat F)
@thm C74_dot = dot_guarded | forall F : FOps, | M = (mat F)
@thm C74_bias = bias_guarded | forall F : FOps, | M = (mat F)
@thm C74_gated = gated_guarded | forall F : FOps, | M = (mat F)
@thm C74_convolution = conv_mismatch | forall F : FOps, | M = (mat F)
@thm C74_convolution_gradients = conv_backward_shapes | forall F : FOps, | M = (mat F); oR = (LayImg.oR); oC = (LayImg.oC)
@thm C74_convolution_sizes = convOk_sizes
@thm C74_channel_bias = channel_mismatch | forall F : FOps, | M = (mat F)
@thm C74_loss = compute_mismatch | forall F : FOps, | M = (mat F); sameShape = (sameShape F); truthFits = (truthFits F); gradientFits = (gradientFits F)
@thm C74_loss_gradient = gradient_mismatch | forall F : FOps, | M = (mat F); sameShape = (sameShape F); truthFits = (truthFits F); gradientFits = (gradientFits F)
@thm C74_optimizers = optimize_mismatch | forall F : FOps, | M = (mat F); sameShape = (sameShape F); truthFits = (truthFits F); gradientFits = (gradientFits F)
@thm C74_kmeans_distance = kmDist_mismatch | forall F : FOps, | M = (mat F)
@thm C74_replace = replace_mismatch | forall F : FOps, | M = (mat F)
@thm C74_pooling_refuted = pooling_refuted
Example C74_case : fwdDense ZOps (mkMat 2 1 [3; 4]%Z) (mkMat 1 1 [5%Z]) (mkMat 1 2 [1; 2]%Z) = Ok (mkMat 1 1 [16%Z]) /\ fwdDense ZOps (mkMat 2 1 [3; 4]%Z) (mkMat 1 1 [5%Z]) (mkMat 1 3 [1; 2; 3]%Z) = Err EAssert /\
  ~ truthFits ZOps LMeanSquaredError (mkMat 1 2 [1; 2]%Z) (mkMat 1 3 [1; 2; 3]%Z) /\ truthFits ZOps LSparseCategoricalCrossEntropy (mkMat 1 2 [1; 2]%Z) (mkMat 1 1 [1%Z]) /\ convOk (mkConv 3 3 1 3 3 1 1 1) = Ok tt.
Proof. split; [reflexivity|]. split; [reflexivity|]. split; [intros (_ & C); discriminate C|]. repeat split. Qed.
