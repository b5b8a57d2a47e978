(* P_Init.v - property theorems about constructors and initialisers (C85) *)
From Coq Require Import String List Arith Bool ZArith Reals QArith.
From Verif Require Import Base Scalar Mat SpecMat LayMat LayImg LayRnn Layer Loss Optim Net NetTrain Metrics SpecInit InitProofs.
Import ListNotations.

(** C85.  The full statement (every layer built is usable) is false: an unknown initialiser name is accepted and leaves no weights. *)
@thmn C85_unknown_refuted = unknown_initialiser | forall F : FOps,
(* members, weights and biases of a new layer, for every class: cells of the named initialisers follow [initTable] (SpecInit.v), in
   row order, the biases using the draws that follow those of the weights *)
@thmn C85_parameters = new_layer | forall F : FOps,
@thmn C85_gradients = new_gradients | forall F : FOps,
@thmn C85_simple_rnn = new_simple_rnn | forall F : FOps,
@thmn C85_simple_rnn_training = simple_rnn_redraws | forall F : FOps,
@thmn C85_constructors_succeed = new_succeeds | forall F : FOps,
(* draws between -1 and 1 stay within the bound of the initialiser *)
@thmr C85_dense_bounds = dense_bounds | forall jk : R, | F = (ROps jk)
@thmr C85_convolution_bounds = conv_bounds | forall jk : R, | F = (ROps jk)
@thmn C85_network = new_network
@thmn C85_metrics = new_metrics | forall F : FOps,
@thmn C85_trainer = new_trainer | forall F : FOps,

Example C85_case : match layNew QOps (mkRnd QOps (fun q => Z.of_nat (q + 1) # 8)%Q (fun _ => 0%Z)) (KTDDense 1 2) "Uniform" "Uniform" with
  Ok l => (mdata (lw l), mdata (lb l)) | Err _ => ([], []) end = ([1 # 8; 2 # 8], [3 # 8; 4 # 8])%Q.
Proof. vm_compute. reflexivity. Qed.
