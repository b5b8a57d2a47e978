(* P_Data.v - property theorems about the scalers, the metrics and k-means (C62 - C66) *)
From Coq Require Import List Arith Bool ZArith QArith Reals Lia Lra.
From Flocq Require Import IEEE754.BinarySingleNaN.
From Verif Require Import Base Scalar B32Facts Mat SpecMat SpecReal SpecData Loss SpecLoss Scaler ScalerProofs Metrics MetricsProofs KMeans KMeansProofs KMeansProofs2.
Import ListNotations.
Local Open Scope R_scope.

(** C62.  Columns that are not constant are mapped onto [0,1]; constant ones are left alone, hence outside in general. *)
@thm C62_range_partial = mm_range
@thm C62_order = mm_order
@thm C62_constant_column = mm_constant
@thm C62_range_refuted = mm_refuted
@thm C62_float_overflow_refuted = mm_float_refuted
@thm C62_transform_formula = mm_real
@thmn C62_float_formula_fit = mmFit_gen
@thmn C62_float_formula_transform = mmTransform_gen
@thmn C62_never_fails = mm_ready
@thmn C62_wider_data_asserts = mm_wrong_width
Example C62_case : match (s <- mmFit QOps (mgen 3 2 (fun i j => inject_Z (Z.of_nat (i * i + j)))) ;; mmTransform QOps s (mgen 3 2 (fun i j => inject_Z (Z.of_nat (i * i + j))))) with
  Ok m => Some (mdata m) | Err _ => None end = Some [0; 0; (1#4); (1#4); 1; 1]%Q.
Proof. vm_compute. reflexivity. Qed.

(** C63 *)
@thm C63_normalises = std_normalises
@thm C63_formula = std_real
@thm C63_float_formula_fit = stdFit_gen
@thm C63_float_formula_transform = stdTransform_gen
@thm C63_float_finite_refuted = std_float_refuted
@thm C63_empty_refuted = std_empty_refuted
Example C63_case : exists s' y, stdFit (ROps 0) (stdNew _) (mgen 2 1 (fun i _ => INR i)) = Ok s' /\
  stdTransform (ROps 0) s' (mgen 2 1 (fun i _ => INR i)) = Ok (mgen 2 1 y) /\ variance 2 (fun i => y i 0%nat) = 1.
Proof.
  destruct (std_normalises 0 (stdNew _) 2 1 (fun i _ => INR i)) as (s' & y & A & B & H); [lia|reflexivity|reflexivity|].
  exists s', y. split; [exact A|]. split; [exact B|]. apply (H 0%nat); [lia|]. exists 0%nat, 1%nat. simpl. repeat split; try lia. lra.
Qed.

(** C64 *)
@thm C64_counts_and_accuracy = met_real
@thm C64_rates_partial = met_rates
@thm C64_guessed_class_count = met_guess
@thmn C64_any_arithmetic = met_counts | forall F : FOps, let tally := MetricsProofs.tally F in
@thm C64_label_in_range = labelOf_lt
@thm C64_label_exact = labelOf_id
@thm C64_float_counts = met_float_counts
@thm C64_out_of_range_refuted = met_out_of_range_refuted
@thm C64_absent_class_refuted = met_absent_refuted
Example C64_case : match metCompute QOps (metNew _) (mgen 4 1 (fun i _ => inject_Z (Z.of_nat (i mod 2)))) (mgen 4 1 (fun i _ => inject_Z (Z.of_nat (i / 3)))) 2 with
  Ok m => Some (mAcc m, mdata (mConf m)) | Err _ => None end = Some (75, [2; 0; 1; 1])%Q.
Proof. vm_compute. reflexivity. Qed.

(** C65 *)
@thm C65_nearest_partial = km_nearest
@thm C65_nearest_float_partial = km_nearest_float
@thm C65_distance = kmDist_R
@thm C65_far_sample_refuted = km_far_refuted
@thmn C65_far_sample_asserts = kmPredict_far | forall (F : FOps) (cabs : F -> res F),
@thmn C65_no_references = kmPredict_empty | forall (F : FOps) (cabs : F -> res F),
@thm C65_accuracy = km_accuracy
Example C65_case : match kmPredict QOps (absFloat QOps) (@mkKM QOps (mgen 3 1 (fun r _ => inject_Z (Z.of_nat (10 * r)))) (mgen 3 1 (fun r _ => inject_Z (Z.of_nat (r + 4)))) LMeanSquaredError)
    (mgen 3 1 (fun i _ => inject_Z (Z.of_nat (5 * i + 1)))) (mempty QOps) with Ok m => Some (mdata m) | Err _ => None end = Some [4; 5; 5]%Q.
Proof. vm_compute. reflexivity. Qed.

(** C66.  Every run of fit that returns (any data, batch size, number of epochs, random outcomes). *)
@thm C66_training = fit_good
@thm C66_initial_references = init_good
@thm C66_no_samples = init_no_samples
Example C66_case : match kmFit QOps (absFloat QOps) 1024 2 2 true (@mkKM QOps (mgen 2 1 (fun _ _ => 0%Q)) (mgen 2 1 (fun _ _ => 0%Q)) LMeanSquaredError)
    (mgen 4 1 (fun i _ => inject_Z (Z.of_nat (10 * i)))) (mgen 4 1 (fun i _ => inject_Z (Z.of_nat (i / 2)))) None (fun i => i * 3)%nat (fun _ i => i) with
  Ok (k, seen) => Some (mdata (kVec k), mdata (kCls k), List.map (fun s => (mdata (kVec (seenKm s)), seenTrain s)) seen) | Err _ => None end =
  Some ([5; 30]%Q, [0; 1]%Q, [([5; 30]%Q, 100%Q); ([5; 30]%Q, 100%Q)]).
Proof. vm_compute. reflexivity. Qed.
