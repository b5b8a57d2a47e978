(* P_Data.v - property theorems about the scalers, the metrics and k-means (C62 - C66) *)
From Coq Require Import List Arith Bool ZArith QArith Reals Lia Lra.
From Flocq Require Import IEEE754.BinarySingleNaN.
From Verif Require Import Base Scalar B32Facts Mat SpecMat SpecReal SpecData Loss SpecLoss Scaler ScalerProofs Metrics MetricsProofs KMeans KMeansProofs KMeansProofs2.
Import ListNotations.
Local Open Scope R_scope.

(** C62.  Columns that are not constant are mapped onto [0,1]; constant ones are left alone, hence outside in general. *)
Theorem C62_range_partial : forall jk n k (a : nat -> nat -> R), (0 < n)%nat -> exists s (y : nat -> nat -> R),
  mmFit (ROps jk) (mgen n k a) = Ok s /\ mmTransform (ROps jk) s (mgen n k a) = Ok (mgen n k y) /\
  forall j, (j < k)%nat -> (exists i i', (i < n)%nat /\ (i' < n)%nat /\ a i j <> a i' j) ->
    (forall i, (i < n)%nat -> 0 <= y i j <= 1) /\
    (forall i, (i < n)%nat -> (forall i', (i' < n)%nat -> a i j <= a i' j) -> y i j = 0) /\
    (forall i, (i < n)%nat -> (forall i', (i' < n)%nat -> a i' j <= a i j) -> y i j = 1).
Proof. exact mm_range. Qed.
Print Assumptions C62_range_partial.

Theorem C62_order : forall jk n k (a : nat -> nat -> R) n' x, (0 < n)%nat -> exists s (y : nat -> nat -> R),
  mmFit (ROps jk) (mgen n k a) = Ok s /\ mmTransform (ROps jk) s (mgen n' k x) = Ok (mgen n' k y) /\
  forall i i' j, (i < n')%nat -> (i' < n')%nat -> (j < k)%nat -> (x i j < x i' j <-> y i j < y i' j).
Proof. exact mm_order. Qed.
Print Assumptions C62_order.

Theorem C62_constant_column : forall jk n k (a : nat -> nat -> R), (0 < n)%nat -> exists s (y : nat -> nat -> R),
  mmFit (ROps jk) (mgen n k a) = Ok s /\ mmTransform (ROps jk) s (mgen n k a) = Ok (mgen n k y) /\
  forall j, (j < k)%nat -> (forall i i', (i < n)%nat -> (i' < n)%nat -> a i j = a i' j) -> forall i, (i < n)%nat -> y i j = a i j.
Proof. exact mm_constant. Qed.
Print Assumptions C62_constant_column.

Theorem C62_range_refuted : forall jk, exists (a : nat -> nat -> R) s (y : nat -> nat -> R),
  mmFit (ROps jk) (mgen 2 1 a) = Ok s /\ mmTransform (ROps jk) s (mgen 2 1 a) = Ok (mgen 2 1 y) /\ ~ (0 <= y 0%nat 0%nat <= 1).
Proof. exact mm_refuted. Qed.
Print Assumptions C62_range_refuted.

Theorem C62_float_overflow_refuted : forall lm pw jk, exists (a : nat -> nat -> b32) s (y : nat -> nat -> b32),
  (forall i, is_finite (a i 0%nat) = true) /\
  mmFit (B32Ops lm pw jk) (mgen 2 1 a) = Ok s /\ mmTransform (B32Ops lm pw jk) s (mgen 2 1 a) = Ok (mgen 2 1 y) /\ b32_isnan (y 1%nat 0%nat) = true.
Proof. exact mm_float_refuted. Qed.
Print Assumptions C62_float_overflow_refuted.

Theorem C62_transform_formula : forall jk n k (a : nat -> nat -> R), (0 < n)%nat -> exists s lo hi,
  mmFit (ROps jk) (mgen n k a) = Ok s /\
  (forall j, (j < k)%nat -> (forall i, (i < n)%nat -> lo j <= a i j <= hi j) /\
                            (exists i, (i < n)%nat /\ a i j = lo j) /\ (exists i, (i < n)%nat /\ a i j = hi j)) /\
  (forall n' x, exists y : nat -> nat -> R, mmTransform (ROps jk) s (mgen n' k x) = Ok (mgen n' k y) /\
     forall i j, (i < n')%nat -> (j < k)%nat ->
       (lo j < hi j -> y i j = (x i j - lo j) / (hi j - lo j)) /\ (lo j = hi j -> y i j = x i j)).
Proof. exact mm_real. Qed.
Print Assumptions C62_transform_formula.

Theorem C62_float_formula_fit : (forall (F : FOps) n k a, 0 < n -> mmFit F (mgen n k a) =
  Ok (mkMM (mgen 1 k (fun _ j => if feq F (colMin F n a j) (colMax F n a j) then f0 F else colMin F n a j))
           (mgen 1 k (fun _ j => if feq F (colMin F n a j) (colMax F n a j) then f1 F else colMax F n a j))))%nat.
Proof. exact mmFit_gen. Qed.
Print Assumptions C62_float_formula_fit.

Theorem C62_float_formula_transform : (forall (F : FOps) n k lo hi x, mmTransform F (mkMM (mgen 1 k lo) (mgen 1 k hi)) (mgen n k x) =
  Ok (mgen n k (fun i j => fdiv F (fsub F (x i j) (lo 0 j)) (fsub F (hi 0 j) (lo 0 j)))))%nat.
Proof. exact mmTransform_gen. Qed.
Print Assumptions C62_float_formula_transform.

Theorem C62_never_fails : (forall (F : FOps) n k a n' x, 0 < n -> exists s y,
  mmFit F (mgen n k a) = Ok s /\ mmTransform F s (mgen n' k x) = Ok (mgen n' k y))%nat.
Proof. exact mm_ready. Qed.
Print Assumptions C62_never_fails.

Theorem C62_wider_data_asserts : (forall (F : FOps) n k lo hi x n', 0 < n' -> k < n ->
  mmTransform F (mkMM (mgen 1 k lo) (mgen 1 k hi)) (mgen n' n x) = Err EAssert)%nat.
Proof. exact mm_wrong_width. Qed.
Print Assumptions C62_wider_data_asserts.

Example C62_case : match (s <- mmFit QOps (mgen 3 2 (fun i j => inject_Z (Z.of_nat (i * i + j)))) ;; mmTransform QOps s (mgen 3 2 (fun i j => inject_Z (Z.of_nat (i * i + j))))) with
  Ok m => Some (mdata m) | Err _ => None end = Some [0; 0; (1#4); (1#4); 1; 1]%Q.
Proof. vm_compute. reflexivity. Qed.

(** C63 *)
Theorem C63_normalises : forall jk s n k (a : nat -> nat -> R), (0 < n)%nat -> mwf (stMean s) -> mwf (stStd s) -> exists s' (y : nat -> nat -> R),
  stdFit (ROps jk) s (mgen n k a) = Ok s' /\ stdTransform (ROps jk) s' (mgen n k a) = Ok (mgen n k y) /\
  forall j, (j < k)%nat ->
    mean n (fun i => y i j) = 0 /\
    ((exists i i', (i < n)%nat /\ (i' < n)%nat /\ a i j <> a i' j) -> variance n (fun i => y i j) = 1) /\
    ((forall i i', (i < n)%nat -> (i' < n)%nat -> a i j = a i' j) -> forall i, (i < n)%nat -> y i j = 0).
Proof. exact std_normalises. Qed.
Print Assumptions C63_normalises.

Theorem C63_formula : forall jk s n k (a : nat -> nat -> R), (0 < n)%nat -> mwf (stMean s) -> mwf (stStd s) -> exists s' (d : nat -> R),
  stdFit (ROps jk) s (mgen n k a) = Ok s' /\
  (forall j, d j = if Req_EM_T (variance n (fun i => a i j)) 0 then 1 else sqrt (variance n (fun i => a i j))) /\
  forall n' (x : nat -> nat -> R), stdTransform (ROps jk) s' (mgen n' k x) = Ok (mgen n' k (fun i j => (x i j - mean n (fun i => a i j)) / d j)).
Proof. exact std_real. Qed.
Print Assumptions C63_formula.

Theorem C63_float_formula_fit : forall (F : FOps) s n k a, mwf (stMean s) -> mwf (stStd s) ->
  stdFit F s (mgen n k a) =
  let N := fofN F n in let S j := fsum F n (fun i => a i j) in let Q j := fsum F n (fun i => fmul F (a i j) (a i j)) in
  let var j := fsub F (fdiv F (Q j) N) (fdiv F (fmul F (S j) (S j)) (fmul F N N)) in
  Ok (mkStd (mgen 1 k (fun _ j => fdiv F (S j) N)) (mgen 1 k (fun _ j => if negb (feq F (var j) (f0 F)) then flm F Lsqrt (var j) else f1 F))).
Proof. exact stdFit_gen. Qed.
Print Assumptions C63_float_formula_fit.

Theorem C63_float_formula_transform : forall (F : FOps) n k me sd x, stdTransform F (mkStd (mgen 1 k me) (mgen 1 k sd)) (mgen n k x) =
  Ok (mgen n k (fun i j => fdiv F (fsub F (x i j) (me 0 j)%nat) (sd 0 j)%nat)).
Proof. exact stdTransform_gen. Qed.
Print Assumptions C63_float_formula_transform.

Theorem C63_float_finite_refuted : forall lm pw jk, exists (a : nat -> nat -> b32) s (y : nat -> nat -> b32),
  (forall i, a i 0%nat = b32_of_Z 1833) /\
  stdFit (B32Ops lm pw jk) (stdNew _) (mgen 5 1 a) = Ok s /\ stdTransform (B32Ops lm pw jk) s (mgen 5 1 a) = Ok (mgen 5 1 y) /\
  forall i, (i < 5)%nat -> b32_isnan (y i 0%nat) = true.
Proof. exact std_float_refuted. Qed.
Print Assumptions C63_float_finite_refuted.

Theorem C63_empty_refuted : forall lm pw jk (a : nat -> nat -> b32), exists s, stdFit (B32Ops lm pw jk) (stdNew _) (mgen 0 1 a) = Ok s /\
  match mget1 (stMean s) 0 with Ok v => b32_isnan v | Err _ => false end = true.
Proof. exact std_empty_refuted. Qed.
Print Assumptions C63_empty_refuted.

Example C63_case : exists s' y, stdFit (ROps 0) (stdNew _) (mgen 2 1 (fun i _ => INR i)) = Ok s' /\
  stdTransform (ROps 0) s' (mgen 2 1 (fun i _ => INR i)) = Ok (mgen 2 1 y) /\ variance 2 (fun i => y i 0%nat) = 1.
Proof.
  destruct (std_normalises 0 (stdNew _) 2 1 (fun i _ => INR i)) as (s' & y & A & B & H); [lia|reflexivity|reflexivity|].
  exists s', y. split; [exact A|]. split; [exact B|]. apply (H 0%nat); [lia|]. exists 0%nat, 1%nat. simpl. repeat split; try lia. lra.
Qed.

(** C64 *)
Theorem C64_counts_and_accuracy : forall jk m N nb (r : nat -> nat) (test : nat -> R), mwf (mConf m) -> (0 < nb)%nat -> (forall i, (i < N)%nat -> (r i < nb)%nat) ->
  exists acc bal (norm : nat -> nat -> R),
  metCompute (ROps jk) m (mgen N 1 (fun i _ => INR (r i))) (mgen N 1 (fun i _ => test i)) nb =
    Ok (@mkMet (ROps jk) acc bal (mgen nb nb (fun a b => INR (count N (fun i => (r i =? a)%nat && (labelOf nb (test i) =? b)%nat)))) (mgen nb nb norm)) /\
  acc = INR (count N (fun i => (labelOf nb (test i) =? r i)%nat)) / INR N * 100 /\
  (forall a b, norm a b = INR (count N (fun i => (r i =? a)%nat && (labelOf nb (test i) =? b)%nat)) / INR (count N (fun i => (r i =? a)%nat)) * 100) /\
  bal = rsum nb (fun a => norm a a) / INR nb.
Proof. exact met_real. Qed.
Print Assumptions C64_counts_and_accuracy.

Theorem C64_rates_partial : forall jk m N nb (r : nat -> nat) (test : nat -> R), mwf (mConf m) -> (0 < nb)%nat -> (0 < N)%nat -> (forall i, (i < N)%nat -> (r i < nb)%nat) ->
  exists acc bal conf (norm : nat -> nat -> R),
  metCompute (ROps jk) m (mgen N 1 (fun i _ => INR (r i))) (mgen N 1 (fun i _ => test i)) nb = Ok (@mkMet (ROps jk) acc bal conf (mgen nb nb norm)) /\
  0 <= acc <= 100 /\
  (forall a, (a < nb)%nat -> (exists i, (i < N)%nat /\ r i = a) -> rsum nb (norm a) = 100) /\
  ((forall a, (a < nb)%nat -> exists i, (i < N)%nat /\ r i = a) ->
     bal = rsum nb (recall N r (fun i => labelOf nb (test i))) / INR nb /\ 0 <= bal <= 100).
Proof. exact met_rates. Qed.
Print Assumptions C64_rates_partial.

Theorem C64_guessed_class_count : forall jk m N (r : nat -> nat) (test : nat -> R), (0 < N)%nat -> exists i, (i < N)%nat /\ (forall i', (i' < N)%nat -> (r i' <= r i)%nat) /\
  metCompute (ROps jk) m (mgen N 1 (fun i _ => INR (r i))) (mgen N 1 (fun i _ => test i)) 0 =
  metCompute (ROps jk) m (mgen N 1 (fun i _ => INR (r i))) (mgen N 1 (fun i _ => test i)) (S (r i)).
Proof. exact met_guess. Qed.
Print Assumptions C64_guessed_class_count.

Theorem C64_any_arithmetic : forall F : FOps, let tally := MetricsProofs.tally F in (forall m N c nb (ref test : nat -> nat -> F) (r : nat -> nat) (z : nat -> Z),
  mwf (mConf m) -> 0 < nb -> 0 < c ->
  (forall i, i < N -> ftoZ F (ref (i / c) (i mod c)) = Some (Z.of_nat (r i)) /\ r i < nb) ->
  (forall i, i < N -> ftoZ F (flm F Lround (test (i / c) (i mod c))) = Some (z i)) ->
  exists acc bal norm, metCompute F m (mgen N c ref) (mgen N c test) nb = Ok (mkMet acc bal (mgen nb nb (fun a b =>
     tally (count N (fun i => (r i =? a) && (clampLabel nb (z i) =? b))))) (mgen nb nb norm)) /\
  let conf a b := tally (count N (fun i => (r i =? a) && (clampLabel nb (z i) =? b))) in
  let total := fsum F (nb * nb) (fun k => conf (k / nb) (k mod nb)) in
  acc = fmul F (fdiv F (fsum F nb (fun a => conf a a)) total) (fofZ F 100) /\
  (forall a b, norm a b = fmul F (fdiv F (conf a b) (fsum F nb (conf a))) (fofZ F 100)) /\
  bal = fdiv F (fsum F nb (fun a => norm a a)) (fofN F nb))%nat.
Proof. exact met_counts. Qed.
Print Assumptions C64_any_arithmetic.

Theorem C64_label_in_range : forall nb x, (0 < nb)%nat -> (labelOf nb x < nb)%nat.
Proof. exact labelOf_lt. Qed.
Print Assumptions C64_label_in_range.

Theorem C64_label_exact : forall nb t, (t < nb)%nat -> labelOf nb (INR t) = t.
Proof. exact labelOf_id. Qed.
Print Assumptions C64_label_exact.

Theorem C64_float_counts : forall lm pw jk m N c nb (ref test : nat -> nat -> b32) (r : nat -> nat) (z : nat -> Z),
  mwf (mConf m) -> (0 < nb)%nat -> (0 < c)%nat ->
  (forall i, (i < N)%nat -> b32_toZ (ref (i / c) (i mod c))%nat = Some (Z.of_nat (r i)) /\ (r i < nb)%nat) ->
  (forall i, (i < N)%nat -> b32_toZ (lm Lround (test (i / c) (i mod c))%nat) = Some (z i)) ->
  exists acc bal norm, metCompute (B32Ops lm pw jk) m (mgen N c ref) (mgen N c test) nb =
   Ok (@mkMet (B32Ops lm pw jk) acc bal (mgen nb nb (fun a b => b32_of_Z (Z.min (Z.of_nat (count N (fun i => (r i =? a)%nat && (clampLabel nb (z i) =? b)%nat))) (2 ^ 24)))) norm).
Proof. exact met_float_counts. Qed.
Print Assumptions C64_float_counts.

Theorem C64_out_of_range_refuted : forall jk, exists (r : nat) (t : R) acc bal conf norm, t <> INR r /\ (2 <= t) /\ (r < 2)%nat /\
  metCompute (ROps jk) (metNew _) (mgen 1 1 (fun _ _ => INR r)) (mgen 1 1 (fun _ _ => t)) 2 = Ok (@mkMet (ROps jk) acc bal conf norm) /\ acc = 100.
Proof. exact met_out_of_range_refuted. Qed.
Print Assumptions C64_out_of_range_refuted.

Theorem C64_absent_class_refuted : forall pw jk, exists (ref test : nat -> nat -> b32) m,
  metCompute (B32Ops lm0 pw jk) (metNew _) (mgen 2 1 ref) (mgen 2 1 test) 3 = Ok m /\
  (forall i, (i < 2)%nat -> ref i 0%nat = test i 0%nat) /\ b32_isnan (mBal m) = true.
Proof. exact met_absent_refuted. Qed.
Print Assumptions C64_absent_class_refuted.

Example C64_case : match metCompute QOps (metNew _) (mgen 4 1 (fun i _ => inject_Z (Z.of_nat (i mod 2)))) (mgen 4 1 (fun i _ => inject_Z (Z.of_nat (i / 3)))) 2 with
  Ok m => Some (mAcc m, mdata (mConf m)) | Err _ => None end = Some (75, [2; 0; 1; 1])%Q.
Proof. vm_compute. reflexivity. Qed.

(** C65 *)
Theorem C65_nearest_partial : forall jk cabs nR c (V C : nat -> nat -> R) l n (X : nat -> nat -> R) out (d : nat -> nat -> R), (0 < nR)%nat -> (0 < c)%nat -> mwf out ->
  (forall i r, (i < n)%nat -> (r < nR)%nat -> kmDist (ROps jk) cabs l (mgen 1 c (fun _ => X i)) (mgen 1 c (fun _ => V r)) = Ok (d i r)) ->
  (forall i, (i < n)%nat -> exists r, (r < nR)%nat /\ d i r < IZR (10 ^ 38)) ->
  exists idx, kmPredict (ROps jk) cabs (@mkKM (ROps jk) (mgen nR c V) (mgen nR 1 C) l) (mgen n c X) out = Ok (mgen n 1 (fun i _ => C (idx i) 0%nat)) /\
  forall i, (i < n)%nat -> (idx i < nR)%nat /\ (forall r, (r < nR)%nat -> d i (idx i) <= d i r) /\ (forall r, (r < idx i)%nat -> d i (idx i) < d i r).
Proof. exact km_nearest. Qed.
Print Assumptions C65_nearest_partial.

Theorem C65_nearest_float_partial : forall lm pw jk cabs nR c V C l n X out (d : nat -> nat -> b32), (0 < nR)%nat -> (0 < c)%nat -> mwf out ->
  (forall i r, (i < n)%nat -> (r < nR)%nat -> kmDist (B32Ops lm pw jk) cabs l (mgen 1 c (fun _ => X i)) (mgen 1 c (fun _ => V r)) = Ok (d i r) /\ b32_isnan (d i r) = false) ->
  (forall i, (i < n)%nat -> exists r, (r < nR)%nat /\ b32_val (d i r) < b32_val (farAway (B32Ops lm pw jk))) ->
  exists idx, kmPredict (B32Ops lm pw jk) cabs (@mkKM (B32Ops lm pw jk) (mgen nR c V) (mgen nR 1 C) l) (mgen n c X) out = Ok (mgen n 1 (fun i _ => C (idx i) 0%nat)) /\
  forall i, (i < n)%nat -> (idx i < nR)%nat /\ (forall r, (r < nR)%nat -> b32_val (d i (idx i)) <= b32_val (d i r)) /\ (forall r, (r < idx i)%nat -> b32_val (d i (idx i)) < b32_val (d i r)).
Proof. exact km_nearest_float. Qed.
Print Assumptions C65_nearest_float_partial.

Theorem C65_distance : forall jk l c (x v : nat -> R), isRegression l ->
  kmDist (ROps jk) (absFloat (ROps jk)) l (mgen 1 c (fun _ => x)) (mgen 1 c (fun _ => v)) = Ok (rowDist l c x v).
Proof. exact kmDist_R. Qed.
Print Assumptions C65_distance.

Theorem C65_far_sample_refuted : forall jk, exists V C X : nat -> nat -> R,
  kmPredict (ROps jk) (absFloat (ROps jk)) (@mkKM (ROps jk) (mgen 1 1 V) (mgen 1 1 C) LMeanSquaredError) (mgen 1 1 X) (mempty (ROps jk)) = Err EAssert.
Proof. exact km_far_refuted. Qed.
Print Assumptions C65_far_sample_refuted.

Theorem C65_far_sample_asserts : forall (F : FOps) (cabs : F -> res F), (forall nR c V C l n X out (d : nat -> nat -> F) i, 0 < nR -> 0 < c -> i < n -> mwf out ->
  (forall i r, i < n -> r < nR -> kmDist F cabs l (mgen 1 c (fun _ => X i)) (mgen 1 c (fun _ => V r)) = Ok (d i r)) ->
  (forall i', i' < i -> exists x, snd (bestOf F (farAway F) nR (d i')) = Some x /\ x < nR) ->
  snd (bestOf F (farAway F) nR (d i)) = None ->
  kmPredict F cabs (mkKM (mgen nR c V) (mgen nR 1 C) l) (mgen n c X) out = Err EAssert)%nat.
Proof. exact kmPredict_far. Qed.
Print Assumptions C65_far_sample_asserts.

Theorem C65_no_references : forall (F : FOps) (cabs : F -> res F), (forall k m n c X, mwf m -> msize (kVec k) = 0 -> kmPredict F cabs k (mgen n c X) m = Ok (mgen n 1 (fun _ _ => f0 F)))%nat.
Proof. exact kmPredict_empty. Qed.
Print Assumptions C65_no_references.

Theorem C65_accuracy : forall jk cabs vb nR c (V C : nat -> nat -> R) l n (X T : nat -> nat -> R) (d : nat -> nat -> R), (0 < vb)%nat -> (0 < nR)%nat -> (0 < c)%nat ->
  (forall i r, (i < n)%nat -> (r < nR)%nat -> kmDist (ROps jk) cabs l (mgen 1 c (fun _ => X i)) (mgen 1 c (fun _ => V r)) = Ok (d i r)) ->
  (forall i, (i < n)%nat -> exists r, (r < nR)%nat /\ d i r < IZR (10 ^ 38)) ->
  exists y : nat -> R, kmPredict (ROps jk) cabs (@mkKM (ROps jk) (mgen nR c V) (mgen nR 1 C) l) (mgen n c X) (mempty _) = Ok (mgen n 1 (fun i _ => y i)) /\
  kmAccuracy (ROps jk) cabs vb (@mkKM (ROps jk) (mgen nR c V) (mgen nR 1 C) l) (mgen n c X) (mgen n 1 T) =
  Ok (100 * INR (count n (fun i => Reqb (y i) (T i 0%nat))) / INR n).
Proof. exact km_accuracy. Qed.
Print Assumptions C65_accuracy.

Example C65_case : match kmPredict QOps (absFloat QOps) (@mkKM QOps (mgen 3 1 (fun r _ => inject_Z (Z.of_nat (10 * r)))) (mgen 3 1 (fun r _ => inject_Z (Z.of_nat (r + 4)))) LMeanSquaredError)
    (mgen 3 1 (fun i _ => inject_Z (Z.of_nat (5 * i + 1)))) (mempty QOps) with Ok m => Some (mdata m) | Err _ => None end = Some [4; 5; 5]%Q.
Proof. vm_compute. reflexivity. Qed.

(** C66.  Every run of fit that returns (any data, batch size, number of epochs, random outcomes). *)
Theorem C66_training : forall jk cabs vb iBatch epochs keep n c nR (X : nat -> nat -> R) lab l V0 C0 val draw0 draws k' seen, (0 < n)%nat ->
  kmFit (ROps jk) cabs vb iBatch epochs keep (@mkKM (ROps jk) (mgen nR c V0) (mgen nR 1 C0) l) (mgen n c X) (mgen n 1 (fun i _ => IZR (lab i))) val draw0 draws = Ok (k', seen) ->
  length seen = epochs /\
  (forall s, In s seen -> exists V : nat -> nat -> R, seenKm s = @mkKM (ROps jk) (mgen nR c V) (mgen nR 1 (fun r _ => IZR (lab (draw0 r mod n)%nat))) l /\
     (forall r, (r < nR)%nat -> meanOfClass n c X (fun i => IZR (lab i)) (IZR (lab (draw0 r mod n)%nat)) (V r)) /\
     kmAccuracy (ROps jk) cabs vb (seenKm s) (mgen n c X) (mgen n 1 (fun i _ => IZR (lab i))) = Ok (seenTrain s) /\
     evalAcc jk cabs n c X lab vb val (seenKm s) = Ok (seenEval jk val s)) /\
  (keep = true -> exists a, evalAcc jk cabs n c X lab vb val k' = Ok a /\ (forall s, In s seen -> seenEval jk val s <= a) /\
     (k' = @mkKM (ROps jk) (mgen nR c V0) (mgen nR 1 C0) l \/ exists s, In s seen /\ k' = seenKm s) /\
     (forall b, evalAcc jk cabs n c X lab vb val (@mkKM (ROps jk) (mgen nR c V0) (mgen nR 1 C0) l) = Ok b -> b <= a)) /\
  (keep = false -> seen <> [] -> exists pre s, seen = pre ++ [s] /\ seenKm s = k').
Proof. exact fit_good. Qed.
Print Assumptions C66_training.

Theorem C66_initial_references : forall jk n c nR (X : nat -> nat -> R) lab l V0 C0 draw k1, (0 < n)%nat ->
  kmInit (ROps jk) (@mkKM (ROps jk) (mgen nR c V0) (mgen nR 1 C0) l) (mgen n c X) (mgen n 1 (fun i _ => IZR (lab i))) draw = Ok k1 ->
  goodKm jk n c nR X lab l (fun r _ => IZR (lab (draw r mod n)%nat)) k1.
Proof. exact init_good. Qed.
Print Assumptions C66_initial_references.

Theorem C66_no_samples : forall (F : FOps) nR c V C l mT draw, (0 < nR)%nat ->
  kmInit F (mkKM (mgen nR c V) C l) (mgen 0 c (fun _ _ => f0 F)) mT draw = Err EDiv.
Proof. exact init_no_samples. Qed.
Print Assumptions C66_no_samples.

Example C66_case : match kmFit QOps (absFloat QOps) 1024 2 2 true (@mkKM QOps (mgen 2 1 (fun _ _ => 0%Q)) (mgen 2 1 (fun _ _ => 0%Q)) LMeanSquaredError)
    (mgen 4 1 (fun i _ => inject_Z (Z.of_nat (10 * i)))) (mgen 4 1 (fun i _ => inject_Z (Z.of_nat (i / 2)))) None (fun i => i * 3)%nat (fun _ i => i) with
  Ok (k, seen) => Some (mdata (kVec k), mdata (kCls k), List.map (fun s => (mdata (kVec (seenKm s)), seenTrain s)) seen) | Err _ => None end =
  Some ([5; 30]%Q, [0; 1]%Q, [([5; 30]%Q, 100%Q); ([5; 30]%Q, 100%Q)]).
Proof. vm_compute. reflexivity. Qed.
