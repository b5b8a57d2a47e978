(* P_Matrix.v - property theorems about the matrix value functions (C01, C05-C08, C11-C14).
   [F : FOps] ranges over all arithmetics, IEEE floats included; [mgen r c f] is the r x c matrix with entries f i j. *)
From Coq Require Import List Arith Lia Bool ZArith Reals Lra Permutation QArith.
From Flocq Require Import IEEE754.BinarySingleNaN.
From Verif Require Import Base Scalar B32Facts Mat SpecMat SpecReal RSum MatFacts MatProofs Scatter MatProofs2 MatProps MiscProofs.
Import ListNotations.
Local Open Scope nat_scope.

(** [mgen] is what it claims: every well-formed matrix is one, and its cells are read back. *)
Theorem C01_every_matrix_is_generated : forall (F : FOps) (m : mat F), mwf m ->
  exists f, m = mgen (mrows m) (mcols m) f /\
  forall i j, i < mrows m -> j < mcols m -> mget2 m i j = Ok (f i j).
Proof. exact matrix_is_generated. Qed.
Print Assumptions C01_every_matrix_is_generated.

Theorem C01_product_is_textbook_product : forall (F : FOps) n k m a b,
  mmul F (mgen n k a) (mgen k m b) =
  Ok (mgen n m (fun i j => fsum F k (fun l => fmul F (a i l) (b l j)))).
Proof. exact mmul_gen. Qed.
Print Assumptions C01_product_is_textbook_product.

Theorem C01_mismatch_gives_no_value : forall (F : FOps) (A B : mat F), mcols A <> mrows B -> mmul F A B = Err EAssert.
Proof. exact mmul_mismatch. Qed.
Print Assumptions C01_mismatch_gives_no_value.

Example C01_example :
  mmul ZOps (mkMat 2 3 [1;2;3;4;5;6]%Z) (mkMat 3 2 [7;8;9;10;11;12]%Z) = Ok (mkMat 2 2 [58;64;139;154]%Z)
  /\ mcols (mkMat 1 3 [1;2;3]%Z) <> mrows (mkMat 2 1 [1;2]%Z).
Proof. split; [vm_compute; reflexivity | discriminate]. Qed.

(** C05 *)
Theorem C05_argmax_in_range : forall (F : FOps) n f, 0 < n -> exists k, argmax F (mgen 1 n f) = Ok k /\ k < n.
Proof. exact argmax_range. Qed.
Print Assumptions C05_argmax_in_range.

Theorem C05_argmax_is_first_maximum : forall j n f, 0 < n -> exists k,
  argmax (ROps j) (mgen 1 n f) = Ok k /\ k < n /\
  (forall i, i < n -> (f 0%nat i <= f 0%nat k)%R) /\ (forall i, i < k -> (f 0%nat i < f 0%nat k)%R).
Proof. exact argmax_first_real. Qed.
Print Assumptions C05_argmax_is_first_maximum.

(* single precision floats, infinities allowed, no NaN; b32_val is the value of a float (infinities are +-2^128) *)
Theorem C05_argmax_float_no_nan : forall lm pw j n (f : nat -> nat -> b32), 0 < n ->
  (forall i, i < n -> b32_isnan (f 0 i) = false) -> exists k,
  argmax (B32Ops lm pw j) (mgen 1 n f) = Ok k /\ k < n /\
  (forall i, i < n -> (b32_val (f 0%nat i) <= b32_val (f 0%nat k))%R) /\ (forall i, i < k -> (b32_val (f 0%nat i) < b32_val (f 0%nat k))%R).
Proof. exact argmax_first_b32. Qed.
Print Assumptions C05_argmax_float_no_nan.

Theorem C05_rowsArgmax_is_argmax_of_each_row : forall (F : FOps) n k f a, 0 < k -> mwf a ->
  exists idx, rowsArgmax F (mgen n k f) a = Ok (mgen n 1 (fun i _ => fofN F (idx i))) /\
  forall i, i < n -> argmax F (mgen 1 k (fun _ => f i)) = Ok (idx i).
Proof. exact rowsArgmax_rows. Qed.
Print Assumptions C05_rowsArgmax_is_argmax_of_each_row.

Example C05_example : argmax ZOps (mkMat 1 5 [3;7;7;-2;1]%Z) = Ok 1 /\ 0 < 5.
Proof. split; [reflexivity | lia]. Qed.

(** C06 *)
Theorem C06_rowWiseSum : forall (F : FOps) n k a,
  rowWiseSum F (mgen n k a) = Ok (mgen n 1 (fun i _ => fsum F k (fun j => a i j))).
Proof. exact (fun F => rowWise_gen F (fun s => s) (fun x => x)). Qed.
Print Assumptions C06_rowWiseSum.
Theorem C06_rowWiseMean : forall (F : FOps) n k a,
  rowWiseMean F (mgen n k a) = Ok (mgen n 1 (fun i _ => fdiv F (fsum F k (fun j => a i j)) (fofN F k))).
Proof. exact (fun F n k => rowWise_gen F (fun s => fdiv F s (fofN F k)) (fun x => x) n k). Qed.
Print Assumptions C06_rowWiseMean.
Theorem C06_rowWiseSumSq : forall (F : FOps) n k a,
  rowWiseSumSq F (mgen n k a) = Ok (mgen n 1 (fun i _ => fsum F k (fun j => fmul F (a i j) (a i j)))).
Proof. exact (fun F => rowWise_gen F (fun s => s) (fun x => fmul F x x)). Qed.
Print Assumptions C06_rowWiseSumSq.
Theorem C06_colWiseSum : forall (F : FOps) n k a,
  colWiseSum F (mgen n k a) = Ok (mgen 1 k (fun _ j => fsum F n (fun i => a i j))).
Proof. exact (fun F => colWise_gen F (fun s => s) (fun x => x)). Qed.
Print Assumptions C06_colWiseSum.
Theorem C06_colWiseSumSq : forall (F : FOps) n k a,
  colWiseSumSq F (mgen n k a) = Ok (mgen 1 k (fun _ j => fsum F n (fun i => fmul F (a i j) (a i j)))).
Proof. exact (fun F => colWise_gen F (fun s => s) (fun x => fmul F x x)). Qed.
Print Assumptions C06_colWiseSumSq.
Theorem C06_colWiseMean : forall (F : FOps) n k a,
  colWiseMean F (mgen n k a) = Ok (mgen 1 k (fun _ j => fdiv F (fsum F n (fun i => a i j)) (fofN F n))).
Proof. exact (fun F n k => colWise_gen F (fun s => fdiv F s (fofN F n)) (fun x => x) n k). Qed.
Print Assumptions C06_colWiseMean.

Theorem C06_colWiseMin : forall jk n k (a : nat -> nat -> R), 0 < n -> exists v,
  colWiseMin (ROps jk) (mgen n k a) = Ok (mgen 1 k (fun _ j => v j)) /\
  forall j, j < k -> (forall i, i < n -> (v j <= a i j)%R) /\ exists i, i < n /\ v j = a i j.
Proof. exact colWiseMin_real. Qed.
Print Assumptions C06_colWiseMin.
Theorem C06_colWiseMax : forall jk n k (a : nat -> nat -> R), 0 < n -> exists v,
  colWiseMax (ROps jk) (mgen n k a) = Ok (mgen 1 k (fun _ j => v j)) /\
  forall j, j < k -> (forall i, i < n -> (a i j <= v j)%R) /\ exists i, i < n /\ v j = a i j.
Proof. exact colWiseMax_real. Qed.
Print Assumptions C06_colWiseMax.

(* the code's own "todo test empty matrix": on an empty matrix with columns, min and max read outside *)
Theorem C06_colWiseMin_needs_a_row : forall (F : FOps) k f, 0 < k -> colWiseMin F (mgen 0 k f) = Err EAssert.
Proof. exact colWiseMin_no_rows. Qed.
Print Assumptions C06_colWiseMin_needs_a_row.

Example C06_example :
  colWiseMin ZOps (mkMat 2 3 [1;5;3;4;2;6]%Z) = Ok (mkMat 1 3 [1;2;3]%Z) /\
  rowWiseMean QOps (mkMat 1 2 [1;2]%Q) = Ok (mkMat 1 1 [3#2]%Q).
Proof. split; vm_compute; reflexivity. Qed.

(** C07 *)
Theorem C07_rowWiseAdd : forall (F : FOps) n k a d,
  rowWiseAdd F (mgen n k a) (mgen 1 k d) = Ok (mgen n k (fun i j => fadd F (a i j) (d 0 j))).
Proof. exact rowWiseAdd_gen. Qed.
Print Assumptions C07_rowWiseAdd.
Theorem C07_rowWiseMult : forall (F : FOps) n k a d,
  rowWiseMult F (mgen n k a) (mgen n 1 d) = Ok (mgen n k (fun i j => fmul F (a i j) (d i 0))).
Proof. exact rowWiseMult_gen. Qed.
Print Assumptions C07_rowWiseMult.
Theorem C07_rowWiseDivide : forall (F : FOps) n k a d,
  rowWiseDivide F (mgen n k a) (mgen n 1 d) = Ok (mgen n k (fun i j => fdiv F (a i j) (d i 0))).
Proof. exact rowWiseDivide_gen. Qed.
Print Assumptions C07_rowWiseDivide.
Example C07_example : rowWiseAdd ZOps (mkMat 2 2 [1;2;3;4]%Z) (mkMat 1 2 [10;20]%Z) = Ok (mkMat 2 2 [11;22;13;24]%Z).
Proof. vm_compute. reflexivity. Qed.

(** C08 *)
Theorem C08_randPerm_is_a_permutation : forall draw n, exists v, randPerm draw n = Ok v /\ Permutation (seq 0 n) v.
Proof. exact randPerm_perm. Qed.
Print Assumptions C08_randPerm_is_a_permutation.

Theorem C08_shuffle_keeps_pairs : forall (F : FOps) draw n k q s t (ps pt : mat F), mwf ps -> mwf pt -> exists v s' t',
  randPerm draw n = Ok v /\
  applyRowPermutation F v (mgen n k s) ps = Ok (mgen n k s') /\
  applyRowPermutation F v (mgen n q t) pt = Ok (mgen n q t') /\
  Permutation (pairedRows n k q s t) (pairedRows n k q s' t').
Proof. exact shuffle_pairs. Qed.
Print Assumptions C08_shuffle_keeps_pairs.
Example C08_example : randPerm (fun i => i * 5 + 1) 6 = Ok [3; 4; 5; 1; 0; 2] /\ mwf (mempty ZOps).
Proof. split; reflexivity. Qed.

(** C11 *)
Theorem C11_reverseData_refuted : exists b, reverseData ZOps 0 (length b) b <> Ok (rev b).
Proof. exact reverse_refuted. Qed.
Print Assumptions C11_reverseData_refuted.

(* what it does instead, for every buffer, window and arithmetic: the upper half is kept and mirrored downwards *)
Theorem C11_reverseData_actual : forall (F : FOps) N off n (g : nat -> F), 0 < n -> off + n <= N ->
  reverseData F off n (map g (seq 0 N)) =
  Ok (map (fun k => if (off <=? k) && (k <? off + n) then g (off + Nat.max (k - off) (n - 1 - (k - off))) else g k) (seq 0 N)).
Proof. exact reverseData_flat. Qed.
Print Assumptions C11_reverseData_actual.

Theorem C11_reverseData_empty_out_of_bounds : forall (F : FOps) b, reverseData F 0 0 b = Err EOob.
Proof. exact reverse_empty. Qed.
Print Assumptions C11_reverseData_empty_out_of_bounds.

(* it is a reversal exactly on the buffers whose lower half already mirrors the upper one after reversing, e.g. length one *)
Theorem C11_reverseData_length_one_partial : forall (F : FOps) (x : F), reverseData F 0 1 [x] = Ok (rev [x]).
Proof. exact reverse_one. Qed.
Print Assumptions C11_reverseData_length_one_partial.
Example C11_example : reverseData ZOps 1 4 [9;1;2;3;4;8]%Z = Ok [9;4;3;3;4;8]%Z /\ 0 < 4 /\ 1 + 4 <= 6.
Proof. split; [vm_compute; reflexivity | lia]. Qed.

(** C12 *)
Theorem C12_transpose : forall (F : FOps) n k a, mtranspose F (mgen n k a) = Ok (mgen k n (fun i j => a j i)).
Proof. exact mtranspose_gen. Qed.
Print Assumptions C12_transpose.
Theorem C12_transpose_involution : forall (F : FOps) (m : mat F), mwf m -> exists t, mtranspose F m = Ok t /\ mtranspose F t = Ok m.
Proof. exact transpose_twice. Qed.
Print Assumptions C12_transpose_involution.
Theorem C12_transpose_of_product : forall j n k m (a b : nat -> nat -> R), exists p at_ bt,
  mmul (ROps j) (mgen n k a) (mgen k m b) = Ok p /\
  mtranspose (ROps j) (mgen n k a) = Ok at_ /\ mtranspose (ROps j) (mgen k m b) = Ok bt /\
  mtranspose (ROps j) p = mmul (ROps j) bt at_.
Proof. exact transpose_mul_R. Qed.
Print Assumptions C12_transpose_of_product.
Theorem C12_decimate : forall (F : FOps) n k f d, 0 < d ->
  decimate F (mgen n k f) d = Ok (mgen (n / d) k (fun i j => f (i * d) j)).
Proof. exact decimate_gen. Qed.
Print Assumptions C12_decimate.
Theorem C12_colExtract : forall (F : FOps) n k f s e, s <= e -> e <= k ->
  colExtract F (mgen n k f) s e = Ok (mgen n (e - s) (fun i j => f i (s + j))).
Proof. exact colExtract_gen. Qed.
Print Assumptions C12_colExtract.
Theorem C12_clamp : forall jk r c (f : nat -> nat -> R) lo hi, (lo <= hi)%R -> exists g,
  mclamp (ROps jk) (mgen r c f) lo hi = Ok (mgen r c g) /\
  forall i j, (lo <= g i j <= hi)%R /\ ((lo <= f i j <= hi)%R -> g i j = f i j) /\
              ((hi < f i j)%R -> g i j = hi) /\ ((f i j < lo)%R -> g i j = lo).
Proof. exact clamp_real. Qed.
Print Assumptions C12_clamp.
Theorem C12_diagonal : forall (F : FOps) n k f, n <= k -> mdiagonal F (mgen n k f) = Ok (mgen n 1 (fun i _ => f i i)).
Proof. exact mdiagonal_gen. Qed.
Print Assumptions C12_diagonal.
Theorem C12_trace : forall (F : FOps) n k f, n <= k -> mtrace F (mgen n k f) = Ok (fsum F n (fun i => f i i)).
Proof. exact mtrace_gen. Qed.
Print Assumptions C12_trace.
Theorem C12_asDiagonal : forall (F : FOps) n f,
  masDiagonal F (mgen 1 n f) = Ok (mgen n n (fun i j => if i =? j then f 0 i else f0 F)).
Proof. exact asDiagonal_row. Qed.
Print Assumptions C12_asDiagonal.
Theorem C12_tanh_and_its_derivative : forall jk r c (f : nat -> nat -> R),
  mtanh (ROps jk) (mgen r c f) = Ok (mgen r c (fun i j => tanh (f i j))) /\ moneMinusSquare (ROps jk) (mgen r c f) = Ok (mgen r c (fun i j => 1 - Rsqr (f i j))%R).
Proof. exact tanh_helpers. Qed.
Print Assumptions C12_tanh_and_its_derivative.
Example C12_example : decimate ZOps (mkMat 5 2 [1;2;3;4;5;6;7;8;9;10]%Z) 2 = Ok (mkMat 2 2 [1;2;5;6]%Z) /\ (0 < 2) /\
  colExtract ZOps (mkMat 2 3 [1;2;3;4;5;6]%Z) 1 3 = Ok (mkMat 2 2 [2;3;5;6]%Z).
Proof. split; [vm_compute; reflexivity | split; [lia | vm_compute; reflexivity]]. Qed.

(** C13 *)
Theorem C13_channelWiseAdd : forall (F : FOps) nS nH nR nC t w,
  channelWiseAdd F (tens nS nH nR nC t) nS nH nR nC (mgen 1 nH w) =
  Ok (tens nS nH nR nC (fun s h r c => fadd F (t s h r c) (w 0 h))).
Proof. exact channelWiseAdd_tens. Qed.
Print Assumptions C13_channelWiseAdd.

(* off by the factor (rows*cols)^2 *)
Theorem C13_channelWiseMean_actual : forall j nS nH nR nC t, 0 < nS -> 0 < nR -> 0 < nC ->
  channelWiseMean (ROps j) (tens nS nH nR nC t) nS nH nR nC =
  Ok (mgen 1 nH (fun _ h => (channelMean nS nR nC t h * (INR nR * INR nC) * (INR nR * INR nC))%R)).
Proof. exact channelWiseMean_scaled. Qed.
Print Assumptions C13_channelWiseMean_actual.

(* a channel that is 1 everywhere has "mean" 4 *)
Theorem C13_channelWiseMean_refuted : exists nS nH nR nC t,
  channelWiseMean QOps (tens nS nH nR nC t) nS nH nR nC = Ok (mkMat 1 1 [4%Q]) /\ (forall s h r c, t s h r c = 1%Q).
Proof. exact channelWiseMean_refuted. Qed.
Print Assumptions C13_channelWiseMean_refuted.

Theorem C13_channelWiseMean_one_pixel_partial : forall j nS nH t, 0 < nS ->
  channelWiseMean (ROps j) (tens nS nH 1 1 t) nS nH 1 1 = Ok (mgen 1 nH (fun _ h => channelMean nS 1 1 t h)).
Proof. exact channelWiseMean_pixel. Qed.
Print Assumptions C13_channelWiseMean_one_pixel_partial.
Example C13_example :
  channelWiseAdd ZOps (mkMat 1 4 [1;2;3;4]%Z) 1 2 1 2 (mkMat 1 2 [10;20]%Z) = Ok (mkMat 1 4 [11;12;23;24]%Z) /\ 0 < 1.
Proof. split; [vm_compute; reflexivity | lia]. Qed.

(** C14 *)
(* cell k depends on the low 16 bits of draw k only *)
Theorem C14_bernoulli_cells : forall (F : FOps) limit rng r c g,
  quickBernoulli F limit rng (mflat r c g) =
  Ok (mflat r c (fun k => if (rng k mod 65536 <? limit)%Z then f1 F else f0 F)).
Proof. exact bernoulli_cells. Qed.
Print Assumptions C14_bernoulli_cells.

(* among the 65536 values of the low 16 bits, floor(65536 p) give a one *)
Theorem C14_bernoulli_bias : forall p : R, (0 <= p <= 1)%R ->
  let ones := Z.of_nat (length (filter (fun z => z <? Rtrunc (p * 65536))%Z (map Z.of_nat (seq 0 (Z.to_nat 65536))))) in
  (IZR ones <= p * 65536 < IZR ones + 1)%R.
Proof. exact bernoulli_bias. Qed.
Print Assumptions C14_bernoulli_bias.
Example C14_example : quickBernoulli ZOps 19660 (fun k => Z.of_nat k * 70000 + 19000)%Z (mkMat 1 3 [0;0;0]%Z) = Ok (mkMat 1 3 [1;0;0]%Z)
  /\ (0 <= / 2 <= 1)%R.
Proof. split; [vm_compute; reflexivity | lra]. Qed.
