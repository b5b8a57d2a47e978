(* LossProofs2.v - cross-entropies and class balancing *)
From Coq Require Import Reals Lra Lia Arith List Bool ZArith QArith.
From Coquelicot Require Import Coquelicot.
From Verif Require Import Base Scalar B32Facts Mat SpecMat SpecReal RSum MatFacts MatProofs MatLoops RDeriv Loss SpecLoss LossProofs.
Import ListNotations.
Local Open Scope R_scope.

Lemma Rtrunc_INR : forall k, Rtrunc (INR k) = Z.of_nat k.
Proof.
  intros. unfold Rtrunc. pose proof (pos_INR k). destruct (Rlt_dec (INR k) 0); [lra|].
  rewrite INR_IZR_INZ. unfold Int_part. pose proof (archimed (IZR (Z.of_nat k))) as [A B].
  assert (up (IZR (Z.of_nat k)) = Z.of_nat k + 1)%Z; [|lia].
  apply Z.le_antisymm.
  - apply le_IZR. rewrite plus_IZR. lra.
  - apply lt_IZR in A. lia.
Qed.
Lemma toInt_INR : forall jk k, toInt (ROps jk) (INR k) = Ok (Z.of_nat k).
Proof. intros. unfold toInt. simpl. rewrite Rtrunc_INR. reflexivity. Qed.
Lemma toIdx_INR : forall jk k, toIdx (ROps jk) (INR k) = Ok k.
Proof.
  intros. unfold toIdx. rewrite toInt_INR. cbn [bind].
  destruct (Z.ltb_spec (Z.of_nat k) 0); [lia|]. rewrite Nat2Z.id. reflexivity.
Qed.

Lemma floorEps_R : forall jk p, floorEps (ROps jk) p = floored p.
Proof.
  intros. unfold floorEps, eps, stdmax, floored, Rmax. simpl. unfold Rltb.
  destruct (Rlt_dec p (1 / 100000000)), (Rle_dec p (1 / 100000000)); lra.
Qed.
Lemma floored_pos : forall p, 0 < floored p.
Proof. intros. unfold floored. pose proof (Rmax_r p (1 / 100000000)). lra. Qed.

Lemma bce_compute : forall jk b n (P T : nat -> nat -> R) out, mwf out ->
  compute (ROps jk) (absFloat (ROps jk)) LBinaryCrossEntropy b (mgen n 1 P) (mgen n 1 T) out =
  Ok (mgen n 1 (fun i _ => binaryCE (P i O) (T i O))).
Proof.
  intros. unfold compute. change (mcols (mgen n 1 T)) with 1%nat. change (mcols (mgen n 1 P)) with 1%nat.
  change (mrows (mgen n 1 T)) with n; change (mrows (mgen n 1 P)) with n. rewrite !Nat.eqb_refl. cbn [assert_ bind].
  destruct (mresize_gen (ROps jk) out n 1 H) as [f ->].
  apply (col_fill_gen (ROps jk)). intros i q Hi. rewrite !mget1_col by auto. cbn [bind]. rewrite mset1_col by auto.
  rewrite !floorEps_R. reflexivity.
Qed.
Lemma cce_compute : forall jk b n c (P T : nat -> nat -> R) out, mwf out ->
  compute (ROps jk) (absFloat (ROps jk)) LCategoricalCrossEntropy b (mgen n c P) (mgen n c T) out =
  Ok (mgen n 1 (fun i _ => rsum c (fun j => categoricalCE (P i j) (T i j)))).
Proof.
  intros. unfold compute. change (mcols (mgen n c T)) with c. change (mcols (mgen n c P)) with c.
  change (mrows (mgen n c T)) with n; change (mrows (mgen n c P)) with n. rewrite !Nat.eqb_refl. cbn [assert_ bind].
  destruct (mresize_gen (ROps jk) out n 1 H) as [f ->].
  apply (col_fill_gen (ROps jk)). intros i q Hi.
  rewrite (forN_fold (Scalar.T (ROps jk))) with (step := fun j s => s + categoricalCE (P i j) (T i j)).
  - cbn [bind]. rewrite mset2_gen by auto. rewrite fold_rsum, Rplus_0_l. reflexivity.
  - intros j s Hj. rewrite !mget2_gen by auto. cbn [bind]. rewrite !floorEps_R. reflexivity.
Qed.
Lemma scce_compute : forall jk b n c (P : nat -> nat -> R) cls out, mwf out -> (forall i, (i < n)%nat -> (cls i < c)%nat) ->
  compute (ROps jk) (absFloat (ROps jk)) LSparseCategoricalCrossEntropy b (mgen n c P) (mgen n 1 (fun i _ => INR (cls i))) out =
  Ok (mgen n 1 (fun i _ => categoricalCE (P i (cls i)) 1)).
Proof.
  intros. unfold compute. change (mcols (mgen n 1 (fun i _ => INR (cls i)))) with 1%nat.
  change (mrows (mgen n 1 (fun i _ => INR (cls i)))) with n; change (mrows (mgen n c P)) with n. rewrite !Nat.eqb_refl. cbn [assert_ bind].
  destruct (mresize_gen (ROps jk) out n 1 H) as [f ->].
  apply (col_fill_gen (ROps jk)). intros i q Hi. rewrite !mget1_col by auto. cbn [bind].
  rewrite toIdx_INR. cbn [bind]. rewrite mget2_gen by auto. cbn [bind]. rewrite mset1_col by auto.
  rewrite !floorEps_R. unfold categoricalCE. simpl. rewrite Rmult_1_l. reflexivity.
Qed.

(** gradients *)
Definition bceG (p t : R) : R := - (t / floored p) + (1 - t) / floored (1 - p).

Lemma bce_gradient_value : forall jk b n c (P T : nat -> nat -> R) out, mwf out ->
  compute_gradient (ROps jk) LBinaryCrossEntropy b (mgen n c P) (mgen n c T) out = Ok (mgen n c (fun i j => bceG (P i j) (T i j))).
Proof.
  intros. unfold compute_gradient. change (mcols (mgen n c T)) with c. change (mcols (mgen n c P)) with c.
  change (mrows (mgen n c T)) with n; change (mrows (mgen n c P)) with n. rewrite !Nat.eqb_refl. cbn [assert_ bind].
  destruct (mresize_gen (ROps jk) out n c H) as [f ->].
  rewrite (mgen_flat _ n c f), (mgen_flat _ n c P), (mgen_flat _ n c T). change (msize (mflat n c _)) with (n * c)%nat.
  rewrite (flat_loop _ n c) with (h := fun k _ => bceG (P (k / c)%nat (k mod c)) (T (k / c)%nat (k mod c))).
  - rewrite mgen_flat. reflexivity.
  - intros k q Hk. rewrite !mget1_flat by auto. cbn [bind]. rewrite mset1_flat by auto. rewrite !floorEps_R.
    unfold bceG. simpl. do 3 f_equal. unfold Rdiv. ring.
Qed.
Lemma cce_gradient_value : forall jk b n c (P T : nat -> nat -> R) out, mwf out ->
  compute_gradient (ROps jk) LCategoricalCrossEntropy b (mgen n c P) (mgen n c T) out = Ok (mgen n c (fun i j => bceG (P i j) (T i j))).
Proof.
  intros. unfold compute_gradient. change (mcols (mgen n c T)) with c. change (mcols (mgen n c P)) with c.
  change (mrows (mgen n c T)) with n; change (mrows (mgen n c P)) with n. rewrite !Nat.eqb_refl. cbn [assert_ bind].
  destruct (mresize_gen (ROps jk) out n c H) as [f ->].
  rewrite (mgen_flat _ n c f), (mgen_flat _ n c P), (mgen_flat _ n c T). change (msize (mflat n c _)) with (n * c)%nat.
  rewrite (flat_loop _ n c) with (h := fun k _ => bceG (P (k / c)%nat (k mod c)) (T (k / c)%nat (k mod c))).
  - rewrite mgen_flat. reflexivity.
  - intros k q Hk. rewrite !mget1_flat by auto. cbn [bind]. rewrite mset1_flat by auto. unfold ccGrad. rewrite !floorEps_R.
    reflexivity.
Qed.
Lemma scce_gradient_value : forall jk b n c (P : nat -> nat -> R) cls out,
  compute_gradient (ROps jk) LSparseCategoricalCrossEntropy b (mgen n c P) (mgen n 1 (fun i _ => INR (cls i))) out =
  Ok (mgen n c (fun i j => bceG (P i j) (oneHot cls i j))).
Proof.
  intros. unfold compute_gradient. change (mcols (mgen n 1 (fun i _ => INR (cls i)))) with 1%nat.
  change (mrows (mgen n 1 (fun i _ => INR (cls i)))) with n; change (mrows (mgen n c P)) with n; change (mcols (mgen n c P)) with c.
  rewrite !Nat.eqb_refl. cbn [assert_ bind].
  rewrite (rows_loop_gen (ROps jk)) with (h := fun i j p => bceG p (oneHot cls i j)); [reflexivity|].
  intros i q Hi. rewrite mget1_col by auto. cbn [bind]. rewrite toInt_INR. cbn [bind].
  rewrite (@forN_sim _ _ (mgen n c)) with (step := fun j q => upd2 q i j (bceG (q i j) (oneHot cls i j))).
  - apply Ok_eq. apply mgen_ext. intros a b' Ha Hb.
    rewrite (fold_point2 nat R (fun j q => upd2 q i j (bceG (q i j) (oneHot cls i j)))
      (fun j v => if (a =? i) && (j =? b') then bceG v (oneHot cls i j) else v)).
    + destruct (Nat.eqb_spec a i) as [->|].
      * cbn [andb]. rewrite fold_hit0 by auto. reflexivity.
      * cbn [andb]. apply fold_left_id. auto.
    + intros j S _. unfold upd2. rewrite (Nat.eqb_sym b' j).
      destruct (Nat.eqb_spec a i) as [->|]; destruct (Nat.eqb_spec j b') as [->|]; reflexivity.
  - intros j p Hj. rewrite mget2_gen by auto. cbn [bind]. rewrite mset2_gen by auto. apply Ok_eq. rewrite !floorEps_R.
    match goal with |- mgen n c (upd2 p i j ?x) = mgen n c (upd2 p i j ?y) => assert (E0 : x = y); [|rewrite E0; reflexivity] end.
    unfold bceG, oneHot. destruct (Z.eqb_spec (Z.of_nat (cls i)) (Z.of_nat j)) as [E|E].
    + apply Nat2Z.inj in E. rewrite E, Nat.eqb_refl. simpl. unfold Rdiv. ring.
    + destruct (Nat.eqb_spec (cls i) j); [subst; tauto|]. simpl. unfold Rdiv. ring.
Qed.

Lemma derive_floored : forall p, 1 / 100000000 < p -> is_derive (fun x => ln (floored x)) p (/ p).
Proof.
  intros. apply is_derive_gt with (g := ln) (u := 1 / 100000000); auto.
  - intros. unfold floored. rewrite Rmax_left by lra. auto.
  - apply is_derive_Reals. apply derivable_pt_lim_ln. lra.
Qed.
Lemma derive_bce : forall p t, 1 / 100000000 < p < 1 - 1 / 100000000 -> is_derive (fun x => binaryCE x t) p (bceG p t).
Proof.
  intros p t H. unfold binaryCE. eapply is_derive_eq.
  - apply (is_derive_opp (fun x => t * ln (floored x) + (1 - t) * ln (floored (1 - x)))).
    apply (is_derive_Rplus (fun x => t * ln (floored x)) (fun x => (1 - t) * ln (floored (1 - x)))).
    + apply (is_derive_scal (fun x => ln (floored x))). apply derive_floored; lra.
    + apply (is_derive_scal (fun x => ln (floored (1 - x)))).
      apply (is_derive_Rcomp (fun y => ln (floored y)) (fun x => 1 - x)); [apply derive_floored; lra|].
      apply (is_derive_Rminus (fun _ => 1) (fun x => x)); [apply (is_derive_const 1) | apply (is_derive_id p)].
  - unfold bceG, floored. rewrite !Rmax_left by lra. unfold opp, zero, one; simpl. unfold Rdiv. ring.
Qed.

Lemma bce_total : forall jk n (P T : nat -> nat -> R) out, mwf out ->
  totalLoss jk (absFloat (ROps jk)) LBinaryCrossEntropy (mgen n 1 P) (mgen n 1 T) out = rsum n (fun i => binaryCE (P i O) (T i O)).
Proof.
  intros. unfold totalLoss. rewrite bce_compute by auto. rewrite matTotal_gen. apply rsum_ext. intros. cbn [rsum]. lra.
Qed.

Lemma bce_gradient : forall jk n (P T : nat -> nat -> R) out out', mwf out -> mwf out' -> exists G : nat -> nat -> R,
  compute_gradient (ROps jk) LBinaryCrossEntropy (noBalance (ROps jk)) (mgen n 1 P) (mgen n 1 T) out = Ok (mgen n 1 G) /\
  forall i, (i < n)%nat -> 1 / 100000000 < P i O < 1 - 1 / 100000000 ->
  isPartial (fun Q => totalLoss jk (absFloat (ROps jk)) LBinaryCrossEntropy (mgen n 1 Q) (mgen n 1 T) out') P i 0 (G i O).
Proof.
  intros jk n P T out out' W W'. eexists. split; [apply bce_gradient_value; auto|].
  intros i Hi Hp. unfold isPartial.
  apply is_derive_ext with (f := fun x => (rsum n (fun a => binaryCE (P a O) (T a O)) - binaryCE (P i O) (T i O)) + binaryCE x (T i O)).
  - intros x. rewrite bce_total by auto.
    rewrite (rsum_ext n (fun a => binaryCE (upd2 P i 0 x a 0%nat) (T a O)) (fun a => if a =? i then binaryCE x (T i O) else binaryCE (P a O) (T a O))).
    + rewrite (rsum_upd1 n (fun a => binaryCE (P a O) (T a O)) i) by auto.
      match goal with |- ?a = ?b => change (@eq R a b) end. ring.
    + intros a Ha. unfold upd2. rewrite Nat.eqb_refl, andb_true_r. destruct (Nat.eqb_spec a i); subst; auto.
  - eapply is_derive_eq.
    + apply (is_derive_Rplus (fun _ => _) (fun x => binaryCE x (T i O))); [apply is_derive_const | apply derive_bce; auto].
    + unfold zero; simpl. ring.
Qed.

(* what the two categorical gradients are: those of the binary cross-entropy summed over the entries *)
Lemma cce_gradient_actual : forall jk n c (P T : nat -> nat -> R) out, mwf out -> exists G : nat -> nat -> R,
  compute_gradient (ROps jk) LCategoricalCrossEntropy (noBalance (ROps jk)) (mgen n c P) (mgen n c T) out = Ok (mgen n c G) /\
  forall i j, (i < n)%nat -> (j < c)%nat -> 1 / 100000000 < P i j < 1 - 1 / 100000000 ->
  isPartial (fun Q => rsum n (fun i => rsum c (fun j => binaryCE (Q i j) (T i j)))) P i j (G i j).
Proof.
  intros jk n c P T out W. eexists. split; [apply cce_gradient_value; auto|].
  intros i j Hi Hj Hp. unfold isPartial.
  apply is_derive_ext with (f := fun x => (rsum c (fun b => rsum n (fun a => binaryCE (P a b) (T a b))) - binaryCE (P i j) (T i j)) + binaryCE x (T i j)).
  - intros x. rewrite (rsum_swap n c (fun a b => binaryCE (upd2 P i j x a b) (T a b))).
    rewrite (rsum_upd2 n c (fun a b v => binaryCE v (T a b)) P i j x Hi Hj).
    match goal with |- ?a = ?b => change (@eq R a b) end. ring.
  - eapply is_derive_eq.
    + apply (is_derive_Rplus (fun _ => _) (fun x => binaryCE x (T i j))); [apply is_derive_const | apply derive_bce; auto].
    + unfold zero; simpl. ring.
Qed.
Lemma scce_gradient_actual : forall jk n c (P : nat -> nat -> R) cls out out', mwf out' ->
  compute_gradient (ROps jk) LSparseCategoricalCrossEntropy (noBalance (ROps jk)) (mgen n c P) (mgen n 1 (fun i _ => INR (cls i))) out =
  compute_gradient (ROps jk) LCategoricalCrossEntropy (noBalance (ROps jk)) (mgen n c P) (mgen n c (oneHot cls)) out'.
Proof. intros. rewrite scce_gradient_value, cce_gradient_value by auto. reflexivity. Qed.

(* entry of a wrong class: the loss does not depend on it, yet the gradient is 1/(1-p) > 0 *)
Lemma cce_refuted : exists n c (P T : nat -> nat -> R) i j G,
  (i < n)%nat /\ (j < c)%nat /\ (forall a b, (a < n)%nat -> (b < c)%nat -> P a b = 1 / 2 /\ T a b = oneHot (fun _ => O) a b) /\
  (forall jk, compute_gradient (ROps jk) LCategoricalCrossEntropy (noBalance (ROps jk)) (mgen n c P) (mgen n c T) (mempty (ROps jk)) = Ok (mgen n c G)) /\
  forall kappa jk, 0 < kappa ->
  ~ isPartial (fun Q => totalLoss jk (absFloat (ROps jk)) LCategoricalCrossEntropy (mgen n c Q) (mgen n c T) (mempty (ROps jk))) P i j (kappa * G i j).
Proof.
  exists 1%nat, 2%nat, (fun _ _ => 1 / 2), (oneHot (fun _ => O)), O, 1%nat. eexists.
  split; [lia|]. split; [lia|]. split; [auto|].
  split; [intros; apply cce_gradient_value; reflexivity|].
  intros kappa jk Hk D. unfold isPartial in D. cbv beta in D.
  assert (D0 : is_derive (fun _ : R => categoricalCE (1 / 2) 1) (1 / 2) 0) by apply (is_derive_const (categoricalCE (1 / 2) 1)).
  apply is_derive_ext with (g := fun x => totalLoss jk (absFloat (ROps jk)) LCategoricalCrossEntropy
     (mgen 1 2 (upd2 (fun _ _ => 1 / 2) 0 1 x)) (mgen 1 2 (oneHot (fun _ => O))) (mempty (ROps jk))) in D0.
  - pose proof (is_derive_unique _ _ _ D) as E1. pose proof (is_derive_unique _ _ _ D0) as E2.
    pose proof (eq_trans (eq_sym E1) E2) as E3. clear E1 E2. rename E3 into E2. unfold bceG, oneHot, floored in E2. simpl in E2. rewrite !Rmax_left in E2 by lra.
    assert (kappa * (- (0 / (1 / 2)) + (1 - 0) / (1 - 1 / 2)) = 2 * kappa) by field. lra.
  - intros x. unfold totalLoss. rewrite cce_compute by reflexivity. rewrite matTotal_gen.
    unfold categoricalCE, oneHot, upd2. simpl. match goal with |- ?a = ?b => change (@eq R a b) end. ring.
Qed.

(** C39 for the cross-entropies *)
Lemma ln_floored_le_0 : forall p, p <= 1 -> ln (floored p) <= 0.
Proof.
  intros. rewrite <- ln_1. unfold floored. pose proof (floored_pos p). unfold floored in *.
  assert (Rmax p (1 / 100000000) <= 1) by (apply Rmax_lub; lra).
  destruct (Rle_lt_or_eq_dec _ _ H1) as [L|E]; [left; apply ln_increasing; auto | rewrite E; lra].
Qed.
Lemma bce_nonneg : forall p t, 0 <= p <= 1 -> 0 <= t <= 1 -> 0 <= binaryCE p t.
Proof.
  intros. unfold binaryCE. assert (ln (floored p) <= 0) by (apply ln_floored_le_0; lra).
  assert (ln (floored (1 - p)) <= 0) by (apply ln_floored_le_0; lra). nra.
Qed.
Lemma cce_nonneg : forall p t, p <= 1 -> 0 <= t -> 0 <= categoricalCE p t.
Proof. intros. unfold categoricalCE. assert (ln (floored p) <= 0) by (apply ln_floored_le_0; lra). nra. Qed.

Lemma ce_losses_nonneg : forall jk n c (P T : nat -> nat -> R) cls out b, mwf out ->
  (forall i j, (i < n)%nat -> (j < c)%nat -> 0 <= P i j <= 1 /\ 0 <= T i j <= 1) -> (forall i, (i < n)%nat -> (cls i < c)%nat) ->
  (exists l : nat -> R, compute (ROps jk) (absFloat (ROps jk)) LCategoricalCrossEntropy b (mgen n c P) (mgen n c T) out = Ok (mgen n 1 (fun i _ => l i))
     /\ forall i, (i < n)%nat -> 0 <= l i) /\
  (exists l : nat -> R, compute (ROps jk) (absFloat (ROps jk)) LSparseCategoricalCrossEntropy b (mgen n c P) (mgen n 1 (fun i _ => INR (cls i))) out = Ok (mgen n 1 (fun i _ => l i))
     /\ forall i, (i < n)%nat -> 0 <= l i) /\
  (c = 1%nat -> exists l : nat -> R, compute (ROps jk) (absFloat (ROps jk)) LBinaryCrossEntropy b (mgen n c P) (mgen n c T) out = Ok (mgen n 1 (fun i _ => l i))
     /\ forall i, (i < n)%nat -> 0 <= l i).
Proof.
  intros jk n c P T cls out b W H Hc. split; [|split].
  - eexists. split; [apply cce_compute; auto|]. intros i Hi. apply rsum_nonneg. intros j Hj. destruct (H i j Hi Hj). apply cce_nonneg; lra.
  - eexists. split; [apply scce_compute; auto|]. intros i Hi. destruct (H i (cls i) Hi (Hc i Hi)). apply cce_nonneg; lra.
  - intros ->. eexists. split; [apply bce_compute; auto|]. intros i Hi. destruct (H i O Hi); [lia|]. apply bce_nonneg; lra.
Qed.

(* sparse and one-hot encodings give the same loss *)
Lemma sparse_is_onehot : forall jk n c (P : nat -> nat -> R) cls out out' b b', mwf out -> mwf out' -> (forall i, (i < n)%nat -> (cls i < c)%nat) ->
  compute (ROps jk) (absFloat (ROps jk)) LSparseCategoricalCrossEntropy b (mgen n c P) (mgen n 1 (fun i _ => INR (cls i))) out =
  compute (ROps jk) (absFloat (ROps jk)) LCategoricalCrossEntropy b' (mgen n c P) (mgen n c (oneHot cls)) out'.
Proof.
  intros. rewrite scce_compute, cce_compute by auto. f_equal. apply mgen_ext. intros i j Hi Hj.
  rewrite (rsum_single c (cls i)).
  - unfold oneHot. rewrite Nat.eqb_refl. reflexivity.
  - auto.
  - intros a Ha Hne. unfold categoricalCE, oneHot. destruct (Nat.eqb_spec (cls i) a); [lia | ring].
Qed.

(** the int overload of ::abs *)
Lemma int_abs_refuted : exists P T : Q, ~ P == T /\
  compute QOps (absInt QOps) LMeanAbsoluteError (noBalance QOps) (mkMat 1 1 [P]) (mkMat 1 1 [T]) (mempty QOps) = Ok (mkMat 1 1 [0%Q]).
Proof. exists (1#2)%Q, 0%Q. split; [discriminate | vm_compute; reflexivity]. Qed.

(** C40 *)
Lemma balance_gen : forall jk n c q cls nw (w : nat -> nat -> R) (b : balance (ROps jk)), bw _ b = mgen nw 1 w -> bon _ b = true ->
  (forall i, (i < n)%nat -> (cls i < nw)%nat) ->
  balance_with_weight (ROps jk) b (mgen n 1 (fun i _ => INR (cls i))) (mgen n c q) = Ok (mgen n c (fun i j => q i j * w (cls i) O)).
Proof.
  intros jk n c q cls nw w b Hw Hb Hc. unfold balance_with_weight. rewrite Hb. cbn [assert_ bind]. change (mrows (mgen n c q)) with n.
  rewrite (rows_loop_gen (ROps jk)) with (h := fun i j x => x * w (cls i) O); [reflexivity|].
  intros i p Hi. rewrite mget1_col by auto. cbn [bind]. change (fle (ROps jk) (f0 (ROps jk)) (INR (cls i))) with (Rleb 0 (INR (cls i))).
  assert (E1 : Rleb 0 (INR (cls i)) = true). { unfold Rleb. destruct (Rle_dec 0 (INR (cls i))) as [|n0]; auto. exfalso; apply n0; apply pos_INR. }
  rewrite E1. cbn [assert_ bind]. rewrite Hw. change (msize (mgen nw 1 w)) with (nw * 1)%nat. rewrite Nat.mul_1_r, fofN_R.
  change (flt (ROps jk) (INR (cls i)) (INR nw)) with (Rltb (INR (cls i)) (INR nw)).
  assert (E2 : Rltb (INR (cls i)) (INR nw) = true). { apply Rltb_true. apply lt_INR. auto. }
  rewrite E2. cbn [assert_ bind]. rewrite toIdx_INR. cbn [bind]. rewrite mget1_col by auto. cbn [bind].
  rewrite (rowLoop_gen (ROps jk)) with (h := fun _ x => x * w (cls i) O) by auto. reflexivity.
Qed.

Lemma balanced_gradient : forall jk k n (P : nat -> nat -> R) cls nw (w : nat -> nat -> R) out, isRegression k -> (0 < nw)%nat ->
  (forall i, (i < n)%nat -> (cls i < nw)%nat) -> exists G : nat -> nat -> R,
  compute_gradient (ROps jk) k (noBalance (ROps jk)) (mgen n 1 P) (mgen n 1 (fun i _ => INR (cls i))) out = Ok (mgen n 1 G) /\
  compute_gradient (ROps jk) k (set_class_balancing (ROps jk) (mgen nw 1 w)) (mgen n 1 P) (mgen n 1 (fun i _ => INR (cls i))) out =
  Ok (mgen n 1 (fun i j => G i j * w (cls i) O)).
Proof.
  intros jk k n P cls nw w out H Hnw Hc. exists (regG jk k 1 P (fun i _ => INR (cls i))).
  split; [apply reg_gradient_value; auto|].
  assert (Hon : bon _ (set_class_balancing (ROps jk) (mgen nw 1 w)) = true).
  { unfold set_class_balancing. cbn [bon]. change (msize (mgen nw 1 w)) with (nw * 1)%nat.
    destruct (Nat.eqb_spec (nw * 1) 0); [lia | auto]. }
  destruct k; simpl in H; try tauto; unfold compute_gradient, balanceIf;
  change (mcols (mgen n 1 (fun i _ => INR (cls i)))) with 1%nat; change (mcols (mgen n 1 P)) with 1%nat;
  change (mrows (mgen n 1 (fun i _ => INR (cls i)))) with n; change (mrows (mgen n 1 P)) with n;
  rewrite !Nat.eqb_refl; cbn [assert_ bind]; rewrite (msubM_gen (ROps jk)); cbn [bind]; rewrite (@mapLoop_gen R); cbn [bind];
  rewrite Hon; rewrite (balance_gen jk n 1 _ cls nw w) by (auto; reflexivity); reflexivity.
Qed.

(* the reported loss uses the weight of the first sample only: two samples of classes 0 and 1, weights 1 and 3, errors 0 and 2 *)
Lemma balanced_loss_refuted : exists P T w : mat Q,
  compute QOps (absFloat QOps) LL2 (set_class_balancing QOps w) P T (mempty QOps) = Ok (mkMat 1 1 [4%Q]) /\
  mdata P = [0; 3]%Q /\ mdata T = [0; 1]%Q /\ mdata w = [1; 3]%Q /\ (1 * (0 - 0) ^ 2 + 3 * (3 - 1) ^ 2 == 12)%Q.
Proof.
  exists (mkMat 2 1 [0; 3]%Q), (mkMat 2 1 [0; 1]%Q), (mkMat 2 1 [1; 3]%Q). repeat split; vm_compute; reflexivity.
Qed.
Lemma balanced_loss_actual : forall jk k n (P : nat -> nat -> R) cls nw (w : nat -> nat -> R) out, isRegression k -> (0 < nw)%nat -> (0 < n)%nat ->
  (forall i, (i < n)%nat -> (cls i < nw)%nat) ->
  compute (ROps jk) (absFloat (ROps jk)) k (set_class_balancing (ROps jk) (mgen nw 1 w)) (mgen n 1 P) (mgen n 1 (fun i _ => INR (cls i))) out =
  Ok (mgen 1 1 (fun _ j => lossColumn k n P (fun i _ => INR (cls i)) j * w (cls O) O)).
Proof.
  intros jk k n P cls nw w out H Hnw Hn Hc.
  assert (Hon : bon _ (set_class_balancing (ROps jk) (mgen nw 1 w)) = true).
  { unfold set_class_balancing. cbn [bon]. change (msize (mgen nw 1 w)) with (nw * 1)%nat.
    destruct (Nat.eqb_spec (nw * 1) 0); [lia | auto]. }
  assert (E : compute (ROps jk) (absFloat (ROps jk)) k (noBalance (ROps jk)) (mgen n 1 P) (mgen n 1 (fun i _ => INR (cls i))) out =
    Ok (mgen 1 1 (fun _ j => lossColumn k n P (fun i _ => INR (cls i)) j))) by exact (reg_compute jk k n 1 P (fun i _ => INR (cls i)) out H).
  set (bb := set_class_balancing (ROps jk) (mgen nw 1 w)) in *.
  assert (E2 : compute (ROps jk) (absFloat (ROps jk)) k bb (mgen n 1 P) (mgen n 1 (fun i _ => INR (cls i))) out =
    (l <- compute (ROps jk) (absFloat (ROps jk)) k (noBalance (ROps jk)) (mgen n 1 P) (mgen n 1 (fun i _ => INR (cls i))) out ;;
     balance_with_weight (ROps jk) bb (mgen n 1 (fun i _ => INR (cls i))) l)).
  { destruct k; simpl in H; try tauto; unfold compute, balanceIf; rewrite Hon;
    change (mcols (mgen n 1 (fun i _ => INR (cls i)))) with 1%nat; change (mcols (mgen n 1 P)) with 1%nat;
    change (mrows (mgen n 1 (fun i _ => INR (cls i)))) with n; change (mrows (mgen n 1 P)) with n;
    rewrite !Nat.eqb_refl; cbn [assert_ bind]; rewrite (msubM_gen (ROps jk)); cbn [bind];
    match goal with |- context [mapLoopR ?a ?b ?c] => destruct (mapLoopR a b c); [cbn [bind]|reflexivity] end;
    match goal with |- context [regReduce ?a ?b ?c] => destruct (regReduce a b c); reflexivity end. }
  rewrite E2, E. cbn [bind].
  unfold balance_with_weight. rewrite Hon. cbn [assert_ bind].
  change (mrows (mgen 1 1 (fun _ j => lossColumn k n P (fun i _ => INR (cls i)) j))) with 1%nat.
  rewrite (rows_loop_gen (ROps jk)) with (h := fun i j x => x * w (cls O) O); [reflexivity|].
  intros i p Hi. assert (i = O) by lia. subst i. rewrite mget1_col by auto. cbn [bind]. change (fle (ROps jk) (f0 (ROps jk)) (INR (cls O))) with (Rleb 0 (INR (cls O))).
  assert (E1 : Rleb 0 (INR (cls O)) = true). { unfold Rleb. destruct (Rle_dec 0 (INR (cls O))) as [|n0]; auto. exfalso; apply n0; apply pos_INR. }
  rewrite E1. cbn [assert_ bind]. change (bw _ bb) with (mgen nw 1 w). change (msize (mgen nw 1 w)) with (nw * 1)%nat. rewrite Nat.mul_1_r, fofN_R.
  change (flt (ROps jk) (INR (cls O)) (INR nw)) with (Rltb (INR (cls O)) (INR nw)).
  assert (E3 : Rltb (INR (cls O)) (INR nw) = true). { apply Rltb_true. apply lt_INR. auto. }
  rewrite E3. cbn [assert_ bind]. rewrite toIdx_INR. cbn [bind]. rewrite mget1_col by auto. cbn [bind].
  rewrite (rowLoop_gen (ROps jk)) with (h := fun _ x => x * w (cls O) O) by auto. reflexivity.
Qed.
