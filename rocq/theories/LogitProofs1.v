(* LogitProofs1.v - log-sum-exp is convex and smooth; gradient descent on the cross-entropy goes down *)
From Coq Require Import Arith Reals Lra Lia.
From Coquelicot Require Import Coquelicot.
From Verif Require Import SpecReal RSum SpecLinear LinProofs1 SpecLogit.
Local Open Scope R_scope.

(** * log-sum-exp *)
Section Lse.
Variable m : nat.
Hypothesis Hm : (0 < m)%nat.
Definition lse (z : nat -> R) : R := ln (rsum m (fun j => exp (z j))).
Definition soft (z : nat -> R) (j : nat) : R := exp (z j) / rsum m (fun l => exp (z l)).
Lemma sum_exp_pos : forall z, 0 < rsum m (fun j => exp (z j)).
Proof. intro z. apply rsum_pos; auto. intros. apply exp_pos. Qed.
Lemma soft_pos : forall z j, 0 < soft z j.
Proof. intros. apply Rdiv_lt_0_compat; [apply exp_pos|apply sum_exp_pos]. Qed.
Lemma soft_sum : forall z, rsum m (soft z) = 1.
Proof. intro z. unfold soft. rewrite rsum_div. unfold Rdiv. apply Rinv_r. pose proof (sum_exp_pos z). lra. Qed.
Lemma exp_ge : forall x, 1 + x <= exp x.
Proof. intro x. destruct (Req_dec x 0) as [->|H]; [rewrite exp_0; lra|]. left. apply exp_ineq1. auto. Qed.
(* Jensen *)
Lemma lse_convex : forall z w, lse z + rsum m (fun j => soft z j * (w j - z j)) <= lse w.
Proof.
  intros z w. set (mu := rsum m (fun j => soft z j * (w j - z j))). pose proof (sum_exp_pos z) as Z. pose proof (sum_exp_pos w) as W.
  assert (A : 1 <= rsum m (fun j => soft z j * exp (w j - z j - mu))).
  { apply Rle_trans with (rsum m (fun j => soft z j + (soft z j * (w j - z j) + - mu * soft z j))).
    - rewrite rsum_plus, (rsum_plus m (fun j => soft z j * (w j - z j))), rsum_scal. fold mu. rewrite soft_sum. lra.
    - apply rsum_le. intros j Hj. pose proof (soft_pos z j). pose proof (exp_ge (w j - z j - mu)). nra. }
  assert (B : rsum m (fun j => soft z j * exp (w j - z j - mu)) = rsum m (fun j => exp (w j)) * (exp (- mu) / rsum m (fun j => exp (z j)))).
  { rewrite <- rsum_scal_r. apply rsum_ext. intros j Hj. unfold soft. replace (w j - z j - mu) with (w j + (- z j + - mu)) by ring. rewrite !exp_plus. rewrite (exp_Ropp (z j)). field. split; [lra|]. pose proof (exp_pos (z j)). lra. }
  rewrite B in A. unfold lse. rewrite <- (ln_exp mu), <- ln_mult; auto; [|apply exp_pos]. apply ln_le; [apply Rmult_lt_0_compat; [lra|apply exp_pos]|].
  rewrite exp_Ropp in A. pose proof (exp_pos mu) as M. apply Rmult_le_reg_r with (/ exp mu * / rsum m (fun j => exp (z j))). { apply Rmult_lt_0_compat; apply Rinv_0_lt_compat; lra. }
  replace (rsum m (fun j => exp (z j)) * exp mu * (/ exp mu * / rsum m (fun j => exp (z j)))) with 1 by (field; lra). exact A.
Qed.
Lemma soft_le1 : forall z j, (j < m)%nat -> soft z j <= 1.
Proof. intros z j Hj. rewrite <- (soft_sum z). apply rsum_ge_term; auto. intros. apply Rlt_le, soft_pos. Qed.
(* the variance of d under the probabilities is at most half the sum of its squares *)
Lemma variance : forall z d, rsum m (fun j => soft z j * (d j * d j)) - rsum m (fun j => soft z j * d j) * rsum m (fun j => soft z j * d j) <= rsum m (fun j => d j * d j) / 2.
Proof.
  intros z d. set (p := soft z). set (A := rsum m (fun j => p j * (d j * d j))). set (B := rsum m (fun j => p j * d j)). set (D := rsum m (fun j => p j * p j * (d j * d j))).
  assert (E : rsum m (fun j => rsum m (fun l => p j * p l * ((d j + d l) * (d j + d l)))) = 2 * A + 2 * (B * B)).
  { rewrite (rsum_ext m _ (fun j => p j * (d j * d j) + (A * p j + 2 * B * (p j * d j)))).
    - rewrite rsum_plus, (rsum_plus m (fun j => A * p j)), !rsum_scal. unfold p at 2. rewrite soft_sum. fold A B. ring.
    - intros j Hj. rewrite (rsum_ext m _ (fun l => p j * (d j * d j) * p l + (p j * (p l * (d l * d l)) + 2 * (p j * d j) * (p l * d l)))) by (intros; ring).
      rewrite rsum_plus, (rsum_plus m (fun l => p j * (p l * (d l * d l)))), !rsum_scal. fold A B. unfold p at 2. rewrite soft_sum. ring. }
  assert (G : 4 * D <= 2 * A + 2 * (B * B)).
  { rewrite <- E. unfold D. rewrite <- rsum_scal. apply rsum_le. intros j Hj. apply Rle_trans with (p j * p j * ((d j + d j) * (d j + d j))); [right; ring|].
    apply (rsum_ge_term m (fun l => p j * p l * ((d j + d l) * (d j + d l)))); auto. intros l Hl. apply Rmult_le_pos; [|apply Rle_0_sqr]. apply Rmult_le_pos; apply Rlt_le, soft_pos. }
  assert (K : 2 * A - 2 * D <= rsum m (fun j => d j * d j) / 2).
  { unfold A, D. rewrite <- !rsum_scal, <- rsum_minus, <- rsum_div. apply rsum_le. intros j Hj. pose proof (Rle_0_sqr (2 * p j - 1)) as Q. unfold Rsqr in Q. pose proof (Rle_0_sqr (d j)) as Q2. unfold Rsqr in Q2. nra. }
  lra.
Qed.
(* along a line *)
Lemma sum_derive : forall (f f' : nat -> R -> R) t n, (forall j, is_derive (f j) t (f' j t)) -> is_derive (fun t => rsum n (fun j => f j t)) t (rsum n (fun j => f' j t)).
Proof. intros f f' t n H. induction n as [|n IH]; simpl; [apply @is_derive_const|]. apply (is_derive_plus (V := R_NormedModule) (fun t => rsum n (fun j => f j t)) (f n)); auto. Qed.
Section Line.
Variables z d : nat -> R.
Notation at_ t := (fun j => z j + t * d j).
Notation S0 t := (rsum m (fun j => exp (z j + t * d j))).
Lemma S_derive : forall t, is_derive (fun t => S0 t) t (rsum m (fun j => d j * exp (z j + t * d j))).
Proof. intro t. apply (sum_derive (fun j t => exp (z j + t * d j)) (fun j t => d j * exp (z j + t * d j))). intro j. auto_derive; auto. ring. Qed.
Lemma S2_derive : forall t, is_derive (fun t => rsum m (fun j => d j * exp (z j + t * d j))) t (rsum m (fun j => d j * d j * exp (z j + t * d j))).
Proof. intro t. apply (sum_derive (fun j t => d j * exp (z j + t * d j)) (fun j t => d j * d j * exp (z j + t * d j))). intro j. auto_derive; auto. ring. Qed.
Lemma slope_eq : forall t, rsum m (fun j => soft (at_ t) j * d j) = rsum m (fun j => d j * exp (z j + t * d j)) / S0 t.
Proof. intro t. rewrite <- rsum_div. apply rsum_ext. intros. unfold soft. unfold Rdiv. ring. Qed.
Lemma lse_derive : forall t, is_derive (fun t => lse (at_ t)) t (rsum m (fun j => soft (at_ t) j * d j)).
Proof.
  intro t. rewrite slope_eq. unfold lse. pose proof (sum_exp_pos (at_ t)) as P. evar_last.
  - apply (is_derive_comp ln (fun t => S0 t) t (/ S0 t) (rsum m (fun j => d j * exp (z j + t * d j)))); [|apply S_derive]. evar_last; [apply is_derive_Reals, derivable_pt_lim_ln; exact P|reflexivity].
  - unfold scal; simpl; unfold mult; simpl. reflexivity.
Qed.
Lemma slope_derive : forall t, is_derive (fun t => rsum m (fun j => soft (at_ t) j * d j)) t
  (rsum m (fun j => soft (at_ t) j * (d j * d j)) - rsum m (fun j => soft (at_ t) j * d j) * rsum m (fun j => soft (at_ t) j * d j)).
Proof.
  intro t. apply is_derive_ext with (f := fun t => rsum m (fun j => d j * exp (z j + t * d j)) / S0 t); [intro; symmetry; apply slope_eq|].
  pose proof (sum_exp_pos (at_ t)) as P. evar_last; [apply is_derive_div; [apply S2_derive|apply S_derive|lra]|]. rewrite slope_eq.
  rewrite (rsum_ext m (fun j => soft (at_ t) j * (d j * d j)) (fun j => d j * d j * exp (z j + t * d j) / S0 t)) by (intros; unfold soft; unfold Rdiv; ring). rewrite rsum_div. simpl. field. lra.
Qed.
Lemma lse_line : lse (fun j => z j + d j) <= lse z + rsum m (fun j => soft z j * d j) + rsum m (fun j => d j * d j) / 4.
Proof.
  set (K := rsum m (fun j => d j * d j)).
  assert (E0 : forall j, z j + 0 * d j = z j) by (intro; ring).
  assert (Z0 : lse (at_ 0) = lse z) by (unfold lse; f_equal; apply rsum_ext; intros; rewrite E0; reflexivity).
  assert (Z1 : lse (at_ 1) = lse (fun j => z j + d j)) by (unfold lse; f_equal; apply rsum_ext; intros; rewrite Rmult_1_l; reflexivity).
  assert (P0 : rsum m (fun j => soft (at_ 0) j * d j) = rsum m (fun j => soft z j * d j)). { apply rsum_ext. intros. unfold soft. rewrite E0. f_equal. f_equal. apply rsum_ext. intros. rewrite E0. reflexivity. }
  set (g := fun t => rsum m (fun j => soft (at_ t) j * d j)).
  assert (G : forall t, 0 < t -> g t - g 0 <= K / 2 * t).
  { intros t Ht. destruct (MVT_gen g 0 t (fun t => rsum m (fun j => soft (at_ t) j * (d j * d j)) - g t * g t)) as [q [Hq E]].
    - intros x _. apply slope_derive.
    - intros x _. apply continuity_pt_filterlim. apply @ex_derive_continuous. eexists. apply slope_derive.
    - rewrite E, Rminus_0_r. apply Rmult_le_compat_r; [lra|]. apply variance. }
  set (H := fun t => lse (at_ t) - (g 0 * t + K / 4 * (t * t))).
  assert (HD : forall x, is_derive H x (g x - (g 0 + K / 2 * x))).
  { intro x. unfold H. apply (is_derive_minus (V := R_NormedModule) (fun t => lse (at_ t)) (fun t => g 0 * t + K / 4 * (t * t))); [apply lse_derive|]. generalize (g 0). intro c. auto_derive; auto. lra. }
  destruct (MVT_gen H 0 1 (fun t => g t - (g 0 + K / 2 * t))) as [q [Hq E]].
  - intros x _. apply HD.
  - intros x _. apply continuity_pt_filterlim. apply @ex_derive_continuous. eexists. apply HD.
  - rewrite Rmin_left, Rmax_right in Hq by lra. assert (L : g q - (g 0 + K / 2 * q) <= 0). { destruct (Req_dec q 0) as [->|]; [lra|]. pose proof (G q ltac:(lra)). lra. }
    unfold H in E. rewrite Z0, Z1 in E. change (g 0) with (rsum m (fun j => soft (at_ 0) j * d j)) in *. rewrite P0 in *. lra.
Qed.
End Line.
End Lse.

(** * descent *)
Section Down.
Variables (N k m : nat) (X : nat -> nat -> R) (c : nat -> nat).
Hypothesis HN : (0 < N)%nat.
Hypothesis Hm : (0 < m)%nat.
Hypothesis Hc : forall i, (i < N)%nat -> (c i < m)%nat.
Notation score := (score k X). Notation chance := (chance k m X). Notation cross := (cross N k m X c). Notation err := (err k m X c).
Notation slopeW := (slopeW N k m X c). Notation slopeB := (slopeB N k m X c). Notation slopeNorm := (slopeNorm N k m X c). Notation down := (down N k m X c). Notation run := (run N k m X c).
Notation energy := (energy N k X). Notation dist2 := (dist2 k m).
Lemma INR_N : 0 < INR N.
Proof. apply lt_0_INR; auto. Qed.
Lemma chance_soft : forall p i j, chance p i j = soft m (score p i) j.
Proof. reflexivity. Qed.
Lemma cross_lse : forall p, cross p = rsum N (fun i => lse m (score p i) - score p i (c i)) / INR N.
Proof.
  intro p. unfold cross, SpecLogit.cross. f_equal. apply rsum_ext. intros i Hi. unfold chance, SpecLogit.chance, lse. pose proof (sum_exp_pos m Hm (score p i)) as P. unfold Rdiv. rewrite ln_mult; [|apply exp_pos|apply Rinv_0_lt_compat; exact P]. rewrite ln_exp, ln_Rinv by exact P. ring.
Qed.
Lemma err_dot : forall p i (d : nat -> R), (i < N)%nat -> rsum m (fun j => err p i j * d j) = rsum m (fun j => soft m (score p i) j * d j) - d (c i).
Proof.
  intros p i d Hi. unfold err, SpecLogit.err. rewrite (rsum_ext m _ (fun j => soft m (score p i) j * d j - (if (j =? c i)%nat then d j else 0))).
  - rewrite rsum_minus, rsum_delta by auto. reflexivity.
  - intros j Hj. rewrite (Nat.eqb_sym (c i)). rewrite chance_soft. destruct (j =? c i)%nat; ring.
Qed.
Definition dot (p : model) (V : nat -> nat -> R) (v : nat -> R) : R := rsum m (fun j => rsum k (fun l => slopeW p l j * V l j) + slopeB p j * v j).
Lemma dot_err : forall p V v, rsum N (fun i => rsum m (fun j => err p i j * (rsum k (fun l => X i l * V l j) + v j))) = INR N * dot p V v.
Proof.
  intros p V v. pose proof INR_N as c0. rewrite rsum_swap. unfold dot. rewrite <- rsum_scal. apply rsum_ext. intros j Hj.
  rewrite (rsum_ext N _ (fun i => rsum k (fun l => V l j * (X i l * err p i j)) + v j * err p i j)). 2:{ intros i Hi. rewrite Rmult_plus_distr_l, <- rsum_scal. f_equal; [|ring]. apply rsum_ext. intros. ring. }
  rewrite rsum_plus, rsum_swap, rsum_scal, Rmult_plus_distr_l. f_equal.
  - rewrite <- rsum_scal. apply rsum_ext. intros l Hl. rewrite rsum_scal. unfold slopeW, SpecLogit.slopeW. field. lra.
  - unfold slopeB, SpecLogit.slopeB. field. lra.
Qed.
Lemma norm_dot : forall p, slopeNorm p = dot p (slopeW p) (slopeB p).
Proof. reflexivity. Qed.
Lemma slope_pos : forall p, 0 <= slopeNorm p.
Proof. intro p. apply rsum_nonneg. intros j Hj. assert (0 <= rsum k (fun l => slopeW p l j * slopeW p l j)) by (apply rsum_nonneg; intros; apply Rle_0_sqr). pose proof (Rle_0_sqr (slopeB p j)) as Q. unfold Rsqr in Q. lra. Qed.
Theorem down_step : forall eta p, cross (down eta p) <= cross p - eta * (1 - eta * energy / (4 * INR N)) * slopeNorm p.
Proof.
  intros eta p. pose proof INR_N as c0. set (D := fun i j => rsum k (fun l => X i l * slopeW p l j) + slopeB p j).
  assert (E1 : forall i j, score (down eta p) i j = score p i j + - eta * D i j).
  { intros i j. unfold score, SpecLogit.score, down, SpecLogit.down, D. cbn [fst snd]. rewrite (rsum_ext k (fun l => X i l * (fst p l j - eta * slopeW p l j)) (fun l => X i l * fst p l j + (- eta) * (X i l * slopeW p l j))) by (intros; ring). rewrite rsum_plus, rsum_scal. ring. }
  assert (G1 : rsum N (fun i => rsum m (fun j => err p i j * D i j)) = INR N * slopeNorm p) by (rewrite norm_dot, <- dot_err; reflexivity).
  assert (G2 : rsum N (fun i => rsum m (fun j => D i j * D i j)) <= energy * slopeNorm p).
  { unfold energy, SpecLinear.energy. rewrite <- rsum_scal_r. apply rsum_le. intros i Hi. unfold slopeNorm, SpecLogit.slopeNorm. rewrite <- rsum_scal. apply rsum_le. intros j Hj. apply cauchy. }
  assert (S : rsum N (fun i => lse m (score (down eta p) i) - score (down eta p) i (c i)) <= rsum N (fun i => lse m (score p i) - score p i (c i)) - eta * (INR N * slopeNorm p) + eta * eta / 4 * (energy * slopeNorm p)).
  { apply Rle_trans with (rsum N (fun i => (lse m (score p i) - score p i (c i)) + ((- eta) * rsum m (fun j => err p i j * D i j) + (eta * eta / 4) * rsum m (fun j => D i j * D i j)))).
    - apply rsum_le. intros i Hi. pose proof (lse_line m Hm (score p i) (fun j => - eta * D i j)) as L. cbv beta in L.
      replace (lse m (score (down eta p) i)) with (lse m (fun j => score p i j + - eta * D i j)) by (unfold lse; f_equal; apply rsum_ext; intros; rewrite E1; reflexivity).
      rewrite E1. rewrite (rsum_ext m (fun j => - eta * D i j * (- eta * D i j)) (fun j => (eta * eta) * (D i j * D i j))) in L by (intros; ring). rewrite rsum_scal in L.
      rewrite (rsum_ext m (fun j => soft m (score p i) j * (- eta * D i j)) (fun j => (- eta) * (soft m (score p i) j * D i j))) in L by (intros; ring). rewrite rsum_scal in L. rewrite (err_dot p i (D i) Hi). lra.
    - rewrite rsum_plus, (rsum_plus N (fun i => - eta * rsum m (fun j => err p i j * D i j))), !rsum_scal, G1. assert (eta * eta / 4 * rsum N (fun i => rsum m (fun j => D i j * D i j)) <= eta * eta / 4 * (energy * slopeNorm p)) by (apply Rmult_le_compat_l; [nra|auto]). lra. }
  rewrite !cross_lse. apply Rmult_le_reg_r with (INR N); auto. unfold Rdiv at 1. rewrite (Rmult_assoc _ (/ INR N)), Rinv_l, Rmult_1_r by lra. eapply Rle_trans; [exact S|]. right. field. lra.
Qed.
Lemma down_half : forall eta p, 0 <= eta -> eta * energy <= 2 * INR N -> cross (down eta p) <= cross p - eta / 2 * slopeNorm p.
Proof.
  intros eta p He Hb. pose proof INR_N as c0. pose proof (down_step eta p) as S. pose proof (slope_pos p) as G. assert (Q : eta * energy / (4 * INR N) <= 1 / 2). { apply Rmult_le_reg_r with (4 * INR N); [lra|]. unfold Rdiv at 1. rewrite Rmult_assoc, Rinv_l by lra. lra. }
  assert (eta * (1 / 2) * slopeNorm p <= eta * (1 - eta * energy / (4 * INR N)) * slopeNorm p) by (apply Rmult_le_compat_r; auto; apply Rmult_le_compat_l; lra). lra.
Qed.
Theorem down_all : forall eta p e q, 0 <= eta -> eta * energy <= 4 * INR N -> (e <= q)%nat -> cross (run eta p q) <= cross (run eta p e).
Proof.
  intros eta p e q He Hb L. induction L as [|q L IH]; [lra|]. eapply Rle_trans; [|exact IH]. cbn [SpecLogit.run]. eapply Rle_trans; [apply down_step|]. set (p' := run eta p q). pose proof INR_N as c0.
  assert (Q : eta * energy / (4 * INR N) <= 1). { apply Rmult_le_reg_r with (4 * INR N); [lra|]. unfold Rdiv. rewrite Rmult_assoc, Rinv_l by lra. lra. }
  pose proof (slope_pos p'). assert (0 <= eta * (1 - eta * energy / (4 * INR N)) * slopeNorm p') by (apply Rmult_le_pos; auto; apply Rmult_le_pos; lra). lra.
Qed.
Lemma cross_convex : forall p q, cross p - cross q <= dot p (fun l j => fst p l j - fst q l j) (fun j => snd p j - snd q j).
Proof.
  intros p q. pose proof INR_N as c0. set (I := dot p _ _).
  assert (E : rsum N (fun i => rsum m (fun j => err p i j * (score p i j - score q i j))) = INR N * I).
  { unfold I. rewrite <- dot_err. apply rsum_ext. intros i Hi. apply rsum_ext. intros j Hj. f_equal. unfold score, SpecLogit.score. rewrite (rsum_ext k (fun l => X i l * (fst p l j - fst q l j)) (fun l => X i l * fst p l j - X i l * fst q l j)) by (intros; ring). rewrite rsum_minus. ring. }
  rewrite !cross_lse. apply Rmult_le_reg_r with (INR N); auto. unfold Rdiv. rewrite Rmult_minus_distr_r, !Rmult_assoc, Rinv_l, !Rmult_1_r by lra. rewrite <- rsum_minus, (Rmult_comm I), <- E. apply rsum_le. intros i Hi.
  rewrite (err_dot p i (fun j => score p i j - score q i j) Hi). pose proof (lse_convex m Hm (score p i) (score q i)) as L. rewrite (rsum_ext m (fun j => soft m (score p i) j * (score q i j - score p i j)) (fun j => - (soft m (score p i) j * (score p i j - score q i j)))) in L by (intros; ring). rewrite rsum_opp in L. lra.
Qed.
Lemma down_dist : forall eta p q, dist2 (down eta p) q = dist2 p q - 2 * eta * dot p (fun l j => fst p l j - fst q l j) (fun j => snd p j - snd q j) + eta * eta * slopeNorm p.
Proof.
  intros eta p q. unfold dist2, SpecLinear.dist2, dot, slopeNorm, SpecLogit.slopeNorm.
  set (d := fun l j => fst p l j - fst q l j). set (b := fun j => snd p j - snd q j).
  rewrite (rsum_ext m _ (fun j => (rsum k (fun l => d l j * d l j) + b j * b j) + ((- (2 * eta)) * (rsum k (fun l => slopeW p l j * d l j) + slopeB p j * b j) + (eta * eta) * (rsum k (fun l => slopeW p l j * slopeW p l j) + slopeB p j * slopeB p j)))).
  - rewrite (rsum_lin3 m (fun j => rsum k (fun l => d l j * d l j) + b j * b j) (fun j => rsum k (fun l => slopeW p l j * d l j) + slopeB p j * b j) (fun j => rsum k (fun l => slopeW p l j * slopeW p l j) + slopeB p j * slopeB p j)). unfold d, b. ring.
  - intros j Hj. unfold down, SpecLogit.down. cbn [fst snd].
    rewrite (rsum_ext k _ (fun l => d l j * d l j + ((- (2 * eta)) * (slopeW p l j * d l j) + (eta * eta) * (slopeW p l j * slopeW p l j)))) by (intros; unfold d; ring). rewrite (rsum_lin3 k (fun l => d l j * d l j) (fun l => slopeW p l j * d l j) (fun l => slopeW p l j * slopeW p l j)). unfold b. ring.
Qed.
Lemma dist_pos : forall p q, 0 <= dist2 p q.
Proof. intros p q. apply rsum_nonneg. intros j Hj. assert (0 <= rsum k (fun l => (fst p l j - fst q l j) * (fst p l j - fst q l j))) by (apply rsum_nonneg; intros; apply Rle_0_sqr). pose proof (Rle_0_sqr (snd p j - snd q j)) as Q. unfold Rsqr in Q. lra. Qed.
(* against any parameters q, the loss after E steps exceeds the loss of q by at most |p - q|^2 / (2 eta E) *)
Theorem run_converges : forall eta p q E, 0 < eta -> eta * energy <= 2 * INR N -> (0 < E)%nat -> cross (run eta p E) <= cross q + dist2 p q / (2 * eta * INR E).
Proof.
  intros eta p q E He Hb HE. pose proof INR_N as c0.
  assert (A : forall e, 2 * eta * (cross (run eta p (S e)) - cross q) <= dist2 (run eta p e) q - dist2 (run eta p (S e)) q).
  { intro e. cbn [SpecLogit.run]. set (p' := run eta p e). rewrite down_dist. pose proof (cross_convex p' q) as C. pose proof (down_half eta p' ltac:(lra) Hb) as B. set (I := dot p' _ _) in *. set (G := slopeNorm p') in *. apply Rle_trans with (2 * eta * (I - eta / 2 * G)); [apply Rmult_le_compat_l; lra|]. right. field. }
  assert (B : forall E, 2 * eta * rsum E (fun e => cross (run eta p (S e)) - cross q) <= dist2 p q - dist2 (run eta p E) q).
  { induction E0 as [|E0 IH]; [simpl; lra|]. cbn [rsum]. pose proof (A E0). rewrite Rmult_plus_distr_l. lra. }
  pose proof (dist_pos (run eta p E) q) as D0.
  assert (C : INR E * (cross (run eta p E) - cross q) <= rsum E (fun e => cross (run eta p (S e)) - cross q)).
  { rewrite <- rsum_const. apply rsum_le. intros e He0. assert (cross (run eta p E) <= cross (run eta p (S e))) by (apply down_all; [lra|lra|lia]). lra. }
  specialize (B E). assert (E0 : 0 < INR E) by (apply lt_0_INR; auto). assert (P : 0 < 2 * eta * INR E) by (apply Rmult_lt_0_compat; lra).
  assert (K : (2 * eta * INR E) * (cross (run eta p E) - cross q) <= dist2 p q). { rewrite Rmult_assoc. eapply Rle_trans; [apply Rmult_le_compat_l; [lra|exact C]|]. lra. }
  assert (K2 : cross (run eta p E) - cross q <= dist2 p q / (2 * eta * INR E)). { apply Rmult_le_reg_l with (2 * eta * INR E); auto. replace (2 * eta * INR E * (dist2 p q / (2 * eta * INR E))) with (dist2 p q) by (field; split; lra). exact K. }
  lra.
Qed.
(* one sample's loss is at most the sum of all *)
Lemma chance_pos : forall p i j, 0 < chance p i j.
Proof. intros. apply soft_pos; auto. Qed.
Lemma chance_le1 : forall p i j, (j < m)%nat -> chance p i j <= 1.
Proof. intros. apply soft_le1; auto. Qed.
Lemma one_loss : forall p i, (i < N)%nat -> - ln (chance p i (c i)) <= INR N * cross p.
Proof.
  intros p i Hi. pose proof INR_N as c0. unfold cross, SpecLogit.cross. replace (INR N * (rsum N (fun i0 => - ln (chance p i0 (c i0))) / INR N)) with (rsum N (fun i0 => - ln (chance p i0 (c i0)))) by (field; lra).
  apply (rsum_ge_term N (fun i => - ln (chance p i (c i)))); auto. intros j Hj. pose proof (chance_pos p j (c j)). pose proof (chance_le1 p j (c j) (Hc j Hj)). assert (ln (chance p j (c j)) <= ln 1) by (apply ln_le; auto). rewrite ln_1 in *. lra.
Qed.
Lemma small_chance : forall p b, 0 < b -> INR N * cross p <= - ln b -> forall i, (i < N)%nat -> b <= chance p i (c i).
Proof.
  intros p b Hb H i Hi. pose proof (one_loss p i Hi) as L. pose proof (chance_pos p i (c i)). destruct (Rle_lt_dec b (chance p i (c i))); auto. exfalso. assert (ln (chance p i (c i)) < ln b) by (apply ln_increasing; auto). lra.
Qed.
Theorem run_alive : forall eta p e, 0 <= eta -> eta * energy <= 4 * INR N -> INR N * cross p <= ln 100000000 -> alive N k m X c (run eta p e).
Proof.
  intros eta p e He Hb H i Hi. apply small_chance; auto; [lra|]. unfold Rdiv. rewrite Rmult_1_l, ln_Rinv by lra. pose proof (down_all eta p 0 e He Hb ltac:(lia)) as D. cbn [SpecLogit.run] in D. pose proof INR_N. assert (INR N * cross (run eta p e) <= INR N * cross p) by (apply Rmult_le_compat_l; lra). lra.
Qed.
(* a total loss below ln 2 classifies every sample right *)
Theorem low_right : forall p, INR N * cross p < ln 2 -> allRight N k m X c p.
Proof.
  intros p H i j Hi Hj Ne. pose proof (one_loss p i Hi) as L. pose proof (chance_pos p i (c i)) as P. pose proof (Hc i Hi) as Ci.
  assert (Half : 1 / 2 < chance p i (c i)). { destruct (Rlt_le_dec (1 / 2) (chance p i (c i))); auto. exfalso. assert (ln (chance p i (c i)) <= ln (1 / 2)) by (apply ln_le; auto). unfold Rdiv in *. rewrite Rmult_1_l, ln_Rinv in * by lra. lra. }
  assert (Sum : chance p i j + chance p i (c i) <= 1).
  { rewrite <- (soft_sum m Hm (score p i)). rewrite <- (rsum_delta m j (fun l => chance p i l) Hj), <- (rsum_delta m (c i) (fun l => chance p i l) Ci), <- rsum_plus. apply rsum_le. intros l Hl. rewrite chance_soft. pose proof (soft_pos m Hm (score p i) l). destruct (Nat.eqb_spec l j), (Nat.eqb_spec l (c i)); subst; try lra. congruence. }
  assert (Q : chance p i j < chance p i (c i)) by lra. unfold chance, SpecLogit.chance in Q. pose proof (sum_exp_pos m Hm (score p i)) as Z. apply exp_lt_inv. apply Rmult_lt_reg_r with (/ rsum m (fun l => exp (score p i l))); [apply Rinv_0_lt_compat; exact Z|]. exact Q.
Qed.
(* if some model has a total loss below ln 2, every sample is classified right after a bounded number of steps, and stays so *)
Theorem run_right : forall eta p q e, 0 < eta -> eta * energy <= 2 * INR N -> (0 < e)%nat -> INR N * cross q + INR N * dist2 p q / (2 * eta * INR e) < ln 2 -> allRight N k m X c (run eta p e).
Proof.
  intros eta p q e He Hb H0 H. apply low_right. pose proof INR_N as c0. pose proof (run_converges eta p q e He Hb H0) as R. apply Rmult_le_compat_l with (r := INR N) in R; [|lra]. unfold Rdiv in *. lra.
Qed.

(** * data that some model classifies *)
Lemma fin_min : forall n (f : nat -> R), (forall i, (i < n)%nat -> 0 < f i) -> exists g, 0 < g /\ forall i, (i < n)%nat -> g <= f i.
Proof.
  induction n as [|n IH]; intros f H; [exists 1; split; [lra|intros; lia]|]. destruct (IH f) as (g & G & Q); [auto|]. exists (Rmin g (f n)). split; [apply Rmin_glb_lt; auto|]. intros i Hi. destruct (Nat.eq_dec i n) as [->|]; [apply Rmin_r|]. eapply Rle_trans; [apply Rmin_l|]. apply Q. lia.
Qed.
Lemma margin : forall q, allRight N k m X c q -> exists g, 0 < g /\ forall i j, (i < N)%nat -> (j < m)%nat -> j <> c i -> score q i j - score q i (c i) <= - g.
Proof.
  intros q Al.
  assert (A : forall i, exists g, 0 < g /\ ((i < N)%nat -> forall j, (j < m)%nat -> j <> c i -> score q i j - score q i (c i) <= - g)).
  { intro i. destruct (le_lt_dec N i) as [L|L]; [exists 1; split; [lra|lia]|]. destruct (fin_min m (fun j => if (j =? c i)%nat then 1 else score q i (c i) - score q i j)) as (g & G & Q).
    - intros j Hj. destruct (Nat.eqb_spec j (c i)); [lra|]. pose proof (Al i j L Hj n). lra.
    - exists g. split; auto. intros _ j Hj Nj. specialize (Q j Hj). cbv beta in Q. destruct (Nat.eqb_spec j (c i)); [congruence|]. lra. }
  assert (B : forall n, exists g, 0 < g /\ forall i, (i < n)%nat -> (i < N)%nat -> forall j, (j < m)%nat -> j <> c i -> score q i j - score q i (c i) <= - g).
  { induction n as [|n (g & G & Q)]; [exists 1; split; [lra|intros; lia]|]. destruct (A n) as (g2 & G2 & Q2). exists (Rmin g g2). split; [apply Rmin_glb_lt; auto|]. intros i Hi Hn j Hj Nj. pose proof (Rmin_l g g2). pose proof (Rmin_r g g2). destruct (Nat.eq_dec i n) as [->|]; [pose proof (Q2 Hn j Hj Nj); lra|]. pose proof (Q i ltac:(lia) Hn j Hj Nj). lra. }
  destruct (B N) as (g & G & Q). exists g. split; auto.
Qed.
Definition times (r : R) (q : model) : model := (fun l j => r * fst q l j, fun j => r * snd q j).
Lemma score_times : forall r q i j, score (times r q) i j = r * score q i j.
Proof. intros. unfold score, SpecLogit.score, times. cbn [fst snd]. rewrite (rsum_ext k _ (fun l => r * (X i l * fst q l j))) by (intros; ring). rewrite rsum_scal. ring. Qed.
Lemma ln_le_sub : forall x, 0 < x -> ln x <= x - 1.
Proof. intros x Hx. rewrite <- (ln_exp (x - 1)). apply ln_le; auto. pose proof (exp_ge (x - 1)). lra. Qed.
Lemma times_loss : forall q g r, 0 < g -> 0 < r -> (forall i j, (i < N)%nat -> (j < m)%nat -> j <> c i -> score q i j - score q i (c i) <= - g) -> INR N * cross (times r q) <= INR N * INR m / (r * g).
Proof.
  intros q g r Hg Hr Mg. pose proof INR_N as c0. assert (P : 0 < r * g) by (apply Rmult_lt_0_compat; auto). assert (Hi0 : 0 < / (r * g)) by (apply Rinv_0_lt_compat; auto). assert (Pm : 0 < INR m) by (apply lt_0_INR; auto).
  unfold cross, SpecLogit.cross. replace (INR N * (rsum N (fun i => - ln (chance (times r q) i (c i))) / INR N)) with (rsum N (fun i => - ln (chance (times r q) i (c i)))) by (field; lra).
  unfold Rdiv. rewrite Rmult_assoc, <- rsum_const. apply rsum_le. intros i Hi. set (z := score (times r q) i).
  change (chance (times r q) i (c i)) with (exp (z (c i)) / rsum m (fun l => exp (z l))). pose proof (sum_exp_pos m Hm z) as Z. pose proof (exp_pos (z (c i))) as Ec.
  rewrite <- ln_Rinv by (apply Rdiv_lt_0_compat; auto). replace (/ (exp (z (c i)) / rsum m (fun l => exp (z l)))) with (rsum m (fun l => exp (z l - z (c i)))).
  2:{ rewrite (rsum_ext m _ (fun l => exp (z l) * / exp (z (c i)))) by (intros; unfold Rminus; rewrite exp_plus, exp_Ropp; reflexivity). rewrite rsum_scal_r. field. lra. }
  eapply Rle_trans; [apply ln_le_sub, rsum_pos; auto; intros; apply exp_pos|].
  apply Rle_trans with (rsum m (fun l => (if (l =? c i)%nat then 1 else 0) + / (r * g)) - 1).
  - apply Rplus_le_compat_r, rsum_le. intros l Hl. destruct (Nat.eqb_spec l (c i)) as [->|Nl]; [rewrite Rminus_diag_eq, exp_0 by reflexivity; lra|]. rewrite Rplus_0_l. unfold z. rewrite !score_times. specialize (Mg i l Hi Hl Nl).
    replace (r * score q i l - r * score q i (c i)) with (- (r * (score q i (c i) - score q i l))) by ring. rewrite exp_Ropp. apply Rinv_le_contravar; auto. apply Rle_trans with (r * (score q i (c i) - score q i l)); [apply Rmult_le_compat_l; lra|]. pose proof (exp_ge (r * (score q i (c i) - score q i l))). lra.
  - rewrite rsum_plus, rsum_const. rewrite (rsum_delta m (c i) (fun _ => 1) (Hc i Hi)). lra.
Qed.
(* if some model classifies the samples, so does gradient descent from some step on *)
Theorem run_separable : forall eta p q, 0 < eta -> eta * energy <= 2 * INR N -> allRight N k m X c q -> exists E0, forall e, (E0 <= e)%nat -> allRight N k m X c (run eta p e).
Proof.
  intros eta p q He Hb Al. pose proof INR_N as c0. assert (Pm : 0 < INR m) by (apply lt_0_INR; auto). destruct (margin q Al) as (g & G & Mg). set (r := 4 * (INR N * INR m) / g). assert (NM : 0 < INR N * INR m) by (apply Rmult_lt_0_compat; auto). assert (Hr : 0 < r) by (apply Rdiv_lt_0_compat; lra).
  pose proof (times_loss q g r G Hr Mg) as T. replace (INR N * INR m / (r * g)) with (1 / 4) in T by (unfold r; field; lra).
  set (d := INR N * dist2 p (times r q) / (2 * eta)).  assert (D0 : 0 <= d). { unfold d. apply Rmult_le_pos; [apply Rmult_le_pos; [lra|apply dist_pos]|]. apply Rlt_le, Rinv_0_lt_compat; lra. } destruct (nfloor_ex (4 * d)) as (E1 & _ & HE); [apply Rmult_le_pos; [lra|exact D0]|]. set (E0 := S E1) in *. assert (HE0 : 4 * d < INR E0) by (unfold E0; rewrite S_INR; exact HE). exists (S E0). intros e Le. apply run_right with (q := times r q); auto; [lia|].
  assert (Ie : INR E0 < INR e) by (apply lt_INR; lia). pose proof ln_lt_2 as L2. assert (0 < INR e) by lra.
  assert (Q : INR N * dist2 p (times r q) / (2 * eta * INR e) <= 1 / 4). { replace (INR N * dist2 p (times r q) / (2 * eta * INR e)) with (d / INR e) by (unfold d; field; lra). apply Rmult_le_reg_r with (INR e); auto. unfold Rdiv. rewrite Rmult_assoc, Rinv_l by lra. lra. }
  lra.
Qed.
End Down.
