(* LinProofs1.v - gradient descent on the squared error of a linear model goes down *)
From Coq Require Import Arith Reals Lra Lia.
From Verif Require Import SpecReal RSum SpecLinear.
Local Open Scope R_scope.

Lemma cauchy : forall n (a b : nat -> R) c, (rsum n (fun i => a i * b i) + c) * (rsum n (fun i => a i * b i) + c) <= (rsum n (fun i => a i * a i) + 1) * (rsum n (fun i => b i * b i) + c * c).
Proof.
  induction n as [|n IH]; intros a b c; simpl; [lra|]. pose proof (IH a b c) as H. set (S := rsum n (fun i => a i * b i) + c) in *. set (A := rsum n (fun i => a i * a i) + 1) in *. set (B := rsum n (fun i => b i * b i) + c * c) in *.
  assert (A0 : 1 <= A). { unfold A. assert (0 <= rsum n (fun i => a i * a i)) by (apply rsum_nonneg; intros; nra). lra. } assert (B0 : 0 <= B). { unfold B. assert (0 <= rsum n (fun i => b i * b i)) by (apply rsum_nonneg; intros; nra). nra. }
  replace (rsum n (fun i => a i * b i) + a n * b n + c) with (S + a n * b n) by (unfold S; ring). replace (rsum n (fun i => a i * a i) + a n * a n + 1) with (A + a n * a n) by (unfold A; ring). replace (rsum n (fun i => b i * b i) + b n * b n + c * c) with (B + b n * b n) by (unfold B; ring).
  set (x := a n). set (y := b n).
  (* 2 S x y <= A y^2 + B x^2 since S^2 <= A B *)
  assert (K : 2 * S * x * y <= A * (y * y) + B * (x * x)).
  { destruct (Req_dec B 0) as [Z|Z].
    - rewrite Z in *. assert (S * S <= 0) by lra. assert (S = 0) by nra. subst S. rewrite H1. assert (0 <= A * (y * y)) by (apply Rmult_le_pos; [lra|apply Rle_0_sqr]). lra.
    - assert (0 < B) by lra. apply Rmult_le_reg_l with B; auto. pose proof (Rle_0_sqr (B * x - S * y)) as Q. unfold Rsqr in Q. assert (S * S * (y * y) <= A * B * (y * y)) by (apply Rmult_le_compat_r; [apply Rle_0_sqr|exact H]). lra. }
  nra.
Qed.

Section Lin.
Variables (N k m : nat) (X T : nat -> nat -> R).
Hypothesis HN : (0 < N)%nat.
Hypothesis Hm : (0 < m)%nat.
Notation resid := (resid k X T). Notation mse := (mse N k m X T). Notation gradW := (gradW N k m X T). Notation gradB := (gradB N k m X T). Notation gradNorm := (gradNorm N k m X T).
Notation descend := (descend N k m X T). Notation energy := (energy N k X).

Theorem descent_step : forall eta p, mse (descend eta p) <= mse p - eta * (2 - eta * energy / (INR N * INR m)) * gradNorm p.
Proof.
  intros eta p. set (c := INR N * INR m). assert (c0 : 0 < c) by (unfold c; apply Rmult_lt_0_compat; apply lt_0_INR; auto).
  set (D := fun i j => rsum k (fun l => X i l * gradW p l j) + gradB p j).
  assert (E1 : forall i j, resid (descend eta p) i j = resid p i j - eta * D i j).
  { intros i j. unfold resid, SpecLinear.resid, descend, SpecLinear.descend, D. cbn [fst snd]. rewrite (rsum_ext k (fun l => X i l * (fst p l j - eta * gradW p l j)) (fun l => X i l * fst p l j + (- eta) * (X i l * gradW p l j))) by (intros; ring). rewrite rsum_plus, rsum_scal. ring. }
  assert (G1 : rsum N (fun i => rsum m (fun j => resid p i j * D i j)) = c * gradNorm p).
  { rewrite rsum_swap. unfold gradNorm, SpecLinear.gradNorm. rewrite <- rsum_scal. apply rsum_ext. intros j Hj. unfold D.
    rewrite (rsum_ext N _ (fun i => rsum k (fun l => gradW p l j * (X i l * resid p i j)) + gradB p j * resid p i j)). 2:{ intros i Hi. rewrite Rmult_plus_distr_l, <- rsum_scal. f_equal; [|ring]. apply rsum_ext. intros. ring. }
    rewrite rsum_plus, rsum_swap, rsum_scal. rewrite Rmult_plus_distr_l. f_equal.
    - rewrite <- rsum_scal. apply rsum_ext. intros l Hl. rewrite rsum_scal. unfold gradW at 3, SpecLinear.gradW. fold c. field. lra.
    - unfold gradB at 3, SpecLinear.gradB. fold c. field. lra. }
  assert (G2 : rsum N (fun i => rsum m (fun j => D i j * D i j)) <= energy * gradNorm p).
  { unfold energy, SpecLinear.energy. rewrite <- rsum_scal_r. apply rsum_le. intros i Hi. unfold gradNorm, SpecLinear.gradNorm. rewrite <- rsum_scal. apply rsum_le. intros j Hj. apply cauchy. }
  assert (E2 : rsum N (fun i => rsum m (fun j => resid (descend eta p) i j * resid (descend eta p) i j)) = rsum N (fun i => rsum m (fun j => resid p i j * resid p i j)) - 2 * eta * (c * gradNorm p) + eta * eta * rsum N (fun i => rsum m (fun j => D i j * D i j))).
  { rewrite <- G1. rewrite (rsum_ext N _ (fun i => rsum m (fun j => resid p i j * resid p i j) + ((- 2 * eta) * rsum m (fun j => resid p i j * D i j) + eta * eta * rsum m (fun j => D i j * D i j)))).
    - rewrite !rsum_plus, !rsum_scal. ring.
    - intros i Hi. rewrite <- !rsum_scal, <- !rsum_plus. apply rsum_ext. intros j Hj. rewrite E1. ring. }
  unfold mse, SpecLinear.mse. fold c. change (SpecLinear.resid k X T) with resid. change (SpecLinear.descend N k m X T) with descend. rewrite E2.
  set (R2 := rsum N (fun i => rsum m (fun j => resid p i j * resid p i j))). set (D2 := rsum N (fun i => rsum m (fun j => D i j * D i j))) in *. set (G := gradNorm p) in *.
  apply Rmult_le_reg_r with c; auto. unfold Rdiv. rewrite (Rmult_assoc _ (/ c) c), Rinv_l by lra. rewrite Rmult_minus_distr_r. rewrite (Rmult_assoc _ (/ c) c), Rinv_l by lra.
  replace (eta * (2 - eta * energy * / c) * G * c) with (2 * eta * (c * G) - eta * eta * (energy * G)) by (field; lra).
  assert (eta * eta * D2 <= eta * eta * (energy * G)) by (apply Rmult_le_compat_l; [nra|auto]). lra.
Qed.
Lemma norm_pos : forall p, 0 <= gradNorm p.
Proof. intro p. apply rsum_nonneg. intros j Hj. assert (0 <= rsum k (fun l => gradW p l j * gradW p l j)) by (apply rsum_nonneg; intros; nra). assert (0 <= gradB p j * gradB p j) by nra. lra. Qed.
Lemma mse_pos : forall p, 0 <= mse p.
Proof.
  intro p. unfold mse, SpecLinear.mse. apply Rmult_le_pos; [apply rsum_nonneg; intros; apply rsum_nonneg; intros; nra|]. apply Rlt_le, Rinv_0_lt_compat. apply Rmult_lt_0_compat; apply lt_0_INR; auto.
Qed.
Theorem descent_all : forall eta p e q, 0 <= eta -> eta * energy <= 2 * (INR N * INR m) -> (e <= q)%nat -> mse (iterate N k m X T eta p q) <= mse (iterate N k m X T eta p e).
Proof.
  intros eta p e q He Hb L. induction L as [|q L IH]; [lra|]. eapply Rle_trans; [|exact IH]. cbn [iterate]. eapply Rle_trans; [apply descent_step|]. set (p' := iterate N k m X T eta p q). set (c := INR N * INR m) in *.
  assert (c0 : 0 < c) by (unfold c; apply Rmult_lt_0_compat; apply lt_0_INR; auto). assert (Q : eta * energy / c <= 2). { apply Rmult_le_reg_r with c; auto. unfold Rdiv. rewrite Rmult_assoc, Rinv_l by lra. lra. }
  pose proof (norm_pos p'). assert (0 <= eta * (2 - eta * energy / c) * gradNorm p') by (apply Rmult_le_pos; auto; apply Rmult_le_pos; lra). lra.
Qed.
(* with a rate below half the bound the gradients are square summable: the run approaches a stationary point *)
Theorem descent_sum : forall eta p E, 0 <= eta -> eta * energy <= INR N * INR m -> eta * rsum E (fun e => gradNorm (iterate N k m X T eta p e)) <= mse p.
Proof.
  intros eta p E He Hb. set (c := INR N * INR m) in *. assert (c0 : 0 < c) by (unfold c; apply Rmult_lt_0_compat; apply lt_0_INR; auto).
  assert (H : eta * rsum E (fun e => gradNorm (iterate N k m X T eta p e)) <= mse p - mse (iterate N k m X T eta p E)).
  { induction E as [|E IH]; [simpl; lra|]. cbn [rsum iterate]. set (p' := iterate N k m X T eta p E) in *. pose proof (descent_step eta p') as S. fold c in S.
    assert (Q : eta * energy / c <= 1). { apply Rmult_le_reg_r with c; auto. unfold Rdiv. rewrite Rmult_assoc, Rinv_l by lra. lra. }
    pose proof (norm_pos p') as Np. assert (eta * 1 * gradNorm p' <= eta * (2 - eta * energy / c) * gradNorm p') by (apply Rmult_le_compat_r; auto; apply Rmult_le_compat_l; lra). lra. }
  pose proof (mse_pos (iterate N k m X T eta p E)). lra.
Qed.

(** * convergence to the least loss *)
Definition inner (p : model) (V : nat -> nat -> R) (v : nat -> R) : R := rsum m (fun j => rsum k (fun l => gradW p l j * V l j) + gradB p j * v j).
Lemma inner_resid : forall p V v, rsum N (fun i => rsum m (fun j => resid p i j * (rsum k (fun l => X i l * V l j) + v j))) = INR N * INR m * inner p V v.
Proof.
  intros p V v. set (c := INR N * INR m). assert (c0 : 0 < c) by (unfold c; apply Rmult_lt_0_compat; apply lt_0_INR; auto).
  rewrite rsum_swap. unfold inner. rewrite <- rsum_scal. apply rsum_ext. intros j Hj.
  rewrite (rsum_ext N _ (fun i => rsum k (fun l => V l j * (X i l * resid p i j)) + v j * resid p i j)). 2:{ intros i Hi. rewrite Rmult_plus_distr_l, <- rsum_scal. f_equal; [|ring]. apply rsum_ext. intros. ring. }
  rewrite rsum_plus, rsum_swap, rsum_scal, Rmult_plus_distr_l. f_equal.
  - rewrite <- rsum_scal. apply rsum_ext. intros l Hl. rewrite rsum_scal. unfold gradW, SpecLinear.gradW. fold c. field. lra.
  - unfold gradB, SpecLinear.gradB. fold c. field. lra.
Qed.
Lemma convex : forall p q, mse p - mse q <= 2 * inner p (fun l j => fst p l j - fst q l j) (fun j => snd p j - snd q j).
Proof.
  intros p q. set (c := INR N * INR m). assert (c0 : 0 < c) by (unfold c; apply Rmult_lt_0_compat; apply lt_0_INR; auto). set (I := inner p (fun l j => fst p l j - fst q l j) (fun j => snd p j - snd q j)).
  assert (E : rsum N (fun i => rsum m (fun j => resid p i j * (resid p i j - resid q i j))) = c * I).
  { unfold I, c. rewrite <- inner_resid. apply rsum_ext. intros i Hi. apply rsum_ext. intros j Hj. f_equal. unfold resid, SpecLinear.resid. rewrite (rsum_ext k (fun l => X i l * (fst p l j - fst q l j)) (fun l => X i l * fst p l j - X i l * fst q l j)) by (intros; ring). rewrite rsum_minus. ring. }
  assert (S : rsum N (fun i => rsum m (fun j => resid p i j * resid p i j)) - rsum N (fun i => rsum m (fun j => resid q i j * resid q i j)) <= 2 * (c * I)).
  { rewrite <- E, <- rsum_scal, <- rsum_minus. apply rsum_le. intros i Hi. rewrite <- rsum_scal, <- rsum_minus. apply rsum_le. intros j Hj. pose proof (Rle_0_sqr (resid p i j - resid q i j)) as Q. unfold Rsqr in Q. lra. }
  unfold mse, SpecLinear.mse. fold c. change (SpecLinear.resid k X T) with resid. apply Rmult_le_reg_r with c; auto. unfold Rdiv. rewrite Rmult_minus_distr_r, !Rmult_assoc, Rinv_l by lra. lra.
Qed.
Notation dist2 := (dist2 k m).
Lemma rsum_lin3 : forall n A B C c1 c2, rsum n (fun j => A j + (c1 * B j + c2 * C j)) = rsum n A + (c1 * rsum n B + c2 * rsum n C).
Proof. intros. rewrite rsum_plus, (rsum_plus n (fun j => c1 * B j)), rsum_scal, rsum_scal. reflexivity. Qed.
Lemma dist_step : forall eta p q, dist2 (descend eta p) q = dist2 p q - 2 * eta * inner p (fun l j => fst p l j - fst q l j) (fun j => snd p j - snd q j) + eta * eta * gradNorm p.
Proof.
  intros eta p q. unfold dist2, SpecLinear.dist2, inner, gradNorm, SpecLinear.gradNorm.
  set (d := fun l j => fst p l j - fst q l j). set (b := fun j => snd p j - snd q j).
  rewrite (rsum_ext m _ (fun j => (rsum k (fun l => d l j * d l j) + b j * b j) + ((- (2 * eta)) * (rsum k (fun l => gradW p l j * d l j) + gradB p j * b j) + (eta * eta) * (rsum k (fun l => gradW p l j * gradW p l j) + gradB p j * gradB p j)))).
  - rewrite (rsum_lin3 m (fun j => rsum k (fun l => d l j * d l j) + b j * b j) (fun j => rsum k (fun l => gradW p l j * d l j) + gradB p j * b j) (fun j => rsum k (fun l => gradW p l j * gradW p l j) + gradB p j * gradB p j)). unfold d, b. ring.
  - intros j Hj. unfold descend, SpecLinear.descend. cbn [fst snd].
    rewrite (rsum_ext k _ (fun l => d l j * d l j + ((- (2 * eta)) * (gradW p l j * d l j) + (eta * eta) * (gradW p l j * gradW p l j)))) by (intros; unfold d; ring). rewrite (rsum_lin3 k (fun l => d l j * d l j) (fun l => gradW p l j * d l j) (fun l => gradW p l j * gradW p l j)). unfold b. ring.
Qed.
Lemma half_bound : forall eta p, 0 <= eta -> eta * energy <= INR N * INR m -> mse (descend eta p) <= mse p - eta * gradNorm p.
Proof.
  intros eta p He Hb. pose proof (descent_step eta p) as S. set (c := INR N * INR m) in *. assert (c0 : 0 < c) by (unfold c; apply Rmult_lt_0_compat; apply lt_0_INR; auto).
  assert (Q : eta * energy / c <= 1). { apply Rmult_le_reg_r with c; auto. unfold Rdiv. rewrite Rmult_assoc, Rinv_l by lra. lra. }
  pose proof (norm_pos p) as Np. assert (eta * 1 * gradNorm p <= eta * (2 - eta * energy / c) * gradNorm p) by (apply Rmult_le_compat_r; auto; apply Rmult_le_compat_l; lra). lra.
Qed.
(* against any parameters q, the loss after E steps exceeds the loss of q by at most |p - q|^2 / (eta E) *)
Theorem converges : forall eta p q E, 0 < eta -> eta * energy <= INR N * INR m -> (0 < E)%nat -> mse (iterate N k m X T eta p E) <= mse q + dist2 p q / (eta * INR E).
Proof.
  intros eta p q E He Hb HE.
  assert (A : forall e, eta * (mse (iterate N k m X T eta p (S e)) - mse q) <= dist2 (iterate N k m X T eta p e) q - dist2 (iterate N k m X T eta p (S e)) q).
  { intro e. cbn [iterate]. set (p' := iterate N k m X T eta p e). rewrite dist_step. pose proof (convex p' q) as C. pose proof (half_bound eta p' ltac:(lra) Hb) as B. set (I := inner p' _ _) in *. set (G := gradNorm p') in *. apply Rle_trans with (eta * (2 * I - eta * G)); [apply Rmult_le_compat_l; lra|]. right. ring. }
  assert (B : forall E, eta * rsum E (fun e => mse (iterate N k m X T eta p (S e)) - mse q) <= dist2 p q - dist2 (iterate N k m X T eta p E) q).
  { induction E0 as [|E0 IH]; [simpl; lra|]. cbn [rsum]. pose proof (A E0). rewrite Rmult_plus_distr_l. lra. }
  assert (D0 : 0 <= dist2 (iterate N k m X T eta p E) q). { apply rsum_nonneg. intros j Hj. assert (0 <= rsum k (fun l => (fst (iterate N k m X T eta p E) l j - fst q l j) * (fst (iterate N k m X T eta p E) l j - fst q l j))) by (apply rsum_nonneg; intros; apply Rle_0_sqr). pose proof (Rle_0_sqr (snd (iterate N k m X T eta p E) j - snd q j)) as Q. unfold Rsqr in Q. lra. }
  assert (C : INR E * (mse (iterate N k m X T eta p E) - mse q) <= rsum E (fun e => mse (iterate N k m X T eta p (S e)) - mse q)).
  { rewrite <- rsum_const. apply rsum_le. intros e He0. assert (mse (iterate N k m X T eta p E) <= mse (iterate N k m X T eta p (S e))). { apply descent_all; [lra| |lia]. assert (0 < INR N * INR m) by (apply Rmult_lt_0_compat; apply lt_0_INR; auto). lra. } lra. }
  specialize (B E). assert (E0 : 0 < INR E) by (apply lt_0_INR; auto). assert (P : 0 < eta * INR E) by (apply Rmult_lt_0_compat; auto).
  assert (K : (eta * INR E) * (mse (iterate N k m X T eta p E) - mse q) <= dist2 p q). { rewrite Rmult_assoc. eapply Rle_trans; [apply Rmult_le_compat_l; [lra|exact C]|]. lra. }
  assert (K2 : mse (iterate N k m X T eta p E) - mse q <= dist2 p q / (eta * INR E)). { apply Rmult_le_reg_l with (eta * INR E); auto. replace (eta * INR E * (dist2 p q / (eta * INR E))) with (dist2 p q) by (field; split; lra). exact K. }
  lra.
Qed.
End Lin.

(* the bound on the rate cannot be raised *)
Theorem rate_sharp : forall eta, 1 < eta -> energy 1 1 (fun _ _ => 1) = 2 /\
  mse 1 1 1 (fun _ _ => 1) (fun _ _ => 1) (fun _ _ => 0, fun _ => 0) < mse 1 1 1 (fun _ _ => 1) (fun _ _ => 1) (descend 1 1 1 (fun _ _ => 1) (fun _ _ => 1) eta (fun _ _ => 0, fun _ => 0)).
Proof.
  intros eta H. split; [unfold energy; simpl; lra|]. unfold mse, descend, gradW, gradB, resid. simpl. match goal with |- ?u / _ < ?v / _ => replace (u / (1 * 1)) with 1 by field; replace (v / (1 * 1)) with ((2 * eta - 1) * (2 * eta - 1)) by field end. nra.
Qed.
