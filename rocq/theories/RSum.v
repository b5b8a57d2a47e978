(* RSum.v - finite sums of reals *)
From Coq Require Import List Arith Lia Reals Lra Bool.
From Verif Require Import Base Scalar SpecReal.
Import ListNotations.
Local Open Scope R_scope.

Lemma fold_rsum : forall n f v, fold_left (fun v i => v + f i) (seq 0 n) v = v + rsum n f.
Proof.
  induction n as [|n IH]; intros f v.
  - simpl; lra.
  - rewrite seq_S, fold_left_app. rewrite IH. simpl. lra.
Qed.

Lemma fsum_R : forall j n f, fsum (ROps j) n f = rsum n f.
Proof. intros. unfold fsum. simpl. rewrite fold_rsum. lra. Qed.

Lemma rsum_ext : forall n f g, (forall i, (i < n)%nat -> f i = g i) -> rsum n f = rsum n g.
Proof.
  induction n as [|n IH]; intros f g H; simpl; auto. rewrite (IH f g), H; auto.
Qed.

Lemma rsum_0 : forall n, rsum n (fun _ => 0) = 0.
Proof. induction n; simpl; lra. Qed.

Lemma rsum_zero : forall n f, (forall i, (i < n)%nat -> f i = 0) -> rsum n f = 0.
Proof. intros. rewrite (rsum_ext n f (fun _ => 0)) by auto. apply rsum_0. Qed.

Lemma rsum_const : forall n c, rsum n (fun _ => c) = INR n * c.
Proof. induction n as [|n IH]; intro c. - simpl; lra. - rewrite S_INR. simpl. rewrite IH. lra. Qed.

Lemma rsum_plus : forall n f g, rsum n (fun i => f i + g i) = rsum n f + rsum n g.
Proof. induction n as [|n IH]; intros; simpl; try lra. rewrite IH. lra. Qed.

Lemma rsum_minus : forall n f g, rsum n (fun i => f i - g i) = rsum n f - rsum n g.
Proof. induction n as [|n IH]; intros; simpl; try lra. rewrite IH. lra. Qed.

Lemma rsum_scal : forall n c f, rsum n (fun i => c * f i) = c * rsum n f.
Proof. induction n as [|n IH]; intros; simpl; try lra. rewrite IH. lra. Qed.

Lemma rsum_scal_r : forall n c f, rsum n (fun i => f i * c) = rsum n f * c.
Proof. induction n as [|n IH]; intros; simpl; try lra. rewrite IH. lra. Qed.

Lemma rsum_div : forall n c f, rsum n (fun i => f i / c) = rsum n f / c.
Proof. intros. unfold Rdiv. apply rsum_scal_r. Qed.

Lemma rsum_opp : forall n f, rsum n (fun i => - f i) = - rsum n f.
Proof. induction n as [|n IH]; intros; simpl; try lra. rewrite IH. lra. Qed.

Lemma rsum_swap : forall n m f, rsum n (fun i => rsum m (fun j => f i j)) = rsum m (fun j => rsum n (fun i => f i j)).
Proof.
  induction n as [|n IH]; intros; simpl.
  - rewrite rsum_0; auto.
  - rewrite IH, rsum_plus. auto.
Qed.

Lemma rsum_le : forall n f g, (forall i, (i < n)%nat -> f i <= g i) -> rsum n f <= rsum n g.
Proof.
  induction n as [|n IH]; intros f g H; simpl; try lra. pose proof (IH f g). pose proof (H n). 
  assert (rsum n f <= rsum n g) by (apply H0; intros; apply H; lia). assert (f n <= g n) by (apply H1; lia). lra.
Qed.

Lemma rsum_nonneg : forall n f, (forall i, (i < n)%nat -> 0 <= f i) -> 0 <= rsum n f.
Proof. intros. rewrite <- (rsum_0 n). apply rsum_le; auto. Qed.

Lemma rsum_pos : forall n f, (0 < n)%nat -> (forall i, (i < n)%nat -> 0 < f i) -> 0 < rsum n f.
Proof.
  intros n f Hn H. destruct n as [|n]; [lia|]. simpl.
  assert (0 <= rsum n f) by (apply rsum_nonneg; intros; left; apply H; lia).
  assert (0 < f n) by (apply H; lia). lra.
Qed.

Lemma rsum_zero_inv : forall n f, (forall i, (i < n)%nat -> 0 <= f i) -> rsum n f = 0 -> forall i, (i < n)%nat -> f i = 0.
Proof.
  induction n as [|n IH]; intros f H E i Hi; [lia|]. simpl in E.
  assert (0 <= rsum n f) by (apply rsum_nonneg; intros; apply H; lia).
  assert (0 <= f n) by (apply H; lia).
  destruct (Nat.eq_dec i n) as [->|]; [lra|]. apply IH; try lia; try lra. intros; apply H; lia.
Qed.

Lemma rsum_ge_term : forall n f i, (forall i, (i < n)%nat -> 0 <= f i) -> (i < n)%nat -> f i <= rsum n f.
Proof.
  induction n as [|n IH]; intros f i H Hi; [lia|]. simpl.
  assert (0 <= rsum n f) by (apply rsum_nonneg; intros; apply H; lia).
  assert (0 <= f n) by (apply H; lia).
  destruct (Nat.eq_dec i n) as [->|]; [lra|].
  assert (f i <= rsum n f) by (apply IH; try lia; intros; apply H; lia). lra.
Qed.

Lemma rsum_single : forall n k f, (k < n)%nat -> (forall i, (i < n)%nat -> i <> k -> f i = 0) -> rsum n f = f k.
Proof.
  induction n as [|n IH]; intros k f Hk H; [lia|]. simpl. destruct (Nat.eq_dec k n) as [->|].
  - rewrite rsum_zero; [lra|]. intros; apply H; lia.
  - rewrite (H n) by lia. rewrite (IH k) by (try lia; intros; apply H; lia). lra.
Qed.

Lemma rsum_delta : forall n k f, (k < n)%nat -> rsum n (fun i => if Nat.eqb i k then f i else 0) = f k.
Proof.
  intros. rewrite (rsum_single n k); auto.
  - rewrite Nat.eqb_refl; auto.
  - intros i Hi Hne. apply Nat.eqb_neq in Hne. rewrite Hne; auto.
Qed.

Lemma rsum_app : forall n m f, rsum (n + m) f = rsum n f + rsum m (fun i => f (n + i)%nat).
Proof.
  intros n m f. induction m as [|m IH]; simpl.
  - rewrite Nat.add_0_r. lra.
  - rewrite Nat.add_succ_r. simpl. rewrite IH. lra.
Qed.

(* a sum over a flat index is a double sum *)
Lemma rsum_flat : forall n m f, rsum (n * m) f = rsum n (fun i => rsum m (fun j => f (i * m + j)%nat)).
Proof.
  induction n as [|n IH]; intros m f; simpl; auto.
  replace (m + n * m)%nat with (n * m + m)%nat by lia. rewrite rsum_app, IH. reflexivity.
Qed.

Lemma rsum_shift : forall n f, rsum (S n) f = f O + rsum n (fun i => f (S i)).
Proof. induction n as [|n IH]; intro f. - simpl; lra. - simpl in *. rewrite IH. lra. Qed.

Lemma Rabs_rsum : forall n f, Rabs (rsum n f) <= rsum n (fun i => Rabs (f i)).
Proof.
  induction n as [|n IH]; intros f; simpl. - rewrite Rabs_R0; lra.
  - eapply Rle_trans; [apply Rabs_triang|]. pose proof (IH f). lra.
Qed.

Lemma fofN_R : forall j n, fofN (ROps j) n = INR n.
Proof. intros. unfold fofN. simpl. rewrite <- INR_IZR_INZ. reflexivity. Qed.
