(* LayTens.v - passing between matrices and 4-index tensors *)
From Coq Require Import List Arith Bool Lia Reals Lra.
From Coquelicot Require Import Coquelicot.
From Verif Require Import Base Scalar Mat SpecMat SpecReal RSum MatFacts MatLoops Scatter RDeriv Loss SpecLoss SpecLayer LayGrad LayCurve.
Local Open Scope nat_scope.

(* column of (channel, row, column) *)
Definition pix (nR nC h r c : nat) : nat := (h * nR + r) * nC + c.

Lemma pix_lt : forall nH nR nC h r c, h < nH -> r < nR -> c < nC -> pix nR nC h r c < nH * nR * nC.
Proof. intros. unfold pix. apply idx_lt; auto. apply idx_lt; auto. Qed.
Lemma pix_c : forall nR nC h r c, c < nC -> pix nR nC h r c mod nC = c.
Proof. intros. unfold pix. apply idx_mod; auto. Qed.
Lemma pix_r : forall nR nC h r c, c < nC -> r < nR -> (pix nR nC h r c / nC) mod nR = r.
Proof. intros. unfold pix. rewrite idx_div by auto. apply idx_mod; auto. Qed.
Lemma pix_h : forall nR nC h r c, c < nC -> r < nR -> pix nR nC h r c / nC / nR = h.
Proof. intros. unfold pix. rewrite idx_div by auto. apply idx_div; auto. Qed.
Lemma pix_inv : forall nH nR nC j, j < nH * nR * nC ->
  j / nC / nR < nH /\ (j / nC) mod nR < nR /\ j mod nC < nC /\ pix nR nC (j / nC / nR) ((j / nC) mod nR) (j mod nC) = j.
Proof.
  intros nH nR nC j Hj. pose proof (@div_lt_r _ _ _ Hj) as H1. pose proof (@div_lt_r _ _ _ H1) as H2.
  pose proof (@mod_lt_c _ _ _ Hj). pose proof (@mod_lt_c _ _ _ H1). repeat split; auto.
  unfold pix. rewrite !idx_eq; auto; lia.
Qed.
Lemma addr4_pix : forall nH nR nC s h r c, addr4 nH nR nC s h r c = s * (nH * nR * nC) + pix nR nC h r c.
Proof. intros. unfold addr4, pix. ring. Qed.

Lemma tens_gen : forall A nS nH nR nC (t : nat -> nat -> nat -> nat -> A),
  tens nS nH nR nC t = mgen nS (nH * nR * nC) (fun s j => t s (j / nC / nR) ((j / nC) mod nR) (j mod nC)).
Proof.
  intros. rewrite mgen_flat. symmetry. apply flat_tens. intros s h r c Hs Hh Hr Hc.
  rewrite addr4_pix. pose proof (pix_lt nH nR nC h r c Hh Hr Hc).
  rewrite idx_div, idx_mod by auto. rewrite pix_h, pix_r, pix_c by auto. reflexivity.
Qed.
Lemma gen_tens : forall A nS nH nR nC (X : nat -> nat -> A),
  mgen nS (nH * nR * nC) X = tens nS nH nR nC (fun s h r c => X s (pix nR nC h r c)).
Proof.
  intros. rewrite tens_gen. apply mgen_ext. intros s j _ Hj. destruct (pix_inv nH nR nC j Hj) as (_ & _ & _ & E). rewrite E. reflexivity.
Qed.

Lemma rsum_pix : forall nH nR nC (f : nat -> R),
  rsum (nH * nR * nC) f = rsum nH (fun h => rsum nR (fun r => rsum nC (fun c => f (pix nR nC h r c)))).
Proof. intros. rewrite rsum_flat, rsum_flat. reflexivity. Qed.
