(* RDeriv.v - small toolkit for derivatives of piecewise functions *)
From Coq Require Import Reals Lra Lia Arith.
From Coquelicot Require Import Coquelicot.
From Verif Require Import Scalar SpecReal.
Local Open Scope R_scope.

Lemma is_derive_glue : forall (f g h : R -> R) (a r l : R), 0 < r ->
  (forall x, a - r < x <= a -> f x = g x) -> (forall x, a <= x < a + r -> f x = h x) ->
  is_derive g a l -> is_derive h a l -> is_derive f a l.
Proof.
  intros f g h a r l Hr Hg Hh Dg Dh. apply is_derive_Reals in Dg, Dh. apply is_derive_Reals.
  intros eps He. destruct (Dg eps He) as [d1 H1]. destruct (Dh eps He) as [d2 H2].
  pose proof (cond_pos d1) as P1. pose proof (cond_pos d2) as P2.
  assert (Hd : 0 < Rmin r (Rmin d1 d2)) by (repeat apply Rmin_pos; auto).
  exists (mkposreal _ Hd). intros t Ht Hlt. simpl in Hlt.
  assert (Hr' : Rabs t < r) by (eapply Rlt_le_trans; [exact Hlt | apply Rmin_l]).
  assert (Hd1 : Rabs t < d1) by (eapply Rlt_le_trans; [exact Hlt | eapply Rle_trans; [apply Rmin_r | apply Rmin_l]]).
  assert (Hd2 : Rabs t < d2) by (eapply Rlt_le_trans; [exact Hlt | eapply Rle_trans; [apply Rmin_r | apply Rmin_r]]).
  apply Rabs_def2 in Hr'.
  destruct (Rle_or_lt t 0).
  - rewrite (Hg (a + t)), (Hg a) by lra. apply H1; auto.
  - rewrite (Hh (a + t)), (Hh a) by lra. apply H2; auto.
Qed.

Lemma is_derive_open : forall (f g : R -> R) (u a v l : R), u < a < v ->
  (forall x, u < x < v -> f x = g x) -> is_derive g a l -> is_derive f a l.
Proof.
  intros f g u a v l Ha E D.
  assert (Hr : 0 < Rmin (a - u) (v - a)) by (apply Rmin_pos; lra).
  apply is_derive_glue with (g := g) (h := g) (r := Rmin (a - u) (v - a)); auto; intros x Hx;
  pose proof (Rmin_l (a - u) (v - a)); pose proof (Rmin_r (a - u) (v - a)); apply E; lra.
Qed.

Lemma is_derive_gt : forall (f g : R -> R) (u a l : R), u < a ->
  (forall x, u < x -> f x = g x) -> is_derive g a l -> is_derive f a l.
Proof. intros f g u a l Ha E D. apply is_derive_open with (g := g) (u := u) (v := a + 1); auto; [lra|]. intros; apply E; lra. Qed.

Lemma is_derive_lt : forall (f g : R -> R) (v a l : R), a < v ->
  (forall x, x < v -> f x = g x) -> is_derive g a l -> is_derive f a l.
Proof. intros f g v a l Ha E D. apply is_derive_open with (g := g) (u := a - 1) (v := v); auto; [lra|]. intros; apply E; lra. Qed.

Lemma is_derive_eq : forall (f : R -> R) (a l l' : R), is_derive f a l -> l = l' -> is_derive f a l'.
Proof. intros; subst; auto. Qed.

(** finite sums and products *)
Lemma is_derive_rsum : forall n (f : nat -> R -> R) (d : nat -> R) a,
  (forall i, (i < n)%nat -> is_derive (f i) a (d i)) -> is_derive (fun x => rsum n (fun i => f i x)) a (rsum n d).
Proof.
  induction n; intros f d a H; simpl.
  - apply (is_derive_const 0).
  - apply (is_derive_plus (fun x => rsum n (fun i => f i x)) (f n)); [apply IHn; intros; apply H; lia | apply H; lia].
Qed.

Lemma is_derive_Rmult : forall (f g : R -> R) a df dg, is_derive f a df -> is_derive g a dg ->
  is_derive (fun x => f x * g x) a (df * g a + f a * dg).
Proof. intros. apply (is_derive_mult f g a df dg); auto. intros; apply Rmult_comm. Qed.
Lemma is_derive_Rplus : forall (f g : R -> R) a df dg, is_derive f a df -> is_derive g a dg ->
  is_derive (fun x => f x + g x) a (df + dg).
Proof. intros. apply (is_derive_plus f g a df dg); auto. Qed.
Lemma is_derive_Rminus : forall (f g : R -> R) a df dg, is_derive f a df -> is_derive g a dg ->
  is_derive (fun x => f x - g x) a (df - dg).
Proof. intros. apply (is_derive_minus f g a df dg); auto. Qed.
Lemma is_derive_Rcomp : forall (f g : R -> R) a df dg, is_derive f (g a) df -> is_derive g a dg ->
  is_derive (fun x => f (g x)) a (df * dg).
Proof.
  intros. evar_last. apply (is_derive_comp f g a df dg); auto. unfold scal; simpl. unfold mult; simpl. ring.
Qed.

Lemma is_derive_affine_comp : forall (phi : R -> R) (A w t a l : R),
  is_derive phi (a - t) l -> is_derive (fun x => A + w * phi (x - t)) a (w * l).
Proof.
  intros. eapply is_derive_eq.
  - apply (is_derive_Rplus (fun _ => A) (fun x => w * phi (x - t))); [apply (is_derive_const A)|].
    apply (is_derive_Rmult (fun _ => w) (fun x => phi (x - t))); [apply (is_derive_const w)|].
    apply (is_derive_Rcomp phi (fun x => x - t)); [exact H|].
    apply (is_derive_Rminus (fun x => x) (fun _ => t)); [apply (is_derive_id a) | apply (is_derive_const t)].
  - unfold zero, one; simpl. ring.
Qed.

(** hyperbolic functions *)
Lemma exp_sum_pos : forall x, 0 < exp x + exp (- x).
Proof. intros. pose proof (exp_pos x). pose proof (exp_pos (- x)). lra. Qed.
Lemma Rcosh_pos : forall x, 0 < Rcosh x.
Proof. intros. unfold Rcosh. pose proof (exp_sum_pos x). lra. Qed.
Lemma exp_inv_mult : forall x, exp x * exp (- x) = 1.
Proof. intros. rewrite <- exp_plus. replace (x + - x) with 0 by ring. apply exp_0. Qed.
Lemma Rcosh_ge_1 : forall x, 1 <= Rcosh x.
Proof.
  intros. unfold Rcosh. pose proof (exp_inv_mult x). pose proof (exp_pos x). pose proof (exp_pos (- x)).
  pose proof (Rle_0_sqr (exp x - exp (- x))). unfold Rsqr in *. nra.
Qed.
Lemma Rcosh_1_inv : forall x, Rcosh x = 1 -> x = 0.
Proof.
  intros x H. unfold Rcosh in H. pose proof (exp_inv_mult x). pose proof (exp_pos x).
  assert (E : exp (- x) = 2 - exp x) by lra. rewrite E in H0.
  assert (Q : (exp x - 1) * (exp x - 1) = 0) by nra.
  assert (Q1 : exp x = 1) by nra. rewrite <- exp_0 in Q1. apply exp_inv in Q1. auto.
Qed.
Lemma is_derive_logcosh : forall x, is_derive (fun x => ln (Rcosh x)) x (Rtanh x).
Proof.
  intros. evar_last.
  - apply (is_derive_Rcomp ln Rcosh).
    + apply is_derive_Reals. apply derivable_pt_lim_ln. apply Rcosh_pos.
    + unfold Rcosh. auto_derive; auto.
  - unfold Rtanh, Rcosh. pose proof (exp_sum_pos x). field. lra.
Qed.
Lemma Rtanh_bound : forall x, -1 < Rtanh x < 1.
Proof.
  intros. unfold Rtanh. pose proof (exp_pos x). pose proof (exp_pos (- x)). pose proof (exp_sum_pos x).
  split; apply Rmult_lt_reg_r with (exp x + exp (- x)); auto; unfold Rdiv; rewrite ?Rmult_assoc, Rinv_l by lra; lra.
Qed.
Lemma is_derive_tanh : forall x, is_derive Rtanh x (1 - Rtanh x * Rtanh x).
Proof.
  intros. unfold Rtanh. pose proof (exp_sum_pos x).
  auto_derive; [lra|]. field. lra.
Qed.
