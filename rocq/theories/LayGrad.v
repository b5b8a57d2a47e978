(* LayGrad.v - rules for the partial derivatives of <G, output> *)
From Coq Require Import List Arith Bool Lia Reals Lra.
From Coquelicot Require Import Coquelicot.
From Verif Require Import Base Scalar Mat SpecMat SpecReal RSum MatFacts RDeriv Loss SpecLoss SpecLayer.
Import ListNotations.
Local Open Scope R_scope.

Lemma dotM_gen : forall G n m f, dotM G (mgen n m f) = rsum n (fun i => rsum m (fun j => G i j * f i j)).
Proof.
  intros. unfold dotM. change (mrows (mgen n m f)) with n. change (mcols (mgen n m f)) with m.
  apply rsum_ext. intros i Hi. apply rsum_ext. intros j Hj. f_equal.
  pose proof (@rget_gen R n m f i j Hi Hj) as E. unfold rget in E.
  destruct (nth_error (mdata (mgen n m f)) (i * m + j)) eqn:E1; inversion E. subst.
  apply nth_error_nth. auto.
Qed.

Definition delta (a b i j : nat) : R := if (Nat.eqb i a && Nat.eqb j b)%bool then 1 else 0.

Lemma d_cell : forall P a b i j, is_derive (fun x => upd2 P a b x i j) (P a b) (delta a b i j).
Proof.
  intros. unfold upd2, delta. destruct (Nat.eqb i a && Nat.eqb j b)%bool.
  - apply (is_derive_id (P a b)).
  - apply (is_derive_const (P i j)).
Qed.

Lemma upd2_self : forall A (P : nat -> nat -> A) a b i j, upd2 P a b (P a b) i j = P i j.
Proof. intros. unfold upd2. destruct (Nat.eqb_spec i a), (Nat.eqb_spec j b); simpl; subst; auto. Qed.

Lemma delta_col : forall k a c j f, (a < k)%nat -> rsum k (fun l => f l * delta a c l j) = if Nat.eqb j c then f a else 0.
Proof.
  intros. unfold delta. destruct (Nat.eqb_spec j c).
  - rewrite (rsum_single k a); auto.
    + rewrite Nat.eqb_refl. simpl. lra.
    + intros i _ Hi. apply Nat.eqb_neq in Hi. rewrite Hi. simpl. lra.
  - apply rsum_zero. intros. rewrite andb_false_r. lra.
Qed.

Lemma delta_row : forall k a c l f, (c < k)%nat -> rsum k (fun j => f j * delta a c l j) = if Nat.eqb l a then f c else 0.
Proof.
  intros. unfold delta. destruct (Nat.eqb_spec l a).
  - rewrite (rsum_single k c); auto.
    + rewrite Nat.eqb_refl. simpl. lra.
    + intros i _ Hi. apply Nat.eqb_neq in Hi. rewrite Hi. simpl. lra.
  - apply rsum_zero. intros. simpl. lra.
Qed.

Lemma rsum_if : forall k a (f : nat -> R), (a < k)%nat -> rsum k (fun l => if Nat.eqb l a then f l else 0) = f a.
Proof. intros. apply rsum_delta; auto. Qed.

Lemma delta_both : forall n m a c (f : nat -> nat -> R), (a < n)%nat -> (c < m)%nat ->
  rsum n (fun i => rsum m (fun j => f i j * delta a c i j)) = f a c.
Proof.
  intros. rewrite (rsum_ext n _ (fun i => if Nat.eqb i a then f i c else 0)).
  - apply (rsum_if n a (fun i => f i c)); auto.
  - intros. apply delta_row; auto.
Qed.

(* the partial derivative of a weighted sum *)
Lemma partial_dot : forall n m (G : nat -> nat -> R) (f : (nat -> nat -> R) -> nat -> nat -> R) P a b (D : nat -> nat -> R) d,
  (forall i j, (i < n)%nat -> (j < m)%nat -> is_derive (fun x => f (upd2 P a b x) i j) (P a b) (D i j)) ->
  rsum n (fun i => rsum m (fun j => G i j * D i j)) = d ->
  isPartial (fun P => rsum n (fun i => rsum m (fun j => G i j * f P i j))) P a b d.
Proof.
  intros n m G f P a b D d H E. subst d. unfold isPartial.
  apply (is_derive_rsum n (fun i x => rsum m (fun j => G i j * f (upd2 P a b x) i j))). intros i Hi.
  apply (is_derive_rsum m (fun j x => G i j * f (upd2 P a b x) i j)). intros j Hj.
  eapply is_derive_eq.
  - apply (is_derive_Rmult (fun _ => G i j) (fun x => f (upd2 P a b x) i j)); [apply (is_derive_const (G i j)) | apply H; auto].
  - unfold zero; simpl. ring.
Qed.

Lemma partial_ext : forall (L L' : (nat -> nat -> R) -> R) P a b d, (forall Q, L Q = L' Q) -> isPartial L' P a b d -> isPartial L P a b d.
Proof. intros L L' P a b d E H. unfold isPartial in *. eapply is_derive_ext; [|exact H]. intros; simpl; symmetry; apply E. Qed.

(* the rule used for every layer: the forward pass computes f, whose cells have the derivatives D *)
Lemma partial_obj : forall n m (G : nat -> nat -> R) (fwd : (nat -> nat -> R) -> res (mat R)) (f : (nat -> nat -> R) -> nat -> nat -> R) P a b (D : nat -> nat -> R) d,
  (forall Q, fwd Q = Ok (mgen n m (f Q))) ->
  (forall i j, (i < n)%nat -> (j < m)%nat -> is_derive (fun x => f (upd2 P a b x) i j) (P a b) (D i j)) ->
  rsum n (fun i => rsum m (fun j => G i j * D i j)) = d ->
  isPartial (fun Q => obj G (fwd Q)) P a b d.
Proof.
  intros n m G fwd f P a b D d E H Ed.
  apply partial_ext with (L' := fun P => rsum n (fun i => rsum m (fun j => G i j * f P i j))).
  - intros Q. rewrite E. simpl obj. apply dotM_gen.
  - eapply partial_dot; eauto.
Qed.

(* derivatives of the pieces *)
Lemma d_mul_const_l : forall (c : R) f a l, is_derive f a l -> is_derive (fun x => c * f x) a (c * l).
Proof.
  intros. eapply is_derive_eq.
  - apply (is_derive_Rmult (fun _ => c) f); [apply (is_derive_const c) | eauto].
  - unfold zero; simpl; ring.
Qed.
Lemma d_mul_const_r : forall (c : R) f a l, is_derive f a l -> is_derive (fun x => f x * c) a (l * c).
Proof.
  intros. eapply is_derive_eq.
  - apply (is_derive_Rmult f (fun _ => c)); [eauto | apply (is_derive_const c)].
  - unfold zero; simpl; ring.
Qed.
Lemma d_add_const_r : forall (c : R) f a l, is_derive f a l -> is_derive (fun x => f x + c) a l.
Proof.
  intros. eapply is_derive_eq.
  - apply (is_derive_Rplus f (fun _ => c)); [eauto | apply (is_derive_const c)].
  - unfold zero; simpl; ring.
Qed.
Lemma d_add_const_l : forall (c : R) f a l, is_derive f a l -> is_derive (fun x => c + f x) a l.
Proof.
  intros. eapply is_derive_eq.
  - apply (is_derive_Rplus (fun _ => c) f); [apply (is_derive_const c) | eauto].
  - unfold zero; simpl; ring.
Qed.
(* a function of one cell *)
Lemma d_comp_cell : forall (phi : R -> R) P a b i j l, is_derive phi (P i j) l ->
  is_derive (fun x => phi (upd2 P a b x i j)) (P a b) (l * delta a b i j).
Proof.
  intros. apply (is_derive_Rcomp phi (fun x => upd2 P a b x i j)).
  - rewrite upd2_self. auto.
  - apply d_cell.
Qed.
