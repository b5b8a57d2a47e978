(* LayCurve.v - derivatives along curves of matrices: the form of the chain rule that composes through layers *)
From Coq Require Import List Arith Bool Lia Reals Lra FunctionalExtensionality.
From Coquelicot Require Import Coquelicot.
From Verif Require Import Base Scalar Mat SpecMat SpecReal RSum MatFacts RDeriv Loss SpecLoss SpecLayer LayGrad.
Local Open Scope R_scope.

(* every cell of the n x k curve P has derivative D at t *)
Definition dcurve (n k : nat) (P : R -> nat -> nat -> R) (t : R) (D : nat -> nat -> R) : Prop :=
  forall i j, (i < n)%nat -> (j < k)%nat -> is_derive (fun x => P x i j) t (D i j).
Definition dot (n k : nat) (A B : nat -> nat -> R) : R := rsum n (fun i => rsum k (fun j => A i j * B i j)).

Lemma dcurve_const : forall n k P t, dcurve n k (fun _ => P) t (fun _ _ => 0).
Proof. intros n k P t i j _ _. apply (is_derive_const (P i j)). Qed.
Lemma dcurve_cell : forall n k P a b, dcurve n k (fun x => upd2 P a b x) (P a b) (delta a b).
Proof. intros n k P a b i j _ _. apply d_cell. Qed.
Lemma upd2_same : forall A (P : nat -> nat -> A) a b, upd2 P a b (P a b) = P.
Proof. intros. extensionality i. extensionality j. apply upd2_self. Qed.
Lemma dot_ext : forall n k A B A' B', (forall i j, (i < n)%nat -> (j < k)%nat -> A i j * B i j = A' i j * B' i j) -> dot n k A B = dot n k A' B'.
Proof. intros. apply rsum_ext. intros. apply rsum_ext. intros. auto. Qed.
Lemma dot_zero : forall n k A, dot n k A (fun _ _ => 0) = 0.
Proof. intros. unfold dot. apply rsum_zero. intros. apply rsum_zero. intros. lra. Qed.
Lemma dot_delta : forall n k A a b, (a < n)%nat -> (b < k)%nat -> dot n k A (delta a b) = A a b.
Proof. intros. apply delta_both; auto. Qed.
Lemma dot_scal : forall n k s A B, dot n k (fun i j => s * A i j) B = s * dot n k A B.
Proof.
  intros. unfold dot. rewrite <- rsum_scal. apply rsum_ext. intros. rewrite <- rsum_scal. apply rsum_ext. intros. ring.
Qed.
Lemma dot_plus : forall n k A B C, dot n k A (fun i j => B i j + C i j) = dot n k A B + dot n k A C.
Proof.
  intros. unfold dot. rewrite <- rsum_plus. apply rsum_ext. intros. rewrite <- rsum_plus. apply rsum_ext. intros. ring.
Qed.
Lemma dot_swap : forall n k A B, dot n k A B = rsum k (fun j => rsum n (fun i => A i j * B i j)).
Proof. intros. unfold dot. apply rsum_swap. Qed.

(* <G, Y> along a curve *)
Lemma dot_curve : forall n m (G : nat -> nat -> R) Y t dY, dcurve n m Y t dY -> is_derive (fun x => dot n m G (Y x)) t (dot n m G dY).
Proof.
  intros n m G Y t dY H. unfold dot.
  apply (is_derive_rsum n (fun i x => rsum m (fun j => G i j * Y x i j))). intros i Hi.
  apply (is_derive_rsum m (fun j x => G i j * Y x i j)). intros j Hj. apply (d_mul_const_l (G i j)). apply H; auto.
Qed.

Lemma partial_curve : forall n m (G : nat -> nat -> R) (fwd : (nat -> nat -> R) -> res (mat R)) (f : (nat -> nat -> R) -> nat -> nat -> R) P a b d,
  (forall Q, fwd Q = Ok (mgen n m (f Q))) ->
  (exists dY, dcurve n m (fun x => f (upd2 P a b x)) (P a b) dY /\ dot n m G dY = d) ->
  isPartial (fun Q => obj G (fwd Q)) P a b d.
Proof.
  intros n m G fwd f P a b d E (dY & H & <-). eapply partial_obj; eauto. 
Qed.

(* the general form of the layer statements *)
Lemma gradOf_curve : forall n m r c s (G : nat -> nat -> R) (fwd : (nat -> nat -> R) -> res (mat R)) (f : (nat -> nat -> R) -> nat -> nat -> R) P g,
  (forall Q, fwd Q = Ok (mgen n m (f Q))) ->
  (forall a b, (a < r)%nat -> (b < c)%nat -> exists dY, dcurve n m (fun x => f (upd2 P a b x)) (P a b) dY /\ dot n m G dY = s * g a b) ->
  gradOf r c s (fun Q => obj G (fwd Q)) P g.
Proof. intros n m r c s G fwd f P g E H a b Ha Hb. eapply partial_curve; eauto. Qed.

(* pieces *)
Lemma d_mul : forall f g (t a b : R), is_derive f t a -> is_derive g t b -> is_derive (fun x => f x * g x) t (a * g t + f t * b).
Proof. intros. apply is_derive_Rmult; auto. Qed.
Lemma d_add : forall f g (t a b : R), is_derive f t a -> is_derive g t b -> is_derive (fun x => f x + g x) t (a + b).
Proof. intros. apply is_derive_Rplus; auto. Qed.

(** affine maps: Y = X W + b *)
Lemma matmul_curve : forall n k m X W t dX dW (G : nat -> nat -> R),
  dcurve n k X t dX -> dcurve k m W t dW ->
  exists dY, dcurve n m (fun x i j => rsum k (fun l => X x i l * W x l j)) t dY /\
  dot n m G dY = dot n k (fun i l => rsum m (fun j => G i j * W t l j)) dX + dot k m (fun l j => rsum n (fun i => X t i l * G i j)) dW.
Proof.
  intros n k m X W t dX dW G HX HW.
  exists (fun i j => rsum k (fun l => dX i l * W t l j + X t i l * dW l j)). split.
  - intros i j Hi Hj. apply (is_derive_rsum k (fun l x => X x i l * W x l j)). intros l Hl.
    apply (d_mul (fun x => X x i l) (fun x => W x l j)); auto.
  - unfold dot.
    transitivity (rsum n (fun i => rsum m (fun j => rsum k (fun l => G i j * W t l j * dX i l)) + rsum m (fun j => rsum k (fun l => X t i l * G i j * dW l j)))).
    + apply rsum_ext. intros i Hi. rewrite <- rsum_plus. apply rsum_ext. intros j Hj. rewrite <- rsum_scal, <- rsum_plus.
      apply rsum_ext. intros l Hl. ring.
    + rewrite rsum_plus. f_equal.
      * apply rsum_ext. intros i Hi. rewrite rsum_swap. apply rsum_ext. intros l Hl. rewrite <- rsum_scal_r. reflexivity.
      * rewrite (rsum_ext n _ (fun i => rsum k (fun l => rsum m (fun j => X t i l * G i j * dW l j)))) by (intros; apply rsum_swap).
        rewrite rsum_swap. apply rsum_ext. intros l Hl. rewrite rsum_swap. apply rsum_ext. intros j Hj. rewrite <- rsum_scal_r. reflexivity.
Qed.

(* adding a row b to every row *)
Lemma rowadd_curve : forall n m Y b t dY db (G : nat -> nat -> R),
  dcurve n m Y t dY -> dcurve 1 m b t db ->
  dcurve n m (fun x i j => Y x i j + b x 0%nat j) t (fun i j => dY i j + db 0%nat j) /\
  dot n m G (fun i j => dY i j + db 0%nat j) = dot n m G dY + dot 1 m (fun _ j => rsum n (fun i => G i j)) db.
Proof.
  intros n m Y b t dY db G HY Hb. split.
  - intros i j Hi Hj. apply (d_add (fun x => Y x i j) (fun x => b x 0%nat j)); auto.
  - rewrite (dot_plus n m G dY (fun _ j => db 0%nat j)). f_equal. rewrite dot_swap. unfold dot. simpl. rewrite Rplus_0_l.
    apply rsum_ext. intros j Hj. rewrite <- rsum_scal_r. reflexivity.
Qed.

(* cell by cell: Y i j = phi i j (X i j), whose derivative at the current cell is p i j *)
Lemma cell_curve : forall n k X t dX (phi : nat -> nat -> R -> R) p (G : nat -> nat -> R),
  dcurve n k X t dX -> (forall i j, (i < n)%nat -> (j < k)%nat -> is_derive (phi i j) (X t i j) (p i j)) ->
  exists dY, dcurve n k (fun x i j => phi i j (X x i j)) t dY /\ dot n k G dY = dot n k (fun i j => G i j * p i j) dX.
Proof.
  intros n k X t dX phi p G HX Hp. exists (fun i j => p i j * dX i j). split.
  - intros i j Hi Hj. apply (is_derive_Rcomp (phi i j) (fun x => X x i j)); auto.
  - apply dot_ext. intros. ring.
Qed.

(* multiplying every row by a row w *)
Lemma rowmul_curve : forall n m X w t dX dw (G : nat -> nat -> R),
  dcurve n m X t dX -> dcurve 1 m w t dw ->
  exists dY, dcurve n m (fun x i j => X x i j * w x 0%nat j) t dY /\
  dot n m G dY = dot n m (fun i j => G i j * w t 0%nat j) dX + dot 1 m (fun _ j => rsum n (fun i => X t i j * G i j)) dw.
Proof.
  intros n m X w t dX dw G HX Hw. exists (fun i j => dX i j * w t 0%nat j + X t i j * dw 0%nat j). split.
  - intros i j Hi Hj. apply (d_mul (fun x => X x i j) (fun x => w x 0%nat j)); auto.
  - rewrite (dot_plus n m G (fun i j => dX i j * w t 0%nat j) (fun i j => X t i j * dw 0%nat j)). f_equal.
    + apply dot_ext. intros. ring.
    + rewrite dot_swap. unfold dot. simpl. rewrite Rplus_0_l.
      apply rsum_ext. intros j Hj. rewrite <- rsum_scal_r. apply rsum_ext. intros. ring.
Qed.
