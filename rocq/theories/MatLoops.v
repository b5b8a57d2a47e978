(* MatLoops.v - more loop rules over matrices *)
From Coq Require Import List Arith Bool Lia.
From Verif Require Import Base Scalar Mat SpecMat MatFacts MatProofs.
Import ListNotations.
Local Open Scope nat_scope.

(* for (k<size) m(k) = h k (m(k)) *)
Lemma flat_loop : forall A r c (body : nat -> mat A -> res (mat A)) (h : nat -> A -> A) p,
  (forall k q, k < r * c -> body k (mflat r c q) = Ok (mflat r c (fupd q k (h k (q k))))) ->
  forN (r * c) body (mflat r c p) = Ok (mflat r c (fun k => h k (p k))).
Proof.
  intros A r c body h p H.
  rewrite (@forN_sim _ _ (mflat r c)) with (step := fun k q => fupd q k (h k (q k))) by auto.
  f_equal. apply mflat_ext. intros k Hk.
  rewrite (@fold_point nat A nat (fun x q => fupd q x (h x (q x))) (fun x v => if x =? k then h x v else v)).
  - rewrite fold_hit0 by auto. reflexivity.
  - intros x q. unfold fupd. destruct (Nat.eqb_spec x k); subst; auto.
Qed.

(* for (i<n) for (j<k) m(i,j) = h i j (m(i,j)) *)
Lemma cell_loop : forall A n k (body : nat -> nat -> mat A -> res (mat A)) (h : nat -> nat -> A -> A) p,
  (forall i j q, i < n -> j < k -> body i j (mgen n k q) = Ok (mgen n k (upd2 q i j (h i j (q i j))))) ->
  forN n (fun i m => forN k (fun j m => body i j m) m) (mgen n k p) = Ok (mgen n k (fun i j => h i j (p i j))).
Proof.
  intros A n k body h p H.
  rewrite (@forN_sim _ _ (mgen n k)) with (step := fun i q => fold_left (fun q j => upd2 q i j (h i j (q i j))) (seq 0 k) q).
  2:{ intros i q Hi. rewrite (@forN_sim _ _ (mgen n k)) with (step := fun j q => upd2 q i j (h i j (q i j))); auto. }
  f_equal. apply mgen_ext. intros i j Hi Hj. rewrite (@fill_point2 A h i j n k p) by auto. reflexivity.
Qed.

Lemma Ok_eq : forall A (a b : A), a = b -> Ok a = Ok b.
Proof. intros; subst; reflexivity. Qed.
