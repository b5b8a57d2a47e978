(* LayKit.v - loop rules used for the layers *)
From Coq Require Import List Arith Bool Lia.
From Verif Require Import Base Scalar Mat SpecMat MatFacts MatProofs MatLoops LayMat.
Import ListNotations.
Local Open Scope nat_scope.

Lemma cell2 : forall A n k (body : nat -> nat -> mat A -> res (mat A)) (h : nat -> nat -> A -> A) p,
  (forall i j q, i < n -> j < k -> body i j (mgen n k q) = Ok (mgen n k (upd2 q i j (h i j (q i j))))) ->
  loop2 n k body (mgen n k p) = Ok (mgen n k (fun i j => h i j (p i j))).
Proof. intros. apply cell_loop; auto. Qed.

Lemma upd2_id : forall A n k (q : nat -> nat -> A) i j, mgen n k (upd2 q i j (q i j)) = mgen n k q.
Proof.
  intros. apply mgen_ext. intros a b _ _. unfold upd2.
  destruct (Nat.eqb_spec a i), (Nat.eqb_spec b j); simpl; subst; auto.
Qed.

(* body i j acts on column j only *)
Lemma colacc : forall A r n k (body : nat -> nat -> mat A -> res (mat A)) (h : nat -> nat -> nat -> A -> A) p,
  (forall i j q, i < n -> j < k ->
     body i j (mgen r k q) = Ok (mgen r k (fun a b => if b =? j then h i j a (q a b) else q a b))) ->
  loop2 n k body (mgen r k p) = Ok (mgen r k (fun a j => fold_left (fun v i => h i j a v) (seq 0 n) (p a j))).
Proof.
  intros A r n k body h p H. unfold loop2.
  rewrite (@forN_sim _ _ (mgen r k)) with
    (step := fun i q => fold_left (fun (q : nat -> nat -> A) j => fun a b => if b =? j then h i j a (q a b) else q a b) (seq 0 k) q).
  2:{ intros i q Hi. rewrite (@forN_sim _ _ (mgen r k)) with (step := fun j (q : nat -> nat -> A) => fun a b => if b =? j then h i j a (q a b) else q a b); auto. }
  apply Ok_eq, mgen_ext. intros a b Ha Hb.
  rewrite (@fold_point2 nat A (fun i q => fold_left (fun (q : nat -> nat -> A) j => fun a b => if b =? j then h i j a (q a b) else q a b) (seq 0 k) q)
             (fun i v => h i b a v)); auto.
  intros i q _.
  rewrite (@fold_point2 nat A (fun j (q : nat -> nat -> A) => fun a b => if b =? j then h i j a (q a b) else q a b) (fun j v => if j =? b then h i j a v else v)).
  - rewrite (fold_hit0 (fun j v => h i j a v)) by auto. reflexivity.
  - intros j q' _. rewrite Nat.eqb_sym. reflexivity.
Qed.

(* a one-row accumulator *)
Lemma rowacc : forall A n k (body : nat -> nat -> mat A -> res (mat A)) (h : nat -> nat -> A -> A) p,
  (forall i j q, i < n -> j < k -> body i j (mgen 1 k q) = Ok (mgen 1 k (upd2 q 0 j (h i j (q 0 j))))) ->
  loop2 n k body (mgen 1 k p) = Ok (mgen 1 k (fun _ j => fold_left (fun v i => h i j v) (seq 0 n) (p 0 j))).
Proof.
  intros A n k body h p H. rewrite (@colacc A 1 n k body (fun i j _ v => h i j v)).
  - apply Ok_eq, mgen_ext. intros a b Ha Hb. replace a with 0 by lia. reflexivity.
  - intros i j q Hi Hj. rewrite H by auto. apply Ok_eq, mgen_ext. intros a b Ha Hb. unfold upd2.
    replace a with 0 by lia. simpl. destruct (Nat.eqb_spec b j); subst; auto.
Qed.

(* a flat fill loop: every cell k receives h k *)
Lemma flat_fill : forall A r c (body : nat -> mat A -> res (mat A)) (h : nat -> A) p,
  (forall k q, k < r * c -> body k (mflat r c q) = Ok (mflat r c (fupd q k (h k)))) ->
  forN (r * c) body (mflat r c p) = Ok (mflat r c h).
Proof. intros A r c body h p H. rewrite (@flat_loop A r c body (fun k _ => h k)); auto. Qed.

Lemma fupd_id : forall A r c (q : nat -> A) k, mflat r c (fupd q k (q k)) = mflat r c q.
Proof. intros. apply mflat_ext. intros x _. unfold fupd. destruct (Nat.eqb_spec k x); subst; auto. Qed.

Lemma mresize_flat : forall (F : FOps) (m : mat F) r c, mwf m -> exists g, mresize F m r c = mflat r c g.
Proof. intros F m r c H. destruct (mresize_gen F m r c H) as [f E]. rewrite E, mgen_flat. eexists; reflexivity. Qed.

Lemma mresize_same : forall (F : FOps) n k f, mresize F (mgen n k f) n k = mgen n k f.
Proof. intros. unfold mresize. simpl mcols. simpl mrows. rewrite !Nat.eqb_refl. reflexivity. Qed.

(* same number of cells: the data is kept *)
Lemma mresize_view : forall (F : FOps) r c r' c' (g : nat -> F), r * c = r' * c' -> mresize F (mflat r c g) r' c' = mflat r' c' g.
Proof.
  intros F r c r' c' g H. unfold mresize, msize, mflat. simpl mrows. simpl mcols. cbn [mdata].
  destruct ((c' =? c) && (r' =? r)) eqn:E.
  - apply andb_true_iff in E. destruct E as [E1 E2]. apply Nat.eqb_eq in E1, E2. subst. reflexivity.
  - rewrite <- H, Nat.eqb_refl. reflexivity.
Qed.

Lemma setRandom_flat : forall (F : FOps) g r c (q : nat -> F), setRandom F g (mflat r c q) = Ok (mflat r c g).
Proof.
  intros. unfold setRandom. change (msize (mflat r c q)) with (r * c). apply flat_fill. intros k q' Hk.
  apply mset1_flat; auto.
Qed.

(* iteration l replaces row l by a function of row l *)
Lemma rowfun_loop : forall A n k (body : nat -> mat A -> res (mat A)) (H : nat -> (nat -> A) -> nat -> A) p,
  (forall l q, l < n -> body l (mgen n k q) = Ok (mgen n k (fun i j => if i =? l then H l (q l) j else q i j))) ->
  forN n body (mgen n k p) = Ok (mgen n k (fun i => H i (p i))).
Proof.
  intros A n k body H p HB.
  rewrite (@forN_sim _ _ (mgen n k)) with (step := fun l (q : nat -> nat -> A) => fun i => if i =? l then H l (q l) else q i).
  2:{ intros l q Hl. rewrite HB by auto. apply Ok_eq, mgen_ext. intros i j _ _. destruct (i =? l); auto. }
  apply Ok_eq, mgen_ext. intros i j Hi Hj.
  rewrite (@fold_point nat (nat -> A) nat (fun l (q : nat -> nat -> A) => fun i => if i =? l then H l (q l) else q i) (fun l v => if l =? i then H l v else v)).
  - rewrite (fold_hit0 (fun l v => H l v)) by auto. reflexivity.
  - intros l q _. rewrite (Nat.eqb_sym i l). destruct (Nat.eqb_spec l i); subst; auto.
Qed.

(* iteration j acts on column j *)
Lemma colmap : forall A r k (body : nat -> mat A -> res (mat A)) (h : nat -> nat -> A -> A) p,
  (forall j q, j < k -> body j (mgen r k q) = Ok (mgen r k (fun a b => if b =? j then h j a (q a b) else q a b))) ->
  forN k body (mgen r k p) = Ok (mgen r k (fun a j => h j a (p a j))).
Proof.
  intros A r k body h p H.
  rewrite (@forN_sim _ _ (mgen r k)) with (step := fun j (q : nat -> nat -> A) => fun a b => if b =? j then h j a (q a b) else q a b); auto.
  apply Ok_eq, mgen_ext. intros a b Ha Hb.
  rewrite (@fold_point2 nat A (fun j (q : nat -> nat -> A) => fun a b => if b =? j then h j a (q a b) else q a b) (fun j v => if j =? b then h j a v else v)).
  - apply (fold_hit0 (fun j v => h j a v)); auto.
  - intros j q' _. rewrite Nat.eqb_sym. reflexivity.
Qed.
