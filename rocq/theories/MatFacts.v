(* MatFacts.v - the proof kit for matrix loops *)
From Coq Require Import List Arith Lia Bool ZArith.
From Verif Require Import Base Scalar Mat SpecMat.
Import ListNotations.

Section Kit.
Variable A : Type.
Implicit Types (f : nat -> nat -> A).

(* flat description *)
Definition mflat (r c : nat) (g : nat -> A) : mat A := mkMat r c (map g (seq 0 (r * c))).

Lemma map_flat_map_seq : forall r c f,
  flat_map (fun i => map (f i) (seq 0 c)) (seq 0 r) = map (fun k => f (k / c) (k mod c)) (seq 0 (r * c)).
Proof.
  intros r c f. destruct c as [|c'].
  { rewrite Nat.mul_0_r. simpl. induction (seq 0 r); simpl; auto. }
  set (c := S c'). assert (Hc : c <> 0) by (unfold c; lia). clearbody c.
  induction r as [|r IH]; [reflexivity|].
  rewrite seq_S, flat_map_app, IH. simpl. rewrite app_nil_r.
  replace (c + r * c) with (r * c + c) by lia.
  rewrite seq_app, map_app. f_equal. simpl.
  replace (seq (r * c) c) with (map (fun j => r * c + j) (seq 0 c)).
  - rewrite map_map. apply map_ext_in. intros j Hj. apply in_seq in Hj.
    rewrite idx_div, idx_mod by lia. reflexivity.
  - clear. generalize (r * c). intro n.
    assert (G : forall s, map (fun j => n + j) (seq s c) = seq (n + s) c).
    { induction c as [|c IH]; intro s; simpl; auto. f_equal. rewrite IH. f_equal; lia. }
    rewrite G. f_equal; lia.
Qed.

Lemma mgen_flat : forall r c f, mgen r c f = mflat r c (fun k => f (k / c) (k mod c)).
Proof. intros. unfold mgen, mflat. rewrite map_flat_map_seq. reflexivity. Qed.

Lemma mflat_gen : forall r c g, mflat r c g = mgen r c (fun i j => g (i * c + j)).
Proof.
  intros. rewrite mgen_flat. unfold mflat. f_equal. apply map_seq_ext. intros k Hk.
  rewrite idx_eq; auto. nia.
Qed.

Lemma mgen_ext : forall r c f (g : nat -> nat -> A),
  (forall i j, i < r -> j < c -> f i j = g i j) -> mgen r c f = mgen r c g.
Proof.
  intros. rewrite !mgen_flat. unfold mflat. f_equal. apply map_seq_ext. intros k Hk.
  apply H; [apply div_lt_r | apply mod_lt_c with (r := r)]; auto.
Qed.

Lemma mflat_ext : forall r c g h, (forall k, k < r * c -> g k = h k) -> mflat r c g = mflat r c h.
Proof. intros. unfold mflat. f_equal. apply map_seq_ext; auto. Qed.

Lemma mwf_gen : forall r c f, mwf (mgen r c f).
Proof. intros. rewrite mgen_flat. unfold mwf. simpl. rewrite map_length, seq_length. reflexivity. Qed.

Lemma length_mgen : forall r c f, length (mdata (mgen r c f)) = r * c.
Proof. intros. apply (mwf_gen r c f). Qed.

Lemma mwf_flat_d : forall (d : A) (m : mat A), mwf m -> m = mflat (mrows m) (mcols m) (fun k => nth k (mdata m) d).
Proof.
  intros d [r c dat] H. unfold mwf in H. simpl in *. unfold mflat. f_equal.
  rewrite <- H. apply list_as_map.
Qed.

Lemma mwf_gen_d : forall (d : A) (m : mat A), mwf m ->
  m = mgen (mrows m) (mcols m) (fun i j => nth (i * mcols m + j) (mdata m) d).
Proof. intros. rewrite (mwf_flat_d d m H) at 1. apply mflat_gen. Qed.


Lemma mget1_flat : forall r c g k, k < r * c -> mget1 (mflat r c g) k = Ok (g k).
Proof.
  intros. unfold mget1, assert_, msize. simpl.
  replace (k <? r * c) with true by (symmetry; apply Nat.ltb_lt; auto). simpl. apply rget_seq; auto.
Qed.

Lemma mset1_flat : forall r c g k v, k < r * c -> mset1 (mflat r c g) k v = Ok (mflat r c (fupd g k v)).
Proof.
  intros. unfold mset1, assert_, msize. simpl.
  replace (k <? r * c) with true by (symmetry; apply Nat.ltb_lt; auto). simpl.
  rewrite rset_seq by auto. reflexivity.
Qed.

Lemma mget1_gen : forall r c f k, k < r * c -> mget1 (mgen r c f) k = Ok (f (k / c) (k mod c)).
Proof. intros. rewrite mgen_flat. rewrite mget1_flat by auto. reflexivity. Qed.

Lemma mget2_gen : forall r c f i j, i < r -> j < c -> mget2 (mgen r c f) i j = Ok (f i j).
Proof.
  intros. unfold mget2, assert_. rewrite mgen_flat. simpl.
  replace (i <? r) with true by (symmetry; apply Nat.ltb_lt; auto).
  replace (j <? c) with true by (symmetry; apply Nat.ltb_lt; auto). simpl.
  rewrite rget_seq by (apply idx_lt; auto). rewrite idx_div, idx_mod by auto. reflexivity.
Qed.

Lemma mset2_gen : forall r c f i j v, i < r -> j < c ->
  mset2 (mgen r c f) i j v = Ok (mgen r c (upd2 f i j v)).
Proof.
  intros. unfold mset2, assert_. rewrite !mgen_flat. simpl.
  replace (i <? r) with true by (symmetry; apply Nat.ltb_lt; auto).
  replace (j <? c) with true by (symmetry; apply Nat.ltb_lt; auto). simpl.
  rewrite rset_seq by (apply idx_lt; auto). simpl. f_equal. unfold mflat. f_equal.
  apply map_seq_ext. intros k Hk. unfold fupd, upd2.
  destruct (i * c + j =? k) eqn:E.
  - apply Nat.eqb_eq in E. subst k. rewrite idx_div, idx_mod by auto. rewrite !Nat.eqb_refl. reflexivity.
  - apply Nat.eqb_neq in E. destruct ((k / c =? i) && (k mod c =? j)) eqn:E2; auto.
    apply andb_true_iff in E2. destruct E2 as [E2 E3]. apply Nat.eqb_eq in E2. apply Nat.eqb_eq in E3.
    exfalso. apply E. subst. apply idx_eq. lia.
Qed.

(* row-vector and column-vector access by a single index *)
Lemma mget1_row : forall c f k, k < c -> mget1 (mgen 1 c f) k = Ok (f 0 k).
Proof. intros. rewrite mget1_gen by lia. rewrite Nat.div_small, Nat.mod_small by auto. reflexivity. Qed.

Lemma mget1_col : forall r f k, k < r -> mget1 (mgen r 1 f) k = Ok (f k 0).
Proof. intros. rewrite mget1_gen by lia. rewrite Nat.div_1_r, Nat.mod_1_r. reflexivity. Qed.

Lemma mset1_gen : forall r c f k v, k < r * c ->
  mset1 (mgen r c f) k v = Ok (mgen r c (upd2 f (k / c) (k mod c) v)).
Proof.
  intros. rewrite mgen_flat, mset1_flat by auto. f_equal. rewrite mflat_gen. apply mgen_ext.
  intros i j Hi Hj. unfold fupd, upd2. destruct (k =? i * c + j) eqn:E.
  - apply Nat.eqb_eq in E; subst. rewrite idx_div, idx_mod by auto. rewrite !Nat.eqb_refl. reflexivity.
  - apply Nat.eqb_neq in E. rewrite idx_div, idx_mod by auto.
    destruct ((i =? k / c) && (j =? k mod c)) eqn:E2; auto.
    apply andb_true_iff in E2. destruct E2 as [E2 E3]. apply Nat.eqb_eq in E2. apply Nat.eqb_eq in E3.
    exfalso. apply E. subst. rewrite idx_eq; auto. lia.
Qed.

Lemma mset1_row : forall c f k v, k < c -> mset1 (mgen 1 c f) k v = Ok (mgen 1 c (upd2 f 0 k v)).
Proof. intros. rewrite mset1_gen by lia. rewrite Nat.div_small, Nat.mod_small by auto. reflexivity. Qed.

Lemma mset1_col : forall r f k v, k < r -> mset1 (mgen r 1 f) k v = Ok (mgen r 1 (upd2 f k 0 v)).
Proof. intros. rewrite mset1_gen by lia. rewrite Nat.div_1_r, Nat.mod_1_r. reflexivity. Qed.

Lemma rget_gen : forall r c f i j, i < r -> j < c -> rget (mdata (mgen r c f)) (i * c + j) = Ok (f i j).
Proof.
  intros. rewrite mgen_flat. simpl. rewrite rget_seq by (apply idx_lt; auto).
  rewrite idx_div, idx_mod by auto. reflexivity.
Qed.

Lemma rget_mgen : forall r c f k, k < r * c -> rget (mdata (mgen r c f)) k = Ok (f (k / c) (k mod c)).
Proof. intros. rewrite mgen_flat. simpl. rewrite rget_seq by auto. reflexivity. Qed.

Lemma rset_mgen : forall r c f k v, k < r * c ->
  rset (mdata (mgen r c f)) k v = Ok (mdata (mgen r c (upd2 f (k / c) (k mod c) v))).
Proof.
  intros. pose proof (mset1_gen r c f k v H) as E. unfold mset1, assert_, msize in E.
  change (mrows (mgen r c f)) with r in E. change (mcols (mgen r c f)) with c in E.
  replace (k <? r * c) with true in E by (symmetry; apply Nat.ltb_lt; auto).
  unfold bind in E. destruct (rset (mdata (mgen r c f)) k v) eqn:E1; inversion E. reflexivity.
Qed.

(* loops over the cells *)
Lemma mapLoop_flat : forall (h : A -> A) r c g, mapLoop h (mflat r c g) = Ok (mflat r c (fun k => h (g k))).
Proof.
  intros. unfold mapLoop, msize. simpl.
  rewrite (forN_sim (mflat r c)) with (step := fun i g => fupd g i (h (g i))).
  2:{ intros i p Hi. rewrite mget1_flat by auto. simpl. rewrite mset1_flat by auto. reflexivity. }
  f_equal. apply mflat_ext. intros k Hk.
  rewrite (fold_point (fun x S => fupd S x (h (S x))) (fun x v => if x =? k then h v else v)).
  - rewrite fold_hit0; auto.
  - intros x S _. unfold fupd. destruct (x =? k) eqn:E; auto. apply Nat.eqb_eq in E; subst; auto.
Qed.

Lemma mapLoop_gen : forall (h : A -> A) r c f, mapLoop h (mgen r c f) = Ok (mgen r c (fun i j => h (f i j))).
Proof. intros. rewrite !mgen_flat. apply mapLoop_flat. Qed.

Lemma zipLoop_flat : forall (h : A -> A -> A) r c r' c' g g', r * c = r' * c' ->
  zipLoop h (mflat r c g) (mflat r' c' g') = Ok (mflat r c (fun k => h (g k) (g' k))).
Proof.
  intros. unfold zipLoop, msize. simpl.
  rewrite (forN_sim (mflat r c)) with (step := fun i g => fupd g i (h (g i) (g' i))).
  2:{ intros i p Hi. rewrite mget1_flat by auto. simpl. rewrite mget1_flat by lia. simpl.
      rewrite mset1_flat by auto. reflexivity. }
  f_equal. apply mflat_ext. intros k Hk.
  rewrite (fold_point (fun x S => fupd S x (h (S x) (g' x))) (fun x v => if x =? k then h v (g' x) else v)).
  - rewrite (fold_hit0 (fun x v => h v (g' x))); auto.
  - intros x S _. unfold fupd. destruct (x =? k) eqn:E; auto. apply Nat.eqb_eq in E; subst; auto.
Qed.

Lemma zipLoop_gen : forall (h : A -> A -> A) r c f f',
  zipLoop h (mgen r c f) (mgen r c f') = Ok (mgen r c (fun i j => h (f i j) (f' i j))).
Proof. intros. rewrite !mgen_flat. apply zipLoop_flat. reflexivity. Qed.

(* Fill loops: a rows x cols double loop that writes every cell once. *)
Lemma fill_point2 : forall (h : nat -> nat -> A -> A) i j nr nc (f : nat -> nat -> A),
  i < nr -> j < nc ->
  fold_left (fun q a => fold_left (fun q b => upd2 q a b (h a b (q a b))) (seq 0 nc) q) (seq 0 nr) f i j
  = h i j (f i j).
Proof.
  intros h i j nr nc f Hi Hj.
  set (G := fun a (q : nat*nat -> A) => (fun p => fold_left (fun q b => upd2 q a b (h a b (q a b))) (seq 0 nc) (fun i j => q (i,j)) (fst p) (snd p))).
  transitivity (fold_left (fun q a => G a q) (seq 0 nr) (fun p => f (fst p) (snd p)) (i,j)).
  { clear Hi Hj. revert f. induction (seq 0 nr) as [|a l IH]; intro f; simpl; auto. rewrite IH. reflexivity. }
  rewrite (fold_point G (fun a v => if a =? i then h a j v else v)).
  - rewrite (fold_hit0 (fun a v => h a j v)); auto.
  - intros a q _. unfold G. simpl.
    set (G2 := fun b (q : nat*nat -> A) => (fun p => upd2 (fun i j => q (i,j)) a b (h a b (q (a,b))) (fst p) (snd p))).
    transitivity (fold_left (fun q b => G2 b q) (seq 0 nc) q (i,j)).
    { clear Hj. assert (K : forall l q, fold_left (fun (q : nat -> nat -> A) b => upd2 q a b (h a b (q a b))) l (fun i j => q (i,j)) i j = fold_left (fun q b => G2 b q) l q (i,j)).
      { induction l as [|b l IH]; intro q'; simpl; auto. rewrite <- IH. reflexivity. }
      apply K. }
    rewrite (fold_point G2 (fun b v => if b =? j then (if a =? i then h a b v else v) else v)).
    + rewrite (fold_hit0 (fun b v => if a =? i then h a b v else v)); auto.
    + intros b q' _. unfold G2, upd2. simpl. rewrite (Nat.eqb_sym i a), (Nat.eqb_sym j b).
      destruct (a =? i) eqn:E; simpl.
      * destruct (b =? j) eqn:E'; auto. apply Nat.eqb_eq in E, E'. subst; auto.
      * destruct (b =? j); auto.
Qed.

End Kit.
Arguments upd2 {A}. Arguments mflat {A}.
