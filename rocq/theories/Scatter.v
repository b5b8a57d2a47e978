(* Scatter.v - loops that update one cell per iteration; 4-index tensors *)
From Coq Require Import List Arith Lia Bool ZArith.
From Verif Require Import Base Scalar Mat SpecMat MatFacts.
Import ListNotations.

(** nested loops as one loop over index lists *)
Lemma forL_flat_map : forall I J S (l : list I) (k : I -> list J) (body : J -> S -> res S) s,
  forL (flat_map k l) body s = forL l (fun i s => forL (k i) body s) s.
Proof.
  induction l as [|i l IH]; intros; simpl; auto.
  rewrite forL_app. destruct (forL (k i) body s); simpl; auto.
Qed.

Lemma forL_map : forall I J S (h : I -> J) (l : list I) (body : J -> S -> res S) s,
  forL (map h l) body s = forL l (fun i s => body (h i) s) s.
Proof.
  induction l as [|i l IH]; intros; simpl; auto. destruct (body (h i) s); simpl; auto.
Qed.

Definition pairs (a b : nat) : list (nat * nat) := flat_map (fun i => map (fun j => (i, j)) (seq 0 b)) (seq 0 a).

Lemma forN_pairs : forall S a b (body : nat -> nat -> S -> res S) s,
  forN a (fun i s => forN b (fun j s => body i j s) s) s = forL (pairs a b) (fun p s => body (fst p) (snd p) s) s.
Proof.
  intros. unfold pairs. rewrite forL_flat_map. apply forL_ext. intros. rewrite forL_map. reflexivity.
Qed.

Lemma in_pairs : forall a b p, In p (pairs a b) <-> fst p < a /\ snd p < b.
Proof.
  intros a b [i j]. unfold pairs. rewrite in_flat_map. simpl. split.
  - intros (x & Hx & H). apply in_map_iff in H. destruct H as (y & E & Hy). inversion E; subst.
    apply in_seq in Hx. apply in_seq in Hy. lia.
  - intros [H1 H2]. exists i. split; [apply in_seq; lia|]. apply in_map_iff. exists j. split; auto. apply in_seq; lia.
Qed.

(** the value of one cell after a scatter loop *)
Lemma scatter_point : forall I A (addr : I -> nat) (h : I -> A -> A) l (g : nat -> A) k,
  fold_left (fun g x => fupd g (addr x) (h x (g (addr x)))) l g k =
  fold_left (fun v x => h x v) (filter (fun x => addr x =? k) l) (g k).
Proof.
  induction l as [|x l IH]; intros g k; simpl; auto.
  rewrite IH. unfold fupd. destruct (addr x =? k) eqn:E; simpl; auto.
  apply Nat.eqb_eq in E. subst. reflexivity.
Qed.

(* same, when what is written may read other cells of the source only *)
Lemma fold_filter : forall I A (p : I -> bool) (h : I -> A -> A) l v,
  fold_left (fun v x => if p x then h x v else v) l v = fold_left (fun v x => h x v) (filter p l) v.
Proof.
  induction l as [|x l IH]; intros; simpl; auto. destruct (p x); simpl; auto.
Qed.

Lemma filter_unique : forall I (p : I -> bool) l x,
  NoDup l -> In x l -> p x = true -> (forall y, In y l -> p y = true -> y = x) -> filter p l = [x].
Proof.
  intros I p l x ND Hin Hp Hu. induction l as [|y l IH]; [contradiction|].
  inversion ND; subst. simpl. destruct (p y) eqn:E.
  - assert (y = x) by (apply Hu; simpl; auto). subst. f_equal.
    destruct (filter p l) as [|z q] eqn:Eq; auto.
    assert (In z (filter p l)) by (rewrite Eq; simpl; auto). apply filter_In in H. destruct H.
    assert (z = x) by (apply Hu; simpl; auto). subst. contradiction.
  - destruct Hin; [subst; congruence|]. apply IH; auto. intros; apply Hu; simpl; auto.
Qed.

Lemma filter_none : forall I (p : I -> bool) l, (forall y, In y l -> p y = false) -> filter p l = [].
Proof.
  induction l as [|y l IH]; intros H; simpl; auto. rewrite H by (simpl; auto). apply IH; intros; apply H; simpl; auto.
Qed.

Lemma NoDup_app_disj : forall A (l1 l2 : list A), NoDup l1 -> NoDup l2 -> (forall x, In x l1 -> ~ In x l2) -> NoDup (l1 ++ l2).
Proof.
  induction l1 as [|a l1 IH]; intros l2 H1 H2 H; simpl; auto. inversion H1; subst. constructor.
  - rewrite in_app_iff. intros [?|?]; auto. apply (H a); simpl; auto.
  - apply IH; auto. intros; apply H; simpl; auto.
Qed.

Lemma NoDup_flat_map : forall A B (f : A -> list B) l, NoDup l -> (forall a, In a l -> NoDup (f a)) ->
  (forall a b x, In a l -> In b l -> In x (f a) -> In x (f b) -> a = b) -> NoDup (flat_map f l).
Proof.
  induction l as [|a l IH]; intros ND H1 H2; simpl; [constructor|]. inversion ND; subst.
  apply NoDup_app_disj.
  - apply H1; simpl; auto.
  - apply IH; auto. + intros; apply H1; simpl; auto. + intros; eapply H2; eauto; simpl; auto.
  - intros x Hx Hy. apply in_flat_map in Hy. destruct Hy as (b & Hb & Hy).
    assert (a = b) by (eapply H2; eauto; simpl; auto). subst. contradiction.
Qed.

Lemma NoDup_map_inj : forall A B (f : A -> B) l, (forall x y, In x l -> In y l -> f x = f y -> x = y) -> NoDup l -> NoDup (map f l).
Proof.
  induction l as [|a l IH]; intros H ND; simpl; [constructor|]. inversion ND; subst. constructor.
  - intro Hi. apply in_map_iff in Hi. destruct Hi as (y & E & Hy).
    assert (y = a) by (apply H; simpl; auto). subst; contradiction.
  - apply IH; auto. intros; apply H; simpl; auto.
Qed.

Lemma NoDup_pairs : forall a b, NoDup (pairs a b).
Proof.
  intros. unfold pairs. apply NoDup_flat_map.
  - apply seq_NoDup.
  - intros i _. apply NoDup_map_inj; [|apply seq_NoDup]. intros x y _ _ E; inversion E; auto.
  - intros i i' [x y] _ _ H H'. apply in_map_iff in H. apply in_map_iff in H'.
    destruct H as (? & E & _). destruct H' as (? & E' & _). inversion E; inversion E'; subst; auto.
Qed.

(** flat access *)
Section Flat.
Variable A : Type.

Lemma mget2_flat : forall r c (g : nat -> A) i j, i < r -> j < c -> mget2 (mflat r c g) i j = Ok (g (i * c + j)).
Proof. intros. rewrite mflat_gen. rewrite mget2_gen by auto. reflexivity. Qed.

Lemma mset2_flat : forall r c (g : nat -> A) i j v, i < r -> j < c ->
  mset2 (mflat r c g) i j v = Ok (mflat r c (fupd g (i * c + j) v)).
Proof.
  intros. unfold mset2, assert_. simpl.
  replace (i <? r) with true by (symmetry; apply Nat.ltb_lt; auto).
  replace (j <? c) with true by (symmetry; apply Nat.ltb_lt; auto). cbn [bind].
  rewrite rset_seq by (apply idx_lt; auto). reflexivity.
Qed.

Lemma rget_flat : forall r c (g : nat -> A) k, k < r * c -> rget (mdata (mflat r c g)) k = Ok (g k).
Proof. intros. apply rget_seq; auto. Qed.

Lemma rset_flat : forall r c (g : nat -> A) k v, k < r * c ->
  rset (mdata (mflat r c g)) k v = Ok (mdata (mflat r c (fupd g k v))).
Proof. intros. apply rset_seq; auto. Qed.
End Flat.

(** 4-index tensors *)
Definition addr4 (nH nR nC s h r c : nat) : nat := ((s * nH + h) * nR + r) * nC + c.

Lemma addr4_lt : forall nS nH nR nC s h r c, s < nS -> h < nH -> r < nR -> c < nC ->
  addr4 nH nR nC s h r c < nS * (nH * nR * nC).
Proof.
  intros. unfold addr4. rewrite !Nat.mul_assoc. repeat apply idx_lt; auto.
Qed.

Lemma addr4_inj : forall nH nR nC s h r c s' h' r' c',
  h < nH -> r < nR -> c < nC -> h' < nH -> r' < nR -> c' < nC ->
  addr4 nH nR nC s h r c = addr4 nH nR nC s' h' r' c' -> s = s' /\ h = h' /\ r = r' /\ c = c'.
Proof.
  unfold addr4. intros. apply idx_inj in H5; auto. destruct H5 as [H5 ?].
  apply idx_inj in H5; auto. destruct H5 as [H5 ?]. apply idx_inj in H5; auto. destruct H5. auto.
Qed.

Lemma addr4_surj : forall nS nH nR nC k, k < nS * (nH * nR * nC) ->
  exists s h r c, s < nS /\ h < nH /\ r < nR /\ c < nC /\ k = addr4 nH nR nC s h r c.
Proof.
  intros nS nH nR nC k Hk. rewrite !Nat.mul_assoc in Hk.
  exists (k / nC / nR / nH), ((k / nC / nR) mod nH), ((k / nC) mod nR), (k mod nC).
  pose proof (@div_lt_r _ _ _ Hk) as H1. pose proof (@div_lt_r _ _ _ H1) as H2. pose proof (@div_lt_r _ _ _ H2) as H3.
  pose proof (@mod_lt_c _ _ _ Hk). pose proof (@mod_lt_c _ _ _ H1). pose proof (@mod_lt_c _ _ _ H2).
  repeat split; auto. unfold addr4. rewrite !idx_eq; auto; lia.
Qed.

Lemma map_as_seq : forall A (f : nat -> A) n s, map f (seq s n) = map (fun i => f (s + i)) (seq 0 n).
Proof.
  intros. apply list_ext. intro i. destruct (lt_dec i n).
  - rewrite !nth_error_map_seq by auto. reflexivity.
  - rewrite !(proj2 (nth_error_None _ _)); auto; rewrite map_length, seq_length; lia.
Qed.

Lemma tens_data : forall A nS nH nR nC (t : nat -> nat -> nat -> nat -> A),
  mdata (tens nS nH nR nC t) =
  map (fun k => t (k / nC / nR / nH) ((k / nC / nR) mod nH) ((k / nC) mod nR) (k mod nC)) (seq 0 (nS * (nH * nR * nC))).
Proof.
  intros. simpl.
  transitivity (flat_map (fun s => flat_map (fun h => map (fun q => t s h (q / nC) (q mod nC)) (seq 0 (nR * nC))) (seq 0 nH)) (seq 0 nS)).
  { apply flat_map_ext. intro s. apply flat_map_ext. intro h. apply map_flat_map_seq. }
  transitivity (flat_map (fun s => map (fun q => t s (q / (nR * nC)) ((q mod (nR * nC)) / nC) ((q mod (nR * nC)) mod nC)) (seq 0 (nH * (nR * nC)))) (seq 0 nS)).
  { apply flat_map_ext. intro s. apply (map_flat_map_seq A nH (nR * nC) (fun h q => t s h (q / nC) (q mod nC))). }
  rewrite (map_flat_map_seq A nS (nH * (nR * nC)) (fun s q => t s (q / (nR * nC)) ((q mod (nR * nC)) / nC) ((q mod (nR * nC)) mod nC))).
  rewrite <- (Nat.mul_assoc nH nR nC). apply map_seq_ext. intros k Hk.
  assert (nC <> 0) by (intro; subst; rewrite !Nat.mul_0_r in Hk; lia).
  assert (nR <> 0) by (intro; subst; simpl in Hk; rewrite !Nat.mul_0_r in Hk; lia).
  assert (nH <> 0) by (intro; subst; simpl in Hk; rewrite !Nat.mul_0_r in Hk; lia).
  rewrite (Nat.mul_assoc nH nR nC) in Hk.
  destruct (addr4_surj nS nH nR nC k Hk) as (s & h & r & c & Hs & Hh & Hr & Hc & ->).
  unfold addr4.
  assert (E0 : ((s * nH + h) * nR + r) * nC + c = s * (nH * (nR * nC)) + (h * (nR * nC) + (r * nC + c))) by nia.
  assert (B1 : r * nC + c < nR * nC) by (apply idx_lt; auto).
  assert (B2 : h * (nR * nC) + (r * nC + c) < nH * (nR * nC)) by (apply idx_lt; auto).
  rewrite E0. rewrite idx_div by auto. rewrite idx_mod by auto.
  rewrite idx_div by auto. rewrite idx_mod by auto. rewrite idx_div, idx_mod by auto.
  rewrite <- E0. rewrite idx_div, idx_mod by auto. rewrite idx_div, idx_mod by auto.
  rewrite idx_div, idx_mod by auto. reflexivity.
Qed.

Lemma tens_flat : forall A nS nH nR nC (t : nat -> nat -> nat -> nat -> A),
  tens nS nH nR nC t =
  mflat nS (nH * nR * nC) (fun k => t (k / nC / nR / nH) ((k / nC / nR) mod nH) ((k / nC) mod nR) (k mod nC)).
Proof.
  intros. unfold mflat. rewrite <- tens_data. reflexivity.
Qed.

(* to recognise a tensor: look at all addresses *)
Lemma flat_tens : forall A nS nH nR nC (t : nat -> nat -> nat -> nat -> A) g,
  (forall s h r c, s < nS -> h < nH -> r < nR -> c < nC -> g (addr4 nH nR nC s h r c) = t s h r c) ->
  mflat nS (nH * nR * nC) g = tens nS nH nR nC t.
Proof.
  intros. rewrite tens_flat. apply mflat_ext. intros k Hk.
  destruct (addr4_surj nS nH nR nC k Hk) as (s & h & r & c & Hs & Hh & Hr & Hc & ->).
  rewrite H by auto. unfold addr4. rewrite idx_div, idx_mod by auto. rewrite idx_div, idx_mod by auto.
  rewrite idx_div, idx_mod by auto. reflexivity.
Qed.

Lemma tens_is_flat : forall A nS nH nR nC (t : nat -> nat -> nat -> nat -> A), exists g,
  tens nS nH nR nC t = mflat nS (nH * nR * nC) g /\
  forall s h r c, h < nH -> r < nR -> c < nC -> g (addr4 nH nR nC s h r c) = t s h r c.
Proof.
  intros. eexists. split; [apply tens_flat|]. intros. simpl.
  unfold addr4. rewrite idx_div, idx_mod by auto. rewrite idx_div, idx_mod by auto.
  rewrite idx_div, idx_mod by auto. reflexivity.
Qed.

Lemma tens_ext : forall A nS nH nR nC (t u : nat -> nat -> nat -> nat -> A),
  (forall s h r c, s < nS -> h < nH -> r < nR -> c < nC -> t s h r c = u s h r c) -> tens nS nH nR nC t = tens nS nH nR nC u.
Proof.
  intros. destruct (tens_is_flat A nS nH nR nC t) as (g & -> & Hg). apply flat_tens. intros. rewrite Hg; auto.
Qed.

Lemma mwf_tens : forall A nS nH nR nC (t : nat -> nat -> nat -> nat -> A), mwf (tens nS nH nR nC t).
Proof. intros. rewrite tens_flat. unfold mwf. simpl. rewrite map_length, seq_length. reflexivity. Qed.

(* every well-formed matrix with nS rows and nH*nR*nC columns is such a tensor *)
Lemma mwf_is_tens : forall A (d : A) nS nH nR nC (m : mat A), mwf m -> mrows m = nS -> mcols m = nH * nR * nC ->
  exists t, m = tens nS nH nR nC t.
Proof.
  intros. rewrite (mwf_flat_d A d m H). rewrite H0, H1.
  exists (fun s h r c => nth (addr4 nH nR nC s h r c) (mdata m) d). apply flat_tens. auto.
Qed.

(** quadruple loops *)
Definition quads (a b c d : nat) : list (nat * nat * nat * nat) :=
  flat_map (fun i => flat_map (fun j => flat_map (fun k => map (fun l => (i, j, k, l)) (seq 0 d)) (seq 0 c)) (seq 0 b)) (seq 0 a).

Definition q1 (q : nat * nat * nat * nat) := fst (fst (fst q)).
Definition q2 (q : nat * nat * nat * nat) := snd (fst (fst q)).
Definition q3 (q : nat * nat * nat * nat) := snd (fst q).
Definition q4 (q : nat * nat * nat * nat) := snd q.

Lemma forN_quads : forall S a b c d (body : nat -> nat -> nat -> nat -> S -> res S) s,
  forN a (fun i s => forN b (fun j s => forN c (fun k s => forN d (fun l s => body i j k l s) s) s) s) s =
  forL (quads a b c d) (fun q s => body (q1 q) (q2 q) (q3 q) (q4 q) s) s.
Proof.
  intros. unfold quads, forN. rewrite forL_flat_map. apply forL_ext. intros i s1 _.
  rewrite forL_flat_map. apply forL_ext. intros j s2 _.
  rewrite forL_flat_map. apply forL_ext. intros k s3 _.
  rewrite forL_map. reflexivity.
Qed.

Lemma in_quads : forall a b c d q, In q (quads a b c d) <-> q1 q < a /\ q2 q < b /\ q3 q < c /\ q4 q < d.
Proof.
  intros a b c d [[[i j] k] l]. unfold quads, q1, q2, q3, q4. simpl. rewrite in_flat_map. split.
  - intros (i' & Hi & H). apply in_flat_map in H. destruct H as (j' & Hj & H).
    apply in_flat_map in H. destruct H as (k' & Hk & H). apply in_map_iff in H. destruct H as (l' & E & Hl).
    inversion E; subst. apply in_seq in Hi, Hj, Hk, Hl. lia.
  - intros (Hi & Hj & Hk & Hl). exists i. split; [apply in_seq; lia|].
    apply in_flat_map. exists j. split; [apply in_seq; lia|].
    apply in_flat_map. exists k. split; [apply in_seq; lia|].
    apply in_map_iff. exists l. split; auto. apply in_seq; lia.
Qed.

Lemma NoDup_quads : forall a b c d, NoDup (quads a b c d).
Proof.
  intros. unfold quads.
  assert (H4 : forall i j k : nat, NoDup (map (fun l => (i, j, k, l)) (seq 0 d))).
  { intros. apply NoDup_map_inj; [|apply seq_NoDup]. intros x y _ _ E; inversion E; auto. }
  assert (I4 : forall (i j k : nat) q, In q (map (fun l => (i, j, k, l)) (seq 0 d)) -> q1 q = i /\ q2 q = j /\ q3 q = k).
  { intros i j k q H. apply in_map_iff in H. destruct H as (l & E & _). subst. auto. }
  assert (I3 : forall (i j : nat) q, In q (flat_map (fun k => map (fun l => (i, j, k, l)) (seq 0 d)) (seq 0 c)) -> q1 q = i /\ q2 q = j).
  { intros i j q H. apply in_flat_map in H. destruct H as (k & _ & H). apply I4 in H. tauto. }
  assert (I2 : forall (i : nat) q, In q (flat_map (fun j => flat_map (fun k => map (fun l => (i, j, k, l)) (seq 0 d)) (seq 0 c)) (seq 0 b)) -> q1 q = i).
  { intros i q H. apply in_flat_map in H. destruct H as (j & _ & H). apply I3 in H. tauto. }
  apply NoDup_flat_map.
  - apply seq_NoDup.
  - intros i _. apply NoDup_flat_map; [apply seq_NoDup| |].
    + intros j _. apply NoDup_flat_map; [apply seq_NoDup| |]; auto.
      intros k k' q _ _ H H'. apply I4 in H, H'. intuition congruence.
    + intros j j' q _ _ H H'. apply I3 in H, H'. intuition congruence.
  - intros i i' q _ _ H H'. apply I2 in H, H'. congruence.
Qed.

(* A quadruple loop that updates cell (s,h,r,c) of a tensor from its old value. *)
Lemma tens_map_loop : forall A nS nH nR nC (body : nat -> nat -> nat -> nat -> mat A -> res (mat A))
    (f : nat -> nat -> nat -> nat -> A -> A) t,
  (forall s h r c g, s < nS -> h < nH -> r < nR -> c < nC ->
     body s h r c (mflat nS (nH * nR * nC) g) =
     Ok (mflat nS (nH * nR * nC) (fupd g (addr4 nH nR nC s h r c) (f s h r c (g (addr4 nH nR nC s h r c)))))) ->
  forN nS (fun s m => forN nH (fun h m => forN nR (fun r m => forN nC (fun c m => body s h r c m) m) m) m) (tens nS nH nR nC t) =
  Ok (tens nS nH nR nC (fun s h r c => f s h r c (t s h r c))).
Proof.
  intros A nS nH nR nC body f t H. rewrite forN_quads.
  destruct (tens_is_flat A nS nH nR nC t) as (g & -> & Hg).
  set (ad := fun q => addr4 nH nR nC (q1 q) (q2 q) (q3 q) (q4 q)).
  rewrite (@forL_sim _ _ _ (mflat nS (nH * nR * nC)) _ _ (fun q g => fupd g (ad q) (f (q1 q) (q2 q) (q3 q) (q4 q) (g (ad q))))).
  2:{ intros q g' Hq. apply in_quads in Hq. apply H; tauto. }
  f_equal. apply flat_tens. intros s h r c Hs Hh Hr Hc.
  rewrite (scatter_point _ A ad (fun q v => f (q1 q) (q2 q) (q3 q) (q4 q) v)).
  rewrite (filter_unique _ _ _ (s, h, r, c)).
  - simpl. unfold q1, q2, q3, q4; simpl. rewrite Hg; auto.
  - apply NoDup_quads.
  - apply in_quads. auto.
  - apply Nat.eqb_eq. reflexivity.
  - intros [[[s' h'] r'] c'] Hq E. apply in_quads in Hq. apply Nat.eqb_eq in E. unfold ad in E.
    unfold q1, q2, q3, q4 in *. simpl in *. apply addr4_inj in E; try tauto. destruct E as (-> & -> & -> & ->). reflexivity.
Qed.
