(* MatProofs2.v - channel helpers, reverseData, Bernoulli, algebra of products *)
From Coq Require Import List Arith Lia Bool ZArith Reals Lra Permutation.
From Verif Require Import Base Scalar Mat SpecMat SpecReal RSum MatFacts MatProofs Scatter.
Import ListNotations.

(** ** channelWiseAdd, for every arithmetic *)
Lemma channelWiseAdd_tens : forall (F : FOps) nS nH nR nC t w,
  channelWiseAdd F (tens nS nH nR nC t) nS nH nR nC (mgen 1 nH w) =
  Ok (tens nS nH nR nC (fun s h r c => fadd F (t s h r c) (w 0 h))).
Proof.
  intros. unfold channelWiseAdd, assert_.
  change (msize (mgen 1 nH w)) with (1 * nH). change (mrows (tens nS nH nR nC t)) with nS.
  change (msize (tens nS nH nR nC t)) with (nS * (nH * nR * nC)).
  replace (1 * nH =? nH) with true by (symmetry; apply Nat.eqb_eq; lia).
  rewrite Nat.eqb_refl. replace (nS * (nH * nR * nC) =? nS * nH * nR * nC) with true by (symmetry; apply Nat.eqb_eq; lia).
  cbn [bind].
  apply (tens_map_loop F nS nH nR nC _ (fun s h r c x => fadd F x (w 0 h))).
  intros s h r c g Hs Hh Hr Hc.
  assert (B : h * nR * nC + r * nC + c < nH * nR * nC).
  { assert (r * nC + c < nR * nC) by (apply idx_lt; auto). assert (h * (nR * nC) + (r * nC + c) < nH * (nR * nC)) by (apply idx_lt; auto). nia. }
  assert (E : s * (nH * nR * nC) + (h * nR * nC + r * nC + c) = addr4 nH nR nC s h r c) by (unfold addr4; nia).
  rewrite mget2_flat by auto. cbn [bind]. rewrite mget1_row by auto. cbn [bind].
  rewrite mset2_flat by auto. rewrite E. reflexivity.
Qed.

(** ** channelWiseMean over the reals *)
Lemma fold_point2' : forall I A (G : I -> (nat -> nat -> A) -> (nat -> nat -> A)) (g : I -> A -> A) i j l S,
  (forall x S, In x l -> G x S i j = g x (S i j)) ->
  fold_left (fun S x => G x S) l S i j = fold_left (fun v x => g x v) l (S i j).
Proof. exact MatProofs.fold_point2. Qed.

Definition chmean_factor (nS nR nC : nat) : R := (1 / INR nS * INR nR * INR nC)%R.

Lemma channelWiseMean_tens : forall j nS nH nR nC (t : nat -> nat -> nat -> nat -> R),
  channelWiseMean (ROps j) (tens nS nH nR nC t) nS nH nR nC =
  Ok (mgen 1 nH (fun _ h => (rsum nS (fun s => rsum nR (fun r => rsum nC (fun c => t s h r c))) * chmean_factor nS nR nC)%R)).
Proof.
  intros j nS nH nR nC t. unfold channelWiseMean, assert_.
  change (mrows (tens nS nH nR nC t)) with nS.
  change (msize (tens nS nH nR nC t)) with (nS * (nH * nR * nC)).
  rewrite Nat.eqb_refl. replace (nS * (nH * nR * nC) =? nS * nH * nR * nC) with true by (symmetry; apply Nat.eqb_eq; lia).
  cbn [bind]. rewrite msetZero_gen by reflexivity. cbn [bind].
  destruct (tens_is_flat R nS nH nR nC t) as (g & Et & Hg). rewrite Et.
  rewrite forN_quads.
  set (val := fun q => t (q1 q) (q2 q) (q3 q) (q4 q)).
  rewrite (@forL_sim _ _ _ (mgen 1 nH) _ _ (fun q p => upd2 p 0 (q2 q) (p 0%nat (q2 q) + val q)%R)).
  2:{ intros q p Hq. apply in_quads in Hq. destruct Hq as (H1 & H2 & H3 & H4).
      rewrite mget2_gen by auto. cbn [bind].
      assert (B : q2 q * nR * nC + q3 q * nC + q4 q < nH * nR * nC).
      { assert (q3 q * nC + q4 q < nR * nC) by (apply idx_lt; auto). assert (q2 q * (nR * nC) + (q3 q * nC + q4 q) < nH * (nR * nC)) by (apply idx_lt; auto). nia. }
      change (T (ROps j)) with R. rewrite mget2_flat by auto. cbn [bind].
      rewrite (@mset2_gen R) by auto.
      replace (q1 q * (nH * nR * nC) + (q2 q * nR * nC + q3 q * nC + q4 q)) with (addr4 nH nR nC (q1 q) (q2 q) (q3 q) (q4 q)) by (unfold addr4; nia).
      rewrite Hg by auto. reflexivity. }
  cbn [bind]. unfold mscale. rewrite (@mapLoop_gen R). f_equal. apply mgen_ext. intros i h Hi Hh.
  rewrite !fofN_R. unfold chmean_factor. simpl fmul. simpl fdiv. simpl f1. f_equal.
  rewrite (fold_point2' _ R (fun q p => upd2 p 0 (q2 q) (p 0%nat (q2 q) + val q)%R) (fun q v => if q2 q =? h then (v + val q)%R else v)).
  2:{ intros q p _. unfold upd2. replace i with 0 by lia. rewrite (Nat.eqb_sym h). simpl.
      destruct (q2 q =? h) eqn:E; auto. apply Nat.eqb_eq in E; subst; auto. }
  simpl f0.
  (* fold over the quadruples *)
  assert (L1 : forall s h' r v, fold_left (fun v q => if q2 q =? h then (v + val q)%R else v) (map (fun l => (s, h', r, l)) (seq 0 nC)) v
      = if h' =? h then (v + rsum nC (fun c => t s h r c))%R else v).
  { intros s h' r v. rewrite <- fold_rsum.
    transitivity (fold_left (fun v c => if h' =? h then (v + t s h r c)%R else v) (seq 0 nC) v).
    - generalize (seq 0 nC) as l. intro l. revert v. induction l as [|c l IH]; intro v; simpl; auto.
      rewrite IH. f_equal. unfold val, q1, q2, q3, q4; simpl. destruct (h' =? h) eqn:E; auto. apply Nat.eqb_eq in E; subst; auto.
    - destruct (h' =? h); auto. apply fold_left_id; auto. }
  assert (L2 : forall s h' v, fold_left (fun v q => if q2 q =? h then (v + val q)%R else v) (flat_map (fun k => map (fun l => (s, h', k, l)) (seq 0 nC)) (seq 0 nR)) v
      = if h' =? h then (v + rsum nR (fun r => rsum nC (fun c => t s h r c)))%R else v).
  { intros s h' v. rewrite <- fold_rsum.
    transitivity (fold_left (fun v r => if h' =? h then (v + rsum nC (fun c => t s h r c))%R else v) (seq 0 nR) v).
    - generalize (seq 0 nR) as l. intro l. revert v. induction l as [|r l IH]; intro v; simpl; auto.
      rewrite fold_left_app, L1, IH. reflexivity.
    - destruct (h' =? h); auto. apply fold_left_id; auto. }
  assert (L3 : forall s v, fold_left (fun v q => if q2 q =? h then (v + val q)%R else v) (flat_map (fun h' => flat_map (fun k => map (fun l => (s, h', k, l)) (seq 0 nC)) (seq 0 nR)) (seq 0 nH)) v
      = (v + rsum nR (fun r => rsum nC (fun c => t s h r c)))%R).
  { intros s v. rewrite <- (fold_hit0 (fun h' v => (v + rsum nR (fun r => rsum nC (fun c => t s h r c)))%R) v Hh).
    generalize (seq 0 nH) as l. intro l. revert v. induction l as [|h' l IH]; intro v; simpl; auto.
    rewrite fold_left_app, L2, IH. reflexivity. }
  rewrite <- (Rplus_0_l (rsum nS _)). rewrite <- fold_rsum.
  unfold quads. generalize (seq 0 nS) as l. intro l. generalize 0%R as v. induction l as [|s l IH]; intro v; simpl; auto.
  rewrite fold_left_app, L3, IH. reflexivity.
Qed.

(** ** reverseData, for every arithmetic *)
Lemma reverseData_flat : forall (F : FOps) N off n (g : nat -> F), 0 < n -> off + n <= N ->
  reverseData F off n (map g (seq 0 N)) =
  Ok (map (fun k => if (off <=? k) && (k <? off + n) then g (off + Nat.max (k - off) (n - 1 - (k - off))) else g k) (seq 0 N)).
Proof.
  intros F N off n g Hn HN. unfold reverseData.
  assert (Hh : n / 2 * 2 <= n < n / 2 * 2 + 2) by (pose proof (Nat.div_mod_eq n 2); pose proof (Nat.mod_upper_bound n 2); lia).
  set (cell := fun i k => if (off <=? k) && (k <? off + i) then g (off + Nat.max (k - off) (n - 1 - (k - off))) else g k).
  destruct (@forN_inv _ (fun i b => b = map (cell i) (seq 0 N)) (S (n / 2))
     (fun i b => if (off + n) <? S i then Err EOob else x <- rget b (off + n - S i) ;; rset b (off + i) x)
     (map g (seq 0 N))) as (b & E & Hb).
  - apply map_seq_ext. intros k Hk. unfold cell. destruct (off <=? k) eqn:E1; simpl; auto.
    replace (k <? off + 0) with false; auto. symmetry. apply Nat.ltb_ge. apply Nat.leb_le in E1. lia.
  - intros i b Hi ->. replace (off + n <? S i) with false by (symmetry; apply Nat.ltb_ge; lia).
    rewrite rget_seq by lia. cbn [bind]. rewrite rset_seq by lia. eexists; split; eauto.
    apply map_seq_ext. intros k Hk. unfold fupd, cell.
    destruct (off + i =? k) eqn:E1.
    + apply Nat.eqb_eq in E1. subst k. replace (off <=? off + i) with true by (symmetry; apply Nat.leb_le; lia).
      replace (off + i <? off + S i) with true by (symmetry; apply Nat.ltb_lt; lia). simpl.
      replace (off <=? off + n - S i) with true by (symmetry; apply Nat.leb_le; lia). simpl.
      destruct (off + n - S i <? off + i) eqn:E2.
      * apply Nat.ltb_lt in E2. f_equal. lia.
      * apply Nat.ltb_ge in E2. f_equal. lia.
    + apply Nat.eqb_neq in E1. destruct (off <=? k) eqn:E2; simpl; auto. apply Nat.leb_le in E2.
      destruct (k <? off + i) eqn:E3; destruct (k <? off + S i) eqn:E4; auto.
      * apply Nat.ltb_lt in E3. apply Nat.ltb_ge in E4. lia.
      * apply Nat.ltb_ge in E3. apply Nat.ltb_lt in E4. lia.
  - rewrite E. f_equal. rewrite Hb. apply map_seq_ext. intros k Hk. unfold cell.
    destruct (off <=? k) eqn:E2; cbn [andb]; auto. apply Nat.leb_le in E2.
    destruct (k <? off + S (n / 2)) eqn:E3; destruct (k <? off + n) eqn:E4; auto.
    + apply Nat.ltb_lt in E3. apply Nat.ltb_ge in E4. f_equal.
      assert (n / 2 < n) by (apply Nat.div_lt; lia). lia.
    + apply Nat.ltb_ge in E3. apply Nat.ltb_lt in E4. f_equal. lia.
Qed.

(** ** permutations of rows *)
Lemma perm_seq_in : forall n v, Permutation (seq 0 n) v -> length v = n /\ (forall x, In x v -> x < n).
Proof.
  intros n v H. split.
  - rewrite <- (Permutation_length H). apply seq_length.
  - intros x Hx. apply Permutation_sym in H. apply (Permutation_in _ H) in Hx. apply in_seq in Hx. lia.
Qed.

Lemma map_nth_seq : forall A (d : A) (l : list A), map (fun i => nth i l d) (seq 0 (length l)) = l.
Proof. intros. symmetry. apply list_as_map. Qed.

Lemma perm_rows : forall A n v (f : nat -> A), Permutation (seq 0 n) v ->
  Permutation (map f (seq 0 n)) (map (fun i => f (nth i v 0)) (seq 0 n)).
Proof.
  intros A n v f H. destruct (perm_seq_in n v H) as [Hl _].
  replace (map (fun i => f (nth i v 0)) (seq 0 n)) with (map f v).
  - apply Permutation_map; auto.
  - rewrite <- (map_nth_seq nat 0 v) at 1. rewrite map_map, Hl. reflexivity.
Qed.

(** ** Bernoulli *)
Local Open Scope Z_scope.
Lemma land_ffff : forall z, Z.land z 65535 = z mod 65536.
Proof. intros. change 65535 with (Z.ones 16). rewrite Z.land_ones by lia. reflexivity. Qed.

Lemma Int_part_bounds : forall x : R, (IZR (Int_part x) <= x < IZR (Int_part x) + 1)%R.
Proof. intros. pose proof (base_Int_part x). lra. Qed.

Lemma trunc_bounds : forall p : R, (0 <= p <= 1)%R ->
  let n := Rtrunc (p * 65536) in (IZR n <= p * 65536 < IZR n + 1)%R /\ 0 <= n <= 65536.
Proof.
  intros p Hp n. unfold n, Rtrunc. destruct (Rlt_dec (p * 65536) 0); [lra|].
  pose proof (Int_part_bounds (p * 65536)). split; auto. split.
  - assert (-1 < Int_part (p * 65536)) by (apply lt_IZR; lra). lia.
  - apply le_IZR. lra.
Qed.

Lemma count_below : forall (n : nat) (k : Z), 0 <= k <= Z.of_nat n ->
  Z.of_nat (length (filter (fun z => z <? k) (map Z.of_nat (seq 0 n)))) = k.
Proof.
  induction n as [|n IH]; intros k Hk.
  - simpl. lia.
  - rewrite seq_S, map_app, filter_app, app_length. simpl.
    destruct (Z.of_nat n <? k) eqn:E.
    + apply Z.ltb_lt in E. simpl. replace k with (Z.of_nat (S n)) by lia.
      assert (G : filter (fun z => z <? Z.of_nat (S n)) (map Z.of_nat (seq 0 n)) = filter (fun z => z <? Z.of_nat n) (map Z.of_nat (seq 0 n))).
      { apply filter_ext_in. intros a Ha. apply in_map_iff in Ha. destruct Ha as (x & <- & Hx). apply in_seq in Hx.
        transitivity true; [apply Z.ltb_lt; lia | symmetry; apply Z.ltb_lt; lia]. }
      rewrite G. specialize (IH (Z.of_nat n)). lia.
    + apply Z.ltb_ge in E. simpl. rewrite Nat.add_0_r. apply IH. lia.
Qed.
Close Scope Z_scope.

(** ** product and transpose over the reals *)
Lemma mmul_R : forall j n k m (a b : nat -> nat -> R),
  mmul (ROps j) (mgen n k a) (mgen k m b) = Ok (mgen n m (fun i l => rsum k (fun q => (a i q * b q l)%R))).
Proof.
  intros. rewrite (mmul_gen (ROps j)). f_equal. apply mgen_ext. intros. rewrite (fsum_R j). reflexivity.
Qed.

Lemma transpose_mul_R : forall j n k m (a b : nat -> nat -> R), exists p at_ bt,
  mmul (ROps j) (mgen n k a) (mgen k m b) = Ok p /\
  mtranspose (ROps j) (mgen n k a) = Ok at_ /\ mtranspose (ROps j) (mgen k m b) = Ok bt /\
  mtranspose (ROps j) p = mmul (ROps j) bt at_.
Proof.
  intros. do 3 eexists. split; [apply mmul_R|]. split; [apply (mtranspose_gen (ROps j))|].
  split; [apply (mtranspose_gen (ROps j))|].
  rewrite (mtranspose_gen (ROps j)), mmul_R. f_equal. apply mgen_ext. intros. apply rsum_ext. intros. apply Rmult_comm.
Qed.

(** ** min / max of columns over the reals *)
Lemma fold_min_R : forall j n (f : nat -> R), 0 < n ->
  let v := fold_left (fun v i => stdmin (ROps j) v (f i)) (seq 0 n) (f 0%nat) in
  (forall i, i < n -> (v <= f i)%R) /\ exists i, i < n /\ v = f i.
Proof.
  intros j n f Hn. cbv zeta.
  assert (G : forall m, m <= n -> let v := fold_left (fun v i => stdmin (ROps j) v (f i)) (seq 0 m) (f 0%nat) in
     (v <= f 0%nat)%R /\ (forall i, i < m -> (v <= f i)%R) /\ exists i, i < n /\ v = f i).
  { induction m as [|m IH]; intros Hm; cbv zeta.
    - simpl. split; [lra|]. split; [lia|]. exists 0; auto.
    - rewrite seq_S, fold_left_app. simpl. destruct IH as (I1 & I2 & I3); [lia|].
      set (v := fold_left _ _ _) in *. unfold stdmin. simpl. unfold Rltb. destruct (Rlt_dec (f m) v) as [H|H].
      + split; [lra|]. split. * intros i Hi. destruct (Nat.eq_dec i m) as [->|]; [lra|]. assert (v <= f i)%R by (apply I2; lia). lra.
        * exists m. split; auto; lia.
      + split; [lra|]. split; auto. intros i Hi. destruct (Nat.eq_dec i m) as [->|]; [lra|]. apply I2; lia. }
  destruct (G n (le_n n)) as (_ & H2 & H3). auto.
Qed.

Lemma fold_max_R : forall j n (f : nat -> R), 0 < n ->
  let v := fold_left (fun v i => stdmax (ROps j) v (f i)) (seq 0 n) (f 0%nat) in
  (forall i, i < n -> (f i <= v)%R) /\ exists i, i < n /\ v = f i.
Proof.
  intros j n f Hn. cbv zeta.
  assert (G : forall m, m <= n -> let v := fold_left (fun v i => stdmax (ROps j) v (f i)) (seq 0 m) (f 0%nat) in
     (f 0%nat <= v)%R /\ (forall i, i < m -> (f i <= v)%R) /\ exists i, i < n /\ v = f i).
  { induction m as [|m IH]; intros Hm; cbv zeta.
    - simpl. split; [lra|]. split; [lia|]. exists 0; auto.
    - rewrite seq_S, fold_left_app. simpl. destruct IH as (I1 & I2 & I3); [lia|].
      set (v := fold_left _ _ _) in *. unfold stdmax. simpl. unfold Rltb. destruct (Rlt_dec v (f m)) as [H|H].
      + split; [lra|]. split. * intros i Hi. destruct (Nat.eq_dec i m) as [->|]; [lra|]. assert (f i <= v)%R by (apply I2; lia). lra.
        * exists m. split; auto; lia.
      + split; [lra|]. split; auto. intros i Hi. destruct (Nat.eq_dec i m) as [->|]; [lra|]. apply I2; lia. }
  destruct (G n (le_n n)) as (_ & H2 & H3). auto.
Qed.

(** ** shuffle *)
Lemma swapN_perm : forall v i j, i < length v -> j < length v ->
  exists v', swapN v i j = Ok v' /\ Permutation v v'.
Proof.
  intros v i j Hi Hj. unfold swapN, rget, rset.
  destruct (nth_error v i) as [x|] eqn:E1; [|apply nth_error_None in E1; lia].
  destruct (nth_error v j) as [y|] eqn:E2; [|apply nth_error_None in E2; lia].
  cbn [bind]. rewrite ltb_true by auto. cbn [bind]. rewrite length_upd, ltb_true by auto.
  eexists; split; eauto.
  apply Permutation_nth with (d := 0). split.
  - rewrite !length_upd. auto.
  - set (f := fun k => if k =? i then j else if k =? j then i else k). exists f. split; [|split].
    + intros k Hk. unfold f. destruct (k =? i); auto. destruct (k =? j); auto.
    + intros a b Ha Hb. unfold f.
      destruct (Nat.eqb_spec a i), (Nat.eqb_spec b i), (Nat.eqb_spec a j), (Nat.eqb_spec b j); intros; subst; try lia.
    + intros k Hk. apply nth_error_nth with (d := 0) in E1. apply nth_error_nth with (d := 0) in E2.
      assert (N : forall (l : list nat) a b v, a < length l -> nth b (upd l a v) 0 = if a =? b then v else nth b l 0).
      { clear. intros l a b v Ha. pose proof (nth_error_upd l a v b) as H. rewrite ltb_true in H by auto.
        rewrite andb_true_r in H. destruct (a =? b) eqn:E.
        - apply nth_error_nth; auto.
        - destruct (nth_error l b) eqn:E3.
          + rewrite (nth_error_nth _ _ 0 H). symmetry. apply nth_error_nth; auto.
          + apply nth_error_None in H, E3. rewrite !nth_overflow; auto. }
      rewrite N by (rewrite length_upd; auto). rewrite N by auto. unfold f.
      rewrite (Nat.eqb_sym j k), (Nat.eqb_sym i k).
      destruct (k =? i) eqn:K1; destruct (k =? j) eqn:K2; auto.
      apply Nat.eqb_eq in K1, K2. subst. auto.
Qed.

Lemma shuffle_perm : forall draw v, exists v', shuffle draw v = Ok v' /\ Permutation v v'.
Proof.
  intros draw v. unfold shuffle.
  assert (G : forall l v0, Permutation v v0 -> (forall i, In i l -> i < length v) ->
     exists v', forL l (fun i v => swapN v i (draw i mod S i)) v0 = Ok v' /\ Permutation v v').
  { induction l as [|i l IH]; intros v0 H Hl; simpl; eauto.
    pose proof (Permutation_length H) as L.
    assert (Hi : i < length v) by (apply Hl; simpl; auto).
    destruct (swapN_perm v0 i (draw i mod S i)) as (v1 & E & P); [lia| |].
    - pose proof (Nat.mod_upper_bound (draw i) (S i)). lia.
    - simpl in E. rewrite E. cbn [bind]. apply IH.
      + eapply Permutation_trans; eauto.
      + intros; apply Hl; simpl; auto. }
  apply G; auto. intros i Hi. apply in_seq in Hi. lia.
Qed.
