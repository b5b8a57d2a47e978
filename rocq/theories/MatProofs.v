(* MatProofs.v - what the matrix functions compute *)
From Coq Require Import List Arith Lia Bool ZArith.
From Verif Require Import Base Scalar Mat SpecMat MatFacts.
Import ListNotations.

Lemma ltb_true : forall a b, a < b -> (a <? b) = true.
Proof. intros; apply Nat.ltb_lt; auto. Qed.
Lemma leb_true : forall a b, a <= b -> (a <=? b) = true.
Proof. intros; apply Nat.leb_le; auto. Qed.

Section P.
Variable F : FOps.
Notation M := (mat F).

Lemma malloc_flat : forall r c, malloc F r c = mflat r c (fun _ => fjunk F).
Proof.
  intros. unfold malloc, mflat. f_equal.
  generalize (r * c) as n. intro n.
  assert (G : forall s, repeat (fjunk F) n = map (fun _ => fjunk F) (seq s n)).
  { induction n; intro s; simpl; auto. f_equal; auto. }
  apply G.
Qed.

Lemma malloc_gen : forall r c, malloc F r c = mgen r c (fun _ _ => fjunk F).
Proof. intros. rewrite malloc_flat, mflat_gen. reflexivity. Qed.

Lemma mwf_is_gen : forall m : M, mwf m -> exists f, m = mgen (mrows m) (mcols m) f.
Proof. intros. eexists. apply (mwf_gen_d F (f0 F)). auto. Qed.

Lemma mresize_gen : forall (m : M) r c, mwf m -> exists f, mresize F m r c = mgen r c f.
Proof.
  intros m r c H. unfold mresize.
  destruct ((c =? mcols m) && (r =? mrows m)) eqn:E.
  - apply andb_true_iff in E. destruct E as [E1 E2]. apply Nat.eqb_eq in E1, E2. subst.
    apply mwf_is_gen; auto.
  - destruct (r * c =? msize m) eqn:E2.
    + apply Nat.eqb_eq in E2.
      assert (W : mwf (mkMat r c (mdata m))) by (unfold mwf, msize in *; simpl; lia).
      destruct (mwf_is_gen _ W) as [f Hf]. exists f. simpl in Hf. exact Hf.
    + eexists. apply malloc_gen.
Qed.

Lemma mresize_wf : forall (m : M) r c, mwf m -> mwf (mresize F m r c).
Proof. intros. destruct (mresize_gen m r c H) as [f ->]. apply mwf_gen. Qed.

Lemma mempty_wf : mwf (mempty F). Proof. reflexivity. Qed.

Lemma msetConstR_gen : forall (m : M) r c b, mwf m -> msetConstR F m r c b = Ok (mgen r c (fun _ _ => b)).
Proof.
  intros. unfold msetConstR, msetConst. destruct (mresize_gen m r c H) as [f ->]. apply mapLoop_gen.
Qed.

Lemma msetZero_gen : forall (m : M) r c, mwf m -> msetZero F m r c = Ok (mgen r c (fun _ _ => f0 F)).
Proof. intros. apply msetConstR_gen; auto. Qed.

Lemma maddM_gen : forall r c f g, maddM F (mgen r c f) (mgen r c g) = Ok (mgen r c (fun i j => fadd F (f i j) (g i j))).
Proof. intros. unfold maddM, sameDims, assert_. simpl. rewrite !Nat.eqb_refl. simpl. apply zipLoop_gen. Qed.
Lemma msubM_gen : forall r c f g, msubM F (mgen r c f) (mgen r c g) = Ok (mgen r c (fun i j => fsub F (f i j) (g i j))).
Proof. intros. unfold msubM, sameDims, assert_. simpl. rewrite !Nat.eqb_refl. simpl. apply zipLoop_gen. Qed.
Lemma mcwiseProduct_gen : forall r c f g,
  mcwiseProduct F (mgen r c f) (mgen r c g) = Ok (mgen r c (fun i j => fmul F (f i j) (g i j))).
Proof. intros. unfold mcwiseProduct, assert_. simpl. rewrite !Nat.eqb_refl. simpl. apply zipLoop_gen. Qed.
Lemma mcwiseQuotient_gen : forall r c f g,
  mcwiseQuotient F (mgen r c f) (mgen r c g) = Ok (mgen r c (fun i j => fdiv F (f i j) (g i j))).
Proof. intros. unfold mcwiseQuotient, assert_. simpl. rewrite !Nat.eqb_refl. simpl. apply zipLoop_gen. Qed.

(** ** functions of two indices folded in one point *)
Lemma fold_point2 : forall I A (G : I -> (nat -> nat -> A) -> (nat -> nat -> A)) (g : I -> A -> A) i j l S,
  (forall x S, In x l -> G x S i j = g x (S i j)) ->
  fold_left (fun S x => G x S) l S i j = fold_left (fun v x => g x v) l (S i j).
Proof.
  induction l as [|x l IH]; intros S H; simpl; auto.
  rewrite IH by (intros; apply H; right; auto). f_equal. apply H; left; auto.
Qed.

(** ** product *)
Lemma mmul_gen : forall n k m a b,
  mmul F (mgen n k a) (mgen k m b) =
  Ok (mgen n m (fun i j => fsum F k (fun l => fmul F (a i l) (b l j)))).
Proof.
  intros. unfold mmul, assert_. simpl mcols. simpl mrows. rewrite !Nat.eqb_refl. cbn [bind].
  rewrite msetZero_gen by apply mwf_gen. cbn [bind]. simpl mrows.
  set (step := fun r (p : nat -> nat -> F) =>
     fold_left (fun q kk => fold_left (fun q c => upd2 q r c (fadd F (q r c) (fmul F (a r kk) (b kk c)))) (seq 0 m) q) (seq 0 k) p).
  rewrite (forN_sim (mgen n m)) with (step := step).
  2:{ intros r p Hr. unfold step.
      rewrite (forN_sim (mgen n m)) with (step := fun kk q => fold_left (fun q c => upd2 q r c (fadd F (q r c) (fmul F (a r kk) (b kk c)))) (seq 0 m) q).
      { reflexivity. }
      intros kk q Hk. rewrite mget2_gen by auto. cbn [bind]. simpl mcols.
      rewrite (forN_sim (mgen n m)) with (step := fun c q => upd2 q r c (fadd F (q r c) (fmul F (a r kk) (b kk c)))).
      { reflexivity. }
      intros c p' Hc. rewrite !mget2_gen by auto. cbn [bind]. rewrite mset2_gen by auto. reflexivity. }
  f_equal. apply mgen_ext. intros i j Hi Hj.
  rewrite (fold_point2 nat F step (fun r v => if r =? i then fold_left (fun v l => fadd F v (fmul F (a i l) (b l j))) (seq 0 k) v else v)).
  - rewrite (fold_hit0 (fun _ v => fold_left (fun v l => fadd F v (fmul F (a i l) (b l j))) (seq 0 k) v)) by auto. reflexivity.
  - intros r p Hr. unfold step.
    rewrite (fold_point2 nat F (fun kk q => fold_left (fun q c => upd2 q r c (fadd F (q r c) (fmul F (a r kk) (b kk c)))) (seq 0 m) q)
               (fun kk v => if r =? i then fadd F v (fmul F (a i kk) (b kk j)) else v)).
    + destruct (r =? i); auto. apply fold_left_id; auto.
    + intros kk q Hk.
      rewrite (fold_point2 nat F (fun c q => upd2 q r c (fadd F (q r c) (fmul F (a r kk) (b kk c))))
                 (fun c v => if c =? j then (if r =? i then fadd F v (fmul F (a i kk) (b kk c)) else v) else v)).
      * rewrite (fold_hit0 (fun c v => if r =? i then fadd F v (fmul F (a i kk) (b kk c)) else v)) by auto. reflexivity.
      * intros c q' _. unfold upd2. rewrite (Nat.eqb_sym i r), (Nat.eqb_sym j c).
        destruct (r =? i) eqn:E; simpl.
        -- apply Nat.eqb_eq in E; subst. destruct (c =? j) eqn:E'; auto. apply Nat.eqb_eq in E'; subst; auto.
        -- destruct (c =? j); auto.
Qed.

(** ** transpose *)
Lemma mtranspose_gen : forall n k a, mtranspose F (mgen n k a) = Ok (mgen k n (fun i j => a j i)).
Proof.
  intros. unfold mtranspose. simpl mrows. simpl mcols. rewrite malloc_gen.
  rewrite (forN_sim (mgen k n)) with (step := fun r p => fold_left (fun q c => upd2 q c r (a r c)) (seq 0 k) p).
  2:{ intros r p Hr. rewrite (forN_sim (mgen k n)) with (step := fun c q => upd2 q c r (a r c)).
      { reflexivity. } intros c q Hc. rewrite mget2_gen by auto. cbn [bind]. rewrite mset2_gen by auto. reflexivity. }
  f_equal. apply mgen_ext. intros i j Hi Hj.
  rewrite (fold_point2 nat F (fun r p => fold_left (fun q c => upd2 q c r (a r c)) (seq 0 k) p) (fun r v => if r =? j then a r i else v)).
  - rewrite (fold_hit0 (fun r v => a r i)) by auto. reflexivity.
  - intros r p _. rewrite (fold_point2 nat F (fun c q => upd2 q c r (a r c)) (fun c v => if c =? i then (if r =? j then a r c else v) else v)).
    + rewrite (fold_hit0 (fun c v => if r =? j then a r c else v)) by auto. reflexivity.
    + intros c q _. unfold upd2. rewrite (Nat.eqb_sym i c), (Nat.eqb_sym j r). destruct (c =? i), (r =? j); auto.
Qed.

(** ** folds *)
Lemma forN_fold : forall S n (body : nat -> S -> res S) (step : nat -> S -> S) s,
  (forall i s, i < n -> body i s = Ok (step i s)) ->
  forN n body s = Ok (fold_left (fun q i => step i q) (seq 0 n) s).
Proof. intros. apply (forN_sim (fun s : S => s)). auto. Qed.

Lemma rowWise_gen : forall post term n k a,
  rowWise F post term (mgen n k a) = Ok (mgen n 1 (fun i _ => post (fsum F k (fun j => term (a i j))))).
Proof.
  intros. unfold rowWise. simpl mrows. simpl mcols. rewrite malloc_gen.
  rewrite (forN_sim (mgen n 1)) with (step := fun i p => upd2 p i 0 (post (fsum F k (fun j => term (a i j))))).
  2:{ intros i p Hi.
      rewrite (@forN_fold _ k _ (fun j s => fadd F s (term (a i j)))).
      2:{ intros j s Hj. rewrite mget2_gen by auto. reflexivity. }
      cbn [bind]. rewrite mset1_col by auto. reflexivity. }
  f_equal. apply mgen_ext. intros i j Hi Hj.
  rewrite (fold_point2 nat F (fun i p => upd2 p i 0 (post (fsum F k (fun j => term (a i j)))))
             (fun x v => if x =? i then post (fsum F k (fun j => term (a x j))) else v)).
  - rewrite (fold_hit0 (fun x v => post (fsum F k (fun j => term (a x j))))) by auto. reflexivity.
  - intros x S _. unfold upd2. rewrite (Nat.eqb_sym i x). replace j with 0 by lia. simpl.
    rewrite andb_true_r. reflexivity.
Qed.

Lemma colWise_gen : forall post term n k a,
  colWise F post term (mgen n k a) = Ok (mgen 1 k (fun _ j => post (fsum F n (fun i => term (a i j))))).
Proof.
  intros. unfold colWise. simpl mrows. simpl mcols. rewrite malloc_gen.
  rewrite (forN_sim (mgen 1 k)) with (step := fun j p => upd2 p 0 j (post (fsum F n (fun i => term (a i j))))).
  2:{ intros j p Hj.
      rewrite (@forN_fold _ n _ (fun i s => fadd F s (term (a i j)))).
      2:{ intros i s Hi. rewrite mget2_gen by auto. reflexivity. }
      cbn [bind]. rewrite mset1_row by auto. reflexivity. }
  f_equal. apply mgen_ext. intros i j Hi Hj.
  rewrite (fold_point2 nat F (fun j p => upd2 p 0 j (post (fsum F n (fun i => term (a i j)))))
             (fun x v => if x =? j then post (fsum F n (fun i => term (a i x))) else v)).
  - rewrite (fold_hit0 (fun x v => post (fsum F n (fun i => term (a i x))))) by auto. reflexivity.
  - intros x S _. unfold upd2. rewrite (Nat.eqb_sym j x). replace i with 0 by lia. reflexivity.
Qed.

Lemma colWiseSel_gen : forall sel n k a, 0 < n ->
  colWiseSel F sel (mgen n k a) =
  Ok (mgen 1 k (fun _ j => fold_left (fun v i => sel v (a i j)) (seq 0 n) (a 0 j))).
Proof.
  intros sel n k a Hn. unfold colWiseSel. simpl mrows. simpl mcols. rewrite malloc_gen.
  rewrite (forN_sim (mgen 1 k)) with (step := fun j p => upd2 p 0 j (fold_left (fun v i => sel v (a i j)) (seq 0 n) (a 0 j))).
  2:{ intros j p Hj. rewrite mget2_gen by auto. cbn [bind].
      rewrite (@forN_fold _ n _ (fun i v => sel v (a i j))).
      2:{ intros i s Hi. rewrite mget2_gen by auto. reflexivity. }
      cbn [bind]. rewrite mset1_row by auto. reflexivity. }
  f_equal. apply mgen_ext. intros i j Hi Hj.
  rewrite (fold_point2 nat F (fun j p => upd2 p 0 j (fold_left (fun v i => sel v (a i j)) (seq 0 n) (a 0 j)))
             (fun x v => if x =? j then (fold_left (fun v i => sel v (a i x)) (seq 0 n) (a 0 x)) else v)).
  - rewrite (fold_hit0 (fun x v => (fold_left (fun v i => sel v (a i x)) (seq 0 n) (a 0 x)))) by auto. reflexivity.
  - intros x S _. unfold upd2. rewrite (Nat.eqb_sym j x). replace i with 0 by lia. reflexivity.
Qed.

(** ** row broadcasts *)
Lemma rowLoop_gen : forall f (h : nat -> F -> F) n k p l, l < n ->
  (forall j x, j < k -> f j x = Ok (h j x)) ->
  rowLoop F f (mgen n k p) l = Ok (mgen n k (fun i j => if i =? l then h j (p i j) else p i j)).
Proof.
  intros f h n k p l Hl Hf. unfold rowLoop. simpl mcols.
  rewrite (forN_sim (mgen n k)) with (step := fun j q => upd2 q l j (h j (q l j))).
  2:{ intros j q Hj. rewrite mget2_gen by auto. cbn [bind]. rewrite Hf by auto. cbn [bind].
      rewrite mset2_gen by auto. reflexivity. }
  f_equal. apply mgen_ext. intros i j Hi Hj.
  rewrite (fold_point2 nat F (fun j q => upd2 q l j (h j (q l j)))
             (fun x v => if x =? j then (if i =? l then h x v else v) else v)).
  - rewrite (fold_hit0 (fun x v => if i =? l then h x v else v)) by auto. reflexivity.
  - intros x S _. unfold upd2. rewrite (Nat.eqb_sym j x). destruct (i =? l) eqn:E; simpl; auto.
    + destruct (x =? j) eqn:E2; auto. apply Nat.eqb_eq in E, E2; subst; auto.
    + destruct (x =? j); auto.
Qed.

Lemma rows_loop_gen : forall (body : nat -> M -> res M) (h : nat -> nat -> F -> F) n k p,
  (forall l q, l < n -> body l (mgen n k q) = Ok (mgen n k (fun i j => if i =? l then h l j (q i j) else q i j))) ->
  forN n body (mgen n k p) = Ok (mgen n k (fun i j => h i j (p i j))).
Proof.
  intros body h n k p H.
  rewrite (forN_sim (mgen n k)) with (step := fun l q => fun i j => if i =? l then h l j (q i j) else q i j).
  2:{ intros; apply H; auto. }
  f_equal. apply mgen_ext. intros i j Hi Hj.
  rewrite (fold_point2 nat F (fun l q => fun i j => if i =? l then h l j (q i j) else q i j)
             (fun l v => if l =? i then h l j v else v)).
  - rewrite (fold_hit0 (fun l v => h l j v)) by auto. reflexivity.
  - intros x S _. rewrite (Nat.eqb_sym i x). reflexivity.
Qed.

Lemma rowWiseAdd_gen : forall n k a d,
  rowWiseAdd F (mgen n k a) (mgen 1 k d) = Ok (mgen n k (fun i j => fadd F (a i j) (d 0 j))).
Proof.
  intros. unfold rowWiseAdd, assert_. simpl mrows. simpl mcols. rewrite !Nat.eqb_refl. cbn [bind].
  apply (rows_loop_gen _ (fun _ j x => fadd F x (d 0 j))).
  intros l q Hl. apply (rowLoop_gen _ (fun j x => fadd F x (d 0 j))); auto.
  intros j x Hj. rewrite mget1_row by auto. reflexivity.
Qed.

Lemma rowWiseMult_gen : forall n k a d,
  rowWiseMult F (mgen n k a) (mgen n 1 d) = Ok (mgen n k (fun i j => fmul F (a i j) (d i 0))).
Proof.
  intros. unfold rowWiseMult, assert_. simpl mrows. simpl mcols. rewrite !Nat.eqb_refl. cbn [bind].
  apply (rows_loop_gen _ (fun i _ x => fmul F x (d i 0))).
  intros l q Hl. rewrite mget1_col by auto. cbn [bind].
  apply (rowLoop_gen _ (fun j x => fmul F x (d l 0))); auto.
Qed.

Lemma rowWiseDivide_gen : forall n k a d,
  rowWiseDivide F (mgen n k a) (mgen n 1 d) = Ok (mgen n k (fun i j => fdiv F (a i j) (d i 0))).
Proof.
  intros. unfold rowWiseDivide, assert_. simpl mrows. simpl mcols. rewrite !Nat.eqb_refl. cbn [bind].
  apply (rows_loop_gen _ (fun i _ x => fdiv F x (d i 0))).
  intros l q Hl. rewrite mget1_col by auto. cbn [bind].
  apply (rowLoop_gen _ (fun j x => fdiv F x (d l 0))); auto.
Qed.

(** ** views, copies *)
Lemma firstn_skipn_mgen : forall n k (f : nat -> nat -> F) s e, s <= e -> e <= n ->
  firstn ((e - s) * k) (skipn (s * k) (mdata (mgen n k f))) = mdata (mgen (e - s) k (fun i j => f (s + i) j)).
Proof.
  intros. rewrite !mgen_flat. simpl. apply list_ext. intro i.
  destruct (lt_dec i ((e - s) * k)) as [Hi|Hi].
  - rewrite nth_error_map_seq by auto. simpl.
    transitivity (nth_error (skipn (s * k) (map (fun q => f (q / k) (q mod k)) (seq 0 (n * k)))) i).
    { clear - Hi. revert i Hi. generalize ((e - s) * k). intro m.
      generalize (skipn (s * k) (map (fun q => f (q / k) (q mod k)) (seq 0 (n * k)))). intro l. revert m.
      induction l; intros m i Hi; destruct m; try lia; simpl; auto. destruct i; simpl; auto. apply IHl. lia. }
    transitivity (nth_error (map (fun q => f (q / k) (q mod k)) (seq 0 (n * k))) (s * k + i)).
    { generalize (map (fun q => f (q / k) (q mod k)) (seq 0 (n * k))) (s * k). clear. intros l m. revert l.
      induction m; intros l; simpl; auto. destruct l; simpl; auto. destruct i; auto. }
    assert (k <> 0) by nia.
    rewrite nth_error_map_seq by nia. simpl.
    replace (s * k + i) with (i + s * k) by lia. rewrite Nat.div_add, Nat.mod_add by auto.
    rewrite (Nat.add_comm (i / k)). reflexivity.
  - rewrite !(proj2 (nth_error_None _ _)); auto.
    + rewrite map_length, seq_length; lia.
    + rewrite firstn_length. lia.
Qed.

Lemma viewRow_gen : forall n k f s e, s < e -> e <= n ->
  viewRow F (mgen n k f) s e = Ok (mgen (e - s) k (fun i j => f (s + i) j)).
Proof.
  intros. unfold viewRow, assert_. rewrite length_mgen. simpl mrows. simpl mcols.
  rewrite ltb_true, leb_true by auto. cbn [bind].
  rewrite leb_true by nia. f_equal. rewrite firstn_skipn_mgen by lia. reflexivity.
Qed.

Lemma mrow_gen : forall n k f i, i < n -> mrow F (mgen n k f) i = Ok (mgen 1 k (fun _ j => f i j)).
Proof.
  intros. unfold mrow, assert_. simpl mrows. rewrite ltb_true by auto. cbn [bind].
  rewrite viewRow_gen by lia. replace (S i - i) with 1 by lia. f_equal. apply mgen_ext.
  intros i' j Hi' Hj. f_equal; lia.
Qed.

Lemma viewResize_flat : forall r c r' c' (g : nat -> F), r * c = r' * c' ->
  viewResize F (mflat r c g) r' c' = Ok (mflat r' c' g).
Proof.
  intros. unfold viewResize, assert_, msize. unfold mflat. simpl. rewrite H, Nat.eqb_refl. reflexivity.
Qed.

(* a raw buffer write seen on the matrix *)
Lemma copyInto_gen : forall n k a m b start, start + m <= n ->
  copyInto F (mgen m k b) (mgen n k a) start =
  Ok (mgen n k (fun i j => if (start <=? i) && (i <? start + m) then b (i - start) j else a i j)).
Proof.
  intros. unfold copyInto, msize. simpl mrows. simpl mcols.
  rewrite (forN_sim (fun f => mgen n k f)) with
    (step := fun q f => upd2 f (start + q / k) (q mod k) (b (q / k) (q mod k))).
  2:{ intros q f Hq. rewrite rget_mgen by auto. cbn [bind].
      assert (Hk : k <> 0) by nia. pose proof (@div_lt_r _ _ _ Hq). assert ((start + m) * k <= n * k) by (apply Nat.mul_le_mono_r; lia).
      change (mcols (mgen n k f)) with k. rewrite rset_mgen by nia. cbn [bind].
      assert (E1 : (start * k + q) / k = start + q / k) by (rewrite (Nat.add_comm (start * k)), Nat.div_add by auto; lia).
      assert (E2 : (start * k + q) mod k = q mod k) by (rewrite (Nat.add_comm (start * k)), Nat.mod_add by auto; lia).
      rewrite E1, E2.
      reflexivity. }
  f_equal. apply mgen_ext. intros i j Hi Hj.
  rewrite (fold_point2 nat F (fun q f => upd2 f (start + q / k) (q mod k) (b (q / k) (q mod k)))
            (fun q v => if q =? (i - start) * k + j then (if start <=? i then b (i - start) j else v) else v)).
  - rewrite fold_hit. simpl. destruct (start <=? i) eqn:E1; simpl.
    + apply Nat.leb_le in E1. destruct (i <? start + m) eqn:E2.
      * apply Nat.ltb_lt in E2. rewrite ltb_true; auto. apply idx_lt; lia.
      * apply Nat.ltb_ge in E2. replace ((i - start) * k + j <? m * k) with false; auto.
        symmetry. apply Nat.ltb_ge. nia.
    + destruct (_ <? _); auto.
  - intros q S Hq. apply in_seq in Hq. unfold upd2.
    destruct (q =? (i - start) * k + j) eqn:E.
    + apply Nat.eqb_eq in E. subst q. rewrite idx_div, idx_mod by auto. rewrite Nat.eqb_refl, andb_true_r.
      destruct (start <=? i) eqn:E1.
      * apply Nat.leb_le in E1. replace (i =? start + (i - start)) with true; auto. symmetry; apply Nat.eqb_eq; lia.
      * apply Nat.leb_gt in E1. replace (i =? start + (i - start)) with false; auto. symmetry; apply Nat.eqb_neq; lia.
    + destruct ((i =? start + q / k) && (j =? q mod k)) eqn:E2; auto.
      apply andb_true_iff in E2. destruct E2 as [E2 E3]. apply Nat.eqb_eq in E2, E3. apply Nat.eqb_neq in E.
      exfalso. apply E. subst. replace (start + q / k - start) with (q / k) by lia. rewrite idx_eq; lia.
Qed.

(** ** element-wise *)
Lemma clamp_gen : forall r c f lo hi, mclamp F (mgen r c f) lo hi = Ok (mgen r c (fun i j => clampVal F lo hi (f i j))).
Proof. intros. apply mapLoop_gen. Qed.

(** ** sums over all cells *)
Lemma msum_flat : forall r c g, msum F (mflat r c g) = Ok (fsum F (r * c) g).
Proof.
  intros. unfold msum, msize. simpl mrows; simpl mcols.
  rewrite (@forN_fold _ (r * c) _ (fun i s => fadd F s (g i))).
  - reflexivity.
  - intros i s Hi. simpl mdata. rewrite rget_seq by auto. reflexivity.
Qed.

Lemma msquaredNorm_flat : forall r c g, msquaredNorm F (mflat r c g) = Ok (fsum F (r * c) (fun i => fmul F (g i) (g i))).
Proof.
  intros. unfold msquaredNorm, msize. simpl mrows; simpl mcols.
  rewrite (@forN_fold _ (r * c) _ (fun i s => fadd F s (fmul F (g i) (g i)))).
  - reflexivity.
  - intros i s Hi. simpl mdata. rewrite rget_seq by auto. reflexivity.
Qed.

Lemma mmean_flat : forall r c g, mmean F (mflat r c g) = Ok (fdiv F (fsum F (r * c) g) (fofN F (r * c))).
Proof. intros. unfold mmean. rewrite msum_flat. reflexivity. Qed.

(** ** argmax *)
Definition argmaxPure (n : nat) (g : nat -> F) : nat :=
  snd (fold_left (fun q i => let '(d, k) := q in if flt F d (g i) then (g i, i) else (d, k)) (seq 1 (n - 1)) (g 0, 0)).

Lemma argmax_gen : forall n f, 0 < n -> argmax F (mgen 1 n f) = Ok (argmaxPure n (f 0)).
Proof.
  intros n f Hn. unfold argmax, assert_. simpl mrows; simpl mcols. rewrite !Nat.eqb_refl. cbn [bind].
  replace (n =? 0) with false by (symmetry; apply Nat.eqb_neq; lia).
  rewrite mget1_row by auto. cbn [bind].
  rewrite (@forL_sim nat (F * nat) (F * nat) (fun s => s) _ _ (fun i '(d, k) => if flt F d (f 0 i) then (f 0 i, i) else (d, k))).
  - reflexivity.
  - intros i [d k] Hi. apply in_seq in Hi. rewrite mget1_row by lia. reflexivity.
Qed.

Lemma argmaxPure_range : forall n g, 0 < n -> argmaxPure n g < n.
Proof.
  intros n g Hn. unfold argmaxPure.
  assert (G : forall l d k, k < n -> (forall i, In i l -> i < n) ->
     snd (fold_left (fun q i => let '(d, k) := q in if flt F d (g i) then (g i, i) else (d, k)) l (d, k)) < n).
  { induction l as [|i l IH]; intros d k Hk Hl; simpl; auto.
    destruct (flt F d (g i)); apply IH; auto; intros; apply Hl; simpl; auto. }
  apply G; auto. intros i Hi. apply in_seq in Hi. lia.
Qed.

(* The order hypotheses concern the values of the row only: they hold for floats as soon as the row has no NaN. *)
Lemma argmaxPure_spec : forall n g, 0 < n ->
  (forall i, i < n -> flt F (g i) (g i) = false) ->
  (forall i j k, i < n -> j < n -> k < n -> flt F (g i) (g j) = true -> flt F (g j) (g k) = true -> flt F (g i) (g k) = true) ->
  (forall i j k, i < n -> j < n -> k < n -> flt F (g i) (g j) = false -> flt F (g j) (g k) = false -> flt F (g i) (g k) = false) ->
  (forall i, i < n -> flt F (g (argmaxPure n g)) (g i) = false) /\
  (forall i, i < argmaxPure n g -> flt F (g i) (g (argmaxPure n g)) = true).
Proof.
  intros n g Hn lt_irrefl lt_trans nlt_trans. unfold argmaxPure.
  assert (G : forall m s k, s + m <= n -> k < s -> (forall i, i < s -> flt F (g k) (g i) = false) ->
     (forall i, i < k -> flt F (g i) (g k) = true) ->
     let r := snd (fold_left (fun q i => let '(d, k) := q in if flt F d (g i) then (g i, i) else (d, k)) (seq s m) (g k, k)) in
     (forall i, i < s + m -> flt F (g r) (g i) = false) /\ (forall i, i < r -> flt F (g i) (g r) = true)).
  { induction m as [|m IH]; intros s k Hn' Hk H1 H2; simpl.
    - split; auto. intros i Hi. apply H1; lia.
    - destruct (flt F (g k) (g s)) eqn:E.
      + replace (s + S m) with (S s + m) by lia. apply IH; try lia.
        * intros i Hi. destruct (Nat.eq_dec i s); [subst; apply lt_irrefl; lia|].
          destruct (flt F (g s) (g i)) eqn:E2; auto.
          assert (flt F (g k) (g i) = true) by (apply (lt_trans k s i); auto; lia).
          rewrite H1 in H by lia. discriminate.
        * intros i Hi. destruct (Nat.lt_ge_cases i k).
          -- apply (lt_trans i k s); auto; lia.
          -- destruct (flt F (g i) (g s)) eqn:E2; auto.
             rewrite (nlt_trans k i s) in E; auto; lia.
      + replace (s + S m) with (S s + m) by lia. apply IH; try lia; auto.
        intros i Hi. destruct (Nat.eq_dec i s); [subst; auto|]. apply H1; lia. }
  specialize (G (n - 1) 1 0). simpl in G. replace (S (n - 1)) with n in G by lia. apply G; try lia.
  intros i Hi. replace i with 0 by lia. apply lt_irrefl; lia.
Qed.

Lemma col_fill_gen : forall n (body : nat -> M -> res M) (h : nat -> F) p,
  (forall i q, i < n -> body i (mgen n 1 q) = Ok (mgen n 1 (upd2 q i 0 (h i)))) ->
  forN n body (mgen n 1 p) = Ok (mgen n 1 (fun i _ => h i)).
Proof.
  intros n body h p H. rewrite (forN_sim (mgen n 1)) with (step := fun i q => upd2 q i 0 (h i)) by auto.
  f_equal. apply mgen_ext. intros i j Hi Hj.
  rewrite (fold_point2 nat F (fun x q => upd2 q x 0 (h x)) (fun x v => if x =? i then h x else v)).
  - rewrite (fold_hit0 (fun x v => h x)) by auto. reflexivity.
  - intros x S _. unfold upd2. rewrite (Nat.eqb_sym i x). replace j with 0 by lia. simpl.
    rewrite andb_true_r. reflexivity.
Qed.

Lemma rowsArgmax_gen : forall n k f (a : M), 0 < k -> mwf a ->
  rowsArgmax F (mgen n k f) a = Ok (mgen n 1 (fun i _ => fofN F (argmaxPure k (f i)))).
Proof.
  intros n k f a Hk Ha. unfold rowsArgmax. simpl mrows.
  destruct (mresize_gen a n 1 Ha) as [g ->].
  apply (col_fill_gen n _ (fun i => fofN F (argmaxPure k (f i)))).
  intros i q Hi. rewrite mrow_gen by auto. cbn [bind]. rewrite argmax_gen by auto. cbn [bind].
  rewrite mset1_col by auto. reflexivity.
Qed.

(** ** double loops that write every cell *)
Lemma fill2_gen : forall n k (body : nat -> nat -> M -> res M) (h : nat -> nat -> F) p,
  (forall i j q, i < n -> j < k -> body i j (mgen n k q) = Ok (mgen n k (upd2 q i j (h i j)))) ->
  forN n (fun i m => forN k (fun j m => body i j m) m) (mgen n k p) = Ok (mgen n k h).
Proof.
  intros n k body h p H.
  rewrite (forN_sim (mgen n k)) with (step := fun i q => fold_left (fun q j => upd2 q i j (h i j)) (seq 0 k) q).
  2:{ intros i q Hi. rewrite (forN_sim (mgen n k)) with (step := fun j q => upd2 q i j (h i j)); auto. }
  f_equal. apply mgen_ext. intros i j Hi Hj. apply (fill_point2 F (fun a b _ => h a b)); auto.
Qed.

Lemma colExtract_gen : forall n k f s e, s <= e -> e <= k ->
  colExtract F (mgen n k f) s e = Ok (mgen n (e - s) (fun i j => f i (s + j))).
Proof.
  intros. unfold colExtract. replace (e <? s) with false by (symmetry; apply Nat.ltb_ge; auto).
  simpl mrows. rewrite malloc_gen.
  apply (fill2_gen n (e - s) (fun r c out => x <- mget2 (mgen n k f) r (c + s) ;; mset2 out r c x)).
  intros i j q Hi Hj. rewrite mget2_gen by lia. cbn [bind]. rewrite mset2_gen by auto.
  rewrite (Nat.add_comm j). reflexivity.
Qed.

Lemma decimate_gen : forall n k f d, 0 < d ->
  decimate F (mgen n k f) d = Ok (mgen (n / d) k (fun i j => f (i * d) j)).
Proof.
  intros. unfold decimate. replace (d =? 0) with false by (symmetry; apply Nat.eqb_neq; lia).
  simpl mrows. simpl mcols. rewrite malloc_gen.
  rewrite <- (fill2_gen (n / d) k (fun i j out => mset2 out i j (f (i * d) j)) (fun i j => f (i * d) j) (fun _ _ => fjunk F)).
  2:{ intros. rewrite mset2_gen by auto. reflexivity. }
  unfold forN. set (L := seq 0 (n / d)). assert (HL : forall i, In i L -> i < n / d) by (intros i Hi; apply in_seq in Hi; lia).
  clearbody L.
  revert HL. generalize (fun (_ _ : nat) => fjunk F) as p. induction L as [|i L IH]; intros p HL; simpl; auto.
  assert (Hi : i < n / d) by (apply HL; simpl; auto).
  assert (i * d < n). { pose proof (Nat.mul_div_le n d). nia. }
  rewrite mrow_gen by auto. cbn [bind].
  assert (E : forall q, forL (seq 0 k) (fun j out => x <- mget1 (mgen 1 k (fun _ j => f (i * d) j)) j ;; mset2 out i j x) (mgen (n/d) k q)
     = Ok (mgen (n/d) k (fold_left (fun q j => upd2 q i j (f (i*d) j)) (seq 0 k) q))).
  { intro q. apply (@forN_sim _ _ (mgen (n/d) k)). intros j q' Hj. rewrite mget1_row by auto. cbn [bind]. rewrite mset2_gen by auto. reflexivity. }
  unfold forN in *. rewrite E. simpl.
  assert (E2 : forall q, forL (seq 0 k) (fun j out => mset2 out i j (f (i * d) j)) (mgen (n/d) k q)
     = Ok (mgen (n/d) k (fold_left (fun q j => upd2 q i j (f (i*d) j)) (seq 0 k) q))).
  { intro q. apply (@forN_sim _ _ (mgen (n/d) k)). intros j q' Hj. rewrite mset2_gen by auto. reflexivity. }
  rewrite E2. simpl. apply IH. intros; apply HL; simpl; auto.
Qed.

(** ** diagonal, trace *)
Lemma mdiagonal_gen : forall n k f, n <= k -> mdiagonal F (mgen n k f) = Ok (mgen n 1 (fun i _ => f i i)).
Proof.
  intros. unfold mdiagonal. simpl mrows. rewrite malloc_gen. apply col_fill_gen.
  intros i q Hi. rewrite mget2_gen by lia. cbn [bind]. rewrite mset1_col by auto. reflexivity.
Qed.

Lemma mtrace_gen : forall n k f, n <= k -> mtrace F (mgen n k f) = Ok (fsum F n (fun i => f i i)).
Proof.
  intros. unfold mtrace. simpl mrows. rewrite (@forN_fold _ n _ (fun i s => fadd F s (f i i))).
  - reflexivity.
  - intros i s Hi. rewrite mget2_gen by lia. reflexivity.
Qed.

Lemma masDiagonal_flat : forall r c g,
  masDiagonal F (mflat r c g) = Ok (mgen (r * c) (r * c) (fun i j => if i =? j then g i else f0 F)).
Proof.
  intros. unfold masDiagonal. change (msize (mflat r c g)) with (r * c).
  rewrite msetZero_gen by reflexivity. cbn [bind].
  rewrite (forN_sim (mgen (r * c) (r * c))) with (step := fun i q => upd2 q i i (g i)).
  2:{ intros i q Hi. simpl mdata. rewrite rget_seq by auto. cbn [bind]. rewrite mset2_gen by auto. reflexivity. }
  f_equal. apply mgen_ext. intros i j Hi Hj.
  rewrite (fold_point2 nat F (fun i q => upd2 q i i (g i)) (fun x v => if x =? i then (if x =? j then g x else v) else v)).
  - rewrite (fold_hit0 (fun x v => if x =? j then g x else v)) by auto. reflexivity.
  - intros x S _. unfold upd2. rewrite (Nat.eqb_sym i x), (Nat.eqb_sym j x). destruct (x =? i), (x =? j); auto.
Qed.

(** ** permutation of rows *)
Lemma applyRowPermutation_gen : forall n k f v (p : M), length v = n -> (forall x, In x v -> x < n) -> mwf p ->
  applyRowPermutation F v (mgen n k f) p = Ok (mgen n k (fun i j => f (nth i v 0) j)).
Proof.
  intros n k f v p Hlen Hin Hp. unfold applyRowPermutation, assert_. simpl mrows. simpl mcols.
  rewrite Hlen, Nat.eqb_refl. cbn [bind]. destruct (mresize_gen p n k Hp) as [g ->].
  rewrite (forN_sim (mgen n k)) with (step := fun i q => fold_left (fun q j => upd2 q i j (f (nth i v 0) j)) (seq 0 k) q).
  2:{ intros i q Hi. unfold rget. rewrite (nth_error_nth' v 0) by lia. cbn [bind].
      assert (nth i v 0 < n) by (apply Hin, nth_In; lia).
      rewrite ltb_true by auto. cbn [bind].
      rewrite (forN_sim (mgen n k)) with (step := fun j q => upd2 q i j (f (nth i v 0) j)).
      { reflexivity. }
      intros j q' Hj. replace (k * nth i v 0 + j) with (nth i v 0 * k + j) by lia.
      fold (rget (mdata (mgen n k f)) (nth i v 0 * k + j)). rewrite rget_gen by auto. cbn [bind].
      replace (k * i + j) with (i * k + j) by lia. rewrite rset_mgen by (apply idx_lt; auto).
      rewrite idx_div, idx_mod by auto. simpl. reflexivity. }
  f_equal. apply mgen_ext. intros i j Hi Hj. apply (fill_point2 F (fun a b _ => f (nth a v 0) b)); auto.
Qed.

(** ** Bernoulli *)
Lemma quickBernoulli_flat : forall limit rng r c g,
  quickBernoulli F limit rng (mflat r c g) =
  Ok (mflat r c (fun k => if (Z.land (rng k) 65535 <? limit)%Z then f1 F else f0 F)).
Proof.
  intros. unfold quickBernoulli, msize. simpl mrows; simpl mcols.
  rewrite (forN_sim (mflat r c)) with (step := fun i g => fupd g i (if (Z.land (rng i) 65535 <? limit)%Z then f1 F else f0 F)).
  2:{ intros i q Hi. rewrite mset1_flat by auto. reflexivity. }
  f_equal. apply mflat_ext. intros k Hk.
  rewrite (fold_point (fun i g => fupd g i (if (Z.land (rng i) 65535 <? limit)%Z then f1 F else f0 F))
           (fun x v => if x =? k then (if (Z.land (rng x) 65535 <? limit)%Z then f1 F else f0 F) else v)).
  - rewrite (fold_hit0 (fun x v => if (Z.land (rng x) 65535 <? limit)%Z then f1 F else f0 F)) by auto. reflexivity.
  - intros. unfold fupd. reflexivity.
Qed.
End P.
