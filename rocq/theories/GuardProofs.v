(* GuardProofs.v - which arguments the matrix operations accept *)
From Coq Require Import List Arith Bool Lia ZArith.
From Verif Require Import Base Scalar Mat SpecMat MatFacts MatProofs MatProofs2 ReaderProofs1 SpecGuard.
Import ListNotations.

Lemma guarded_checked : forall A (r : res A) P, {P} + {~ P} -> guarded r P -> checked r.
Proof. intros A r P [H|H] (G1 & G2); [left|right]; auto. Qed.
Lemma assert_true : forall b A (k : res A), b = true -> (assert_ b ;;; k) = k.
Proof. intros b A k ->. reflexivity. Qed.
Lemma assert_false : forall b A (k : res A), b = false -> (assert_ b ;;; k) = Err EAssert.
Proof. intros b A k ->. reflexivity. Qed.

Section G.
Variable F : FOps.
Notation M := (mat F).

Ltac chk := repeat match goal with
  | |- context [assert_ (?x =? ?y)] => destruct (Nat.eqb_spec x y); [rewrite (assert_true true) by reflexivity|rewrite (assert_false false) by reflexivity]
  | |- context [assert_ (?x <? ?y)] => destruct (Nat.ltb_spec x y); [rewrite (assert_true true) by reflexivity|rewrite (assert_false false) by reflexivity]
  | |- context [assert_ (?x <=? ?y)] => destruct (Nat.leb_spec x y); [rewrite (assert_true true) by reflexivity|rewrite (assert_false false) by reflexivity]
  end.
Ltac gen m H := let f := fresh "f" in let E := fresh "E" in destruct (mwf_is_gen F m H) as (f & E).
Ltac guard := split; [|intro; chk; try reflexivity; exfalso; intuition lia].

Lemma get1_guarded : forall (m : M) i, mwf m -> guarded (mget1 m i) (i < mrows m * mcols m).
Proof. intros m i H. split; [|intro; unfold mget1, msize; chk; try reflexivity; exfalso; intuition lia]. intro Hi. gen m H. rewrite E in *. cbn in Hi. rewrite mget1_gen by auto. eauto. Qed.
Lemma get2_guarded : forall (m : M) r c, mwf m -> guarded (mget2 m r c) (r < mrows m /\ c < mcols m).
Proof. intros m r c H. split; [|intro; unfold mget2; chk; try reflexivity; exfalso; intuition lia]. intros (Hr & Hc). gen m H. rewrite E in *. cbn in *. rewrite mget2_gen by auto. eauto. Qed.
Lemma set1_guarded : forall (m : M) i v, mwf m -> guarded (mset1 m i v) (i < mrows m * mcols m).
Proof. intros m i v H. split; [|intro; unfold mset1, msize; chk; try reflexivity; exfalso; intuition lia]. intro Hi. gen m H. rewrite E in *. cbn in Hi. rewrite mset1_gen by auto. eauto. Qed.
Lemma set2_guarded : forall (m : M) r c v, mwf m -> guarded (mset2 m r c v) (r < mrows m /\ c < mcols m).
Proof. intros m r c v H. split; [|intro; unfold mset2; chk; try reflexivity; exfalso; intuition lia]. intros (Hr & Hc). gen m H. rewrite E in *. cbn in *. rewrite mset2_gen by auto. eauto. Qed.

Definition sameShape (a b : M) : Prop := mrows a = mrows b /\ mcols a = mcols b.
Lemma zip_guarded : forall (op : M -> M -> res M) h, (forall a b, op a b = (sameDims a b ;;; zipLoop h a b) \/ op a b = (assert_ (mcols a =? mcols b) ;;; assert_ (mrows a =? mrows b) ;;; zipLoop h a b)) ->
  forall a b : M, mwf a -> mwf b -> guarded (op a b) (sameShape a b).
Proof.
  intros op h Hop a b Ha Hb. unfold sameShape. split.
  - intros (Er & Ec). gen a Ha. gen b Hb. assert (Z : exists x, zipLoop h a b = Ok x) by (rewrite E, E0, <- Er, <- Ec, zipLoop_gen; eauto).
    destruct (Hop a b) as [->| ->]; unfold sameDims; rewrite Er, Ec, !Nat.eqb_refl; exact Z.
  - intro N. destruct (Hop a b) as [->| ->]; unfold sameDims.
    + destruct (Nat.eqb_spec (mrows a) (mrows b)); [|reflexivity]. destruct (Nat.eqb_spec (mcols a) (mcols b)); [exfalso; auto|reflexivity].
    + destruct (Nat.eqb_spec (mcols a) (mcols b)); [|reflexivity]. destruct (Nat.eqb_spec (mrows a) (mrows b)); [exfalso; auto|reflexivity].
Qed.
Theorem elementwise_guarded : forall a b : M, mwf a -> mwf b ->
  guarded (maddM F a b) (sameShape a b) /\ guarded (msubM F a b) (sameShape a b) /\ guarded (mcwiseProduct F a b) (sameShape a b) /\ guarded (mcwiseQuotient F a b) (sameShape a b).
Proof.
  intros a b Ha Hb. split; [|split; [|split]].
  - apply (zip_guarded (maddM F) (fadd F)); auto.
  - apply (zip_guarded (msubM F) (fsub F)); auto.
  - apply (zip_guarded (mcwiseProduct F) (fmul F)); auto.
  - apply (zip_guarded (mcwiseQuotient F) (fdiv F)); auto.
Qed.
Theorem product_guarded : forall a b : M, mwf a -> mwf b -> guarded (mmul F a b) (mcols a = mrows b).
Proof.
  intros a b Ha Hb. split; [|intro N; unfold mmul; chk; [contradiction|reflexivity]].
  intro Ec. gen a Ha. gen b Hb. rewrite E, E0, <- Ec, mmul_gen. eauto.
Qed.
Theorem rows_guarded : forall (m : M) s e i, mwf m -> guarded (viewRow F m s e) (s < e <= mrows m) /\ guarded (mrow F m i) (i < mrows m).
Proof.
  intros m s e i H. split.
  - split; [|intro N; unfold viewRow; chk; try reflexivity; exfalso; lia]. intro. gen m H. rewrite E. rewrite viewRow_gen by lia. eauto.
  - split; [|intro N; unfold mrow; chk; try reflexivity; exfalso; lia]. intro. gen m H. rewrite E. rewrite mrow_gen by lia. eauto.
Qed.
Theorem reshape_guarded : forall (m : M) r c, guarded (viewResize F m r c) (mrows m * mcols m = r * c).
Proof. intros m r c. unfold viewResize, msize. split; intro H; chk; eauto; contradiction. Qed.
Theorem broadcast_guarded : forall m d : M, mwf m -> mwf d ->
  guarded (rowWiseMult F m d) (mcols d = 1 /\ mrows d = mrows m) /\ guarded (rowWiseDivide F m d) (mcols d = 1 /\ mrows d = mrows m) /\ guarded (rowWiseAdd F m d) (mrows d = 1 /\ mcols d = mcols m).
Proof.
  intros m d Hm Hd. split; [|split].
  - split; [|intro; unfold rowWiseMult; chk; try reflexivity; exfalso; intuition lia]. intros (E1 & E2). gen m Hm. gen d Hd. rewrite E, E0, E1, E2, rowWiseMult_gen. eauto.
  - split; [|intro; unfold rowWiseDivide; chk; try reflexivity; exfalso; intuition lia]. intros (E1 & E2). gen m Hm. gen d Hd. rewrite E, E0, E1, E2, rowWiseDivide_gen. eauto.
  - split; [|intro; unfold rowWiseAdd; chk; try reflexivity; exfalso; intuition lia]. intros (E1 & E2). gen m Hm. gen d Hd. rewrite E, E0, E1, E2, rowWiseAdd_gen. eauto.
Qed.
Theorem argmax_guarded : forall m : M, mwf m -> guarded (argmax F m) (mrows m = 1).
Proof.
  intros m H. split; [|intro N; unfold argmax; chk; [contradiction|reflexivity]]. intro E1. gen m H. rewrite E, E1. destruct (mcols m) as [|c] eqn:Ec; [cbn; eauto|]. rewrite argmax_gen by lia. eauto.
Qed.
Theorem permutation_guarded : forall v (m p : M), mwf m -> mwf p -> guarded (applyRowPermutation F v m p) (length v = mrows m /\ Forall (fun i => i < mrows m) v).
Proof.
  intros v m p Hm Hp. split.
  - intros (El & Hv). gen m Hm. rewrite E. rewrite Forall_forall in Hv. rewrite applyRowPermutation_gen; eauto.
  - intro N. unfold applyRowPermutation. chk; [|reflexivity].
    (* the first index out of range *)
    assert (B : exists l1 x l2, v = l1 ++ x :: l2 /\ Forall (fun i => i < mrows m) l1 /\ ~ x < mrows m).
    { assert (N2 : ~ Forall (fun i => i < mrows m) v) by auto. clear - N2. induction v as [|x v IH]; [destruct N2; constructor|]. destruct (lt_dec x (mrows m)) as [L|L].
      - destruct IH as (l1 & y & l2 & -> & A & B); [intro C; apply N2; constructor; auto|]. exists (x :: l1), y, l2. repeat split; auto.
      - exists [], x, v. repeat split; auto. }
    destruct B as (l1 & x & l2 & Ev & Hl1 & Hx).
    assert (L1 : length l1 < mrows m) by (rewrite <- e, Ev, app_length; cbn; lia).
    assert (Ln : length l1 < length v) by (rewrite Ev, app_length; cbn; lia).
    apply (@forN_err _ (fun _ q => mwf q /\ mrows q = mrows m /\ mcols q = mcols m) (length v) (length l1)); [exact Ln| | |].
    + destruct (mresize_gen F p (mrows m) (mcols m) Hp) as (g & Eg). rewrite Eg. split; [apply mwf_gen|auto].
    + intros k q Hk (Wq & Rq & Cq).
      assert (Ek : exists y, nth_error l1 k = Some y) by (destruct (nth_error l1 k) eqn:En; eauto; apply nth_error_None in En; lia). destruct Ek as (y & Ek).
      assert (Rv : rget v k = Ok y) by (unfold rget; rewrite Ev, nth_error_app1, Ek by lia; reflexivity). rewrite Rv. cbn [bind].
      assert (Hy : y < mrows m) by (apply (proj1 (Forall_forall _ _) Hl1); eapply nth_error_In; exact Ek). destruct (Nat.ltb_spec y (mrows m)); [cbn [assert_ bind]|lia].
      apply (@forN_inv _ (fun _ q => mwf q /\ mrows q = mrows m /\ mcols q = mcols m)); [auto|].
      intros j q0 Hj (W & R & C). unfold rget. destruct (nth_error (mdata m) (mcols m * y + j)) as [z|] eqn:Ez; [|apply nth_error_None in Ez; unfold mwf in Hm; nia].
      cbn [bind]. unfold rset. destruct (Nat.ltb_spec (mcols m * k + j) (length (mdata q0))) as [Q|Q]; [|unfold mwf in W; rewrite W, R, C in Q; nia]. cbn [bind]. eexists. split; [reflexivity|].
      cbn. split; [|auto]. unfold mwf in *. cbn. rewrite length_upd. auto.
    + intros q _. unfold rget. rewrite Ev at 1. rewrite nth_error_app2, Nat.sub_diag by lia. cbn [nth_error bind]. destruct (Nat.ltb_spec x (mrows m)); [contradiction|reflexivity].
Qed.
(* copyInto has no check of its own: copying past the last row writes outside the buffer *)
Theorem copyInto_unguarded : forall (a m : M) start, mwf a -> mwf m -> mcols a = mcols m -> 0 < mcols a -> start <= mrows m -> start + mrows a > mrows m -> copyInto F a m start = Err EOob.
Proof.
  intros a m start Ha Hm Ec Hc Hs Hr. unfold copyInto.
  set (k := (mrows m - start) * mcols m). assert (K : k < msize a) by (unfold k, msize; nia).
  apply (@forN_err _ (fun _ q => length (mdata q) = length (mdata m) /\ mcols q = mcols m) (msize a) k); [exact K|auto| |].
  - intros j q Hj (Lq & Cq). unfold rget. destruct (nth_error (mdata a) j) as [z|] eqn:Ez; [|apply nth_error_None in Ez; unfold mwf, msize in *; lia]. cbn [bind]. unfold rset.
    destruct (Nat.ltb_spec (start * mcols q + j) (length (mdata q))) as [Q|Q]; [|unfold mwf in Hm; rewrite Lq, Hm, Cq in Q; unfold k in *; nia]. cbn [bind]. eexists. split; [reflexivity|]. cbn. rewrite length_upd. auto.
  - intros q (Lq & Cq). unfold rget. destruct (nth_error (mdata a) k) as [z|] eqn:Ez; [|apply nth_error_None in Ez; unfold mwf, msize in *; lia]. cbn [bind]. unfold rset.
    destruct (Nat.ltb_spec (start * mcols q + k) (length (mdata q))) as [Q|Q]; [|reflexivity]. exfalso. unfold mwf in Hm. rewrite Lq, Hm, Cq in Q. unfold k in Q. nia.
Qed.
End G.
