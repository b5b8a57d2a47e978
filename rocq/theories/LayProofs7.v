(* LayProofs7.v - Softmax and Softmin *)
From Coq Require Import List Arith Bool Lia Reals Lra ZArith QArith String.
From Coquelicot Require Import Coquelicot.
From Verif Require Import Base Scalar Mat SpecMat SpecReal RSum MatFacts MatProofs MatProofs2 MatProps MatLoops Scatter RDeriv Loss SpecLoss LayMat LayKit SpecLayer LayGrad LayCurve LayProofs1 LayProofs2 LayProofs4 LayProofs5.
Import ListNotations.
Local Open Scope R_scope.
Ltac eqR := match goal with |- ?a = ?b => change (@eq R a b) end.

Definition maxF (F : FOps) (k : nat) (x : nat -> F) : F := fold_left (fun d i => if flt F d (x i) then x i else d) (seq 1 (k - 1)) (x 0%nat).
Definition expF (F : FOps) (k : nat) (x : nat -> F) (j : nat) : F := flm F Lexp (fsub F (x j) (maxF F k x)).
Definition softF (F : FOps) (k : nat) (x : nat -> F) (j : nat) : F := fdiv F (expF F k x j) (fsum F k (expF F k x)).

Lemma mmaxCoeff_row : forall (F : FOps) k (x : nat -> nat -> F), (0 < k)%nat -> mmaxCoeff F (mgen 1 k x) = Ok (maxF F k (x 0%nat)).
Proof.
  intros F k x Hk. unfold mmaxCoeff. change (msize (mgen 1 k x)) with (1 * k)%nat. replace (1 * k)%nat with k by lia.
  replace (k =? 0)%nat with false by (symmetry; apply Nat.eqb_neq; lia).
  assert (G : forall j, (j < k)%nat -> rget (mdata (mgen 1 k x)) j = Ok (x 0%nat j)).
  { intros j Hj. pose proof (@rget_gen F 1 k x 0 j ltac:(lia) Hj) as E. simpl in E. exact E. }
  rewrite G by auto. cbn [bind].
  rewrite (@forL_sim _ _ _ (fun d : F => d) _ _ (fun i d => if flt F d (x 0%nat i) then x 0%nat i else d)).
  - reflexivity.
  - intros i d Hi. apply in_seq in Hi. rewrite G by lia. reflexivity.
Qed.
Lemma expRow_gen : forall (F : FOps) k (x : nat -> nat -> F), (0 < k)%nat -> expRow F (mgen 1 k x) = Ok (mgen 1 k (fun _ => expF F k (x 0%nat))).
Proof.
  intros F k x Hk. unfold expRow. rewrite mmaxCoeff_row by auto. cbn [bind]. unfold msubS. rewrite (@mapLoop_gen F). cbn [bind].
  rewrite (@mapLoop_gen F). apply Ok_eq, mgen_ext. intros i j Hi Hj. replace i with 0%nat by lia. reflexivity.
Qed.
Lemma msum_row : forall (F : FOps) k (x : nat -> nat -> F), msum F (mgen 1 k x) = Ok (fsum F k (x 0%nat)).
Proof.
  intros F k x. rewrite mgen_flat, msum_flat. apply Ok_eq. unfold fsum. replace (1 * k)%nat with k by lia.
  apply fold_left_ext_in. intros a b Hb. apply in_seq in Hb. rewrite Nat.div_small, Nat.mod_small by lia. reflexivity.
Qed.
Lemma rowAssign_gen : forall (F : FOps) n k (p v : nat -> nat -> F) r, (r < n)%nat ->
  rowAssign F (mgen n k p) r (mgen 1 k v) = Ok (mgen n k (fun i j => if (i =? r)%nat then v 0%nat j else p i j)).
Proof.
  intros F n k p v r Hr. unfold rowAssign, assert_. change (mrows (mgen n k p)) with n. change (mcols (mgen n k p)) with k.
  rewrite ltb_true by auto. cbn [bind].
  rewrite (@colmap F n k _ (fun j a x => if (a =? r)%nat then v 0%nat j else x)); auto.
  intros j q Hj. rewrite mget1_row by auto. cbn [bind]. rewrite mset2_gen by auto. apply Ok_eq, mgen_ext. intros a b Ha Hb.
  unfold upd2. destruct (Nat.eqb_spec a r), (Nat.eqb_spec b j); subst; auto.
Qed.
Lemma softRows_gen : forall (F : FOps) n k X, (0 < k)%nat -> softRows F (mgen n k X) = Ok (mgen n k (fun i => softF F k (X i))).
Proof.
  intros F n k X Hk. unfold softRows. change (mrows (mgen n k X)) with n.
  apply (@rowfun_loop F n k _ (fun _ => softF F k)). intros l q Hl.
  rewrite mrow_gen by auto. cbn [bind]. rewrite expRow_gen by auto. cbn [bind]. rewrite msum_row. cbn [bind].
  unfold mdivS. rewrite (@mapLoop_gen F). cbn [bind]. rewrite rowAssign_gen by auto. reflexivity.
Qed.
Lemma fwdSoftmax_gen : forall (F : FOps) n k X, (0 < k)%nat -> fwdSoftmax F (mgen n k X) = Ok (mgen n k (fun i => softF F k (X i))).
Proof. intros. apply softRows_gen. auto. Qed.
Lemma fwdSoftmin_gen : forall (F : FOps) n k X, (0 < k)%nat -> fwdSoftmin F (mgen n k X) = Ok (mgen n k (fun i => softF F k (fun j => fopp F (X i j)))).
Proof. intros. unfold fwdSoftmin, mneg. rewrite (@mapLoop_gen F). cbn [bind]. rewrite softRows_gen by auto. reflexivity. Qed.

Lemma bwdSoftmax_gen : forall (F : FOps) n k X G gin, (0 < k)%nat ->
  bwdSoftmax F false (mgen n k X) (mgen n k G) gin =
  Ok (mgen n k (fun i j => fmul F (G i j) (fmul F (softF F k (X i) j) (fsub F (f1 F) (softF F k (X i) j))))).
Proof.
  intros F n k X G gin Hk. unfold bwdSoftmax. change (mrows (mgen n k X)) with n.
  apply (@rows_loop_gen F _ (fun i j g => fmul F g (fmul F (softF F k (X i) j) (fsub F (f1 F) (softF F k (X i) j))))). intros l q Hl.
  rewrite mrow_gen by auto. cbn [bind]. rewrite expRow_gen by auto. cbn [bind]. rewrite msum_row. cbn [bind].
  unfold mdivS. rewrite (@mapLoop_gen F). cbn [bind]. match goal with |- context[mcols (mgen ?a ?b ?f)] => change (mcols (mgen a b f)) with b end.
  rewrite (@colmap F n k _ (fun j a x => if (a =? l)%nat then fmul F x (fmul F (softF F k (X l) j) (fsub F (f1 F) (softF F k (X l) j))) else x)); auto.
  intros j q' Hj. rewrite mget1_row by auto. cbn [bind]. rewrite mget2_gen by auto. cbn [bind]. rewrite mset2_gen by auto. apply Ok_eq, mgen_ext. intros a b Ha Hb.
  unfold upd2. destruct (Nat.eqb_spec a l), (Nat.eqb_spec b j); subst; auto.
Qed.
Lemma bwdSoftmin_gen : forall (F : FOps) n k X G gin, (0 < k)%nat -> mwf gin ->
  bwdSoftmin F false (mgen n k X) (mgen n k G) gin =
  Ok (mgen n k (fun i j => let e := expF F k (fun j => fopp F (X i j)) in let t := fsum F k e in
     fdiv F (fmul F (fopp F (G i j)) (fmul F (e j) (fsub F t (e j)))) (fmul F t t))).
Proof.
  intros F n k X G gin Hk Hg. unfold bwdSoftmin. change (mrows (mgen n k X)) with n. change (mrows (mgen n k G)) with n. change (mcols (mgen n k G)) with k.
  destruct (mresize_gen F gin n k Hg) as [q0 ->].
  apply (@rows_loop_gen F _ (fun i j (_ : F) => let e := expF F k (fun j => fopp F (X i j)) in let t := fsum F k e in
     fdiv F (fmul F (fopp F (G i j)) (fmul F (e j) (fsub F t (e j)))) (fmul F t t))). intros l q Hl.
  rewrite mrow_gen by auto. cbn [bind]. unfold mneg. rewrite (@mapLoop_gen F). cbn [bind]. rewrite expRow_gen by auto. cbn [bind]. rewrite msum_row. cbn [bind].
  match goal with |- context[mcols (mgen ?a ?b ?f)] => change (mcols (mgen a b f)) with b end.
  rewrite (@colmap F n k _ (fun j a x => if (a =? l)%nat then let e := expF F k (fun j => fopp F (X l j)) in let t := fsum F k e in
     fdiv F (fmul F (fopp F (G l j)) (fmul F (e j) (fsub F t (e j)))) (fmul F t t) else x)).
  - apply Ok_eq, mgen_ext. intros i j Hi Hj. reflexivity.
  - intros j q' Hj. rewrite mget1_row by auto. cbn [bind]. rewrite mget2_gen by auto. cbn [bind]. rewrite mset2_gen by auto. apply Ok_eq, mgen_ext. intros a b Ha Hb.
    unfold upd2. destruct (Nat.eqb_spec a l), (Nat.eqb_spec b j); subst; auto.
Qed.

(** reals *)
Lemma exp_sum_pos : forall k x, (0 < k)%nat -> 0 < rsum k (fun l => exp (x l)).
Proof. intros. apply rsum_pos; auto. intros; apply exp_pos. Qed.
Lemma softF_R : forall jk k x j, (0 < k)%nat -> softF (ROps jk) k x j = softmax k x j.
Proof.
  intros jk k x j Hk. unfold softF, expF, softmax. set (m := maxF (ROps jk) k x). simpl flm. simpl fsub. fs.
  assert (E : forall l, exp (x l - m) = exp (x l) * exp (- m)) by (intros; unfold Rminus; apply exp_plus).
  rewrite E. rewrite (rsum_ext k _ (fun l => exp (x l) * exp (- m))) by (intros; apply E). rewrite rsum_scal_r.
  pose proof (exp_sum_pos k x Hk). pose proof (exp_pos (- m)). eqR. field. lra.
Qed.
Lemma fwdSoftmax_R : forall jk n k X, (0 < k)%nat -> fwdSoftmax (ROps jk) (mgen n k X) = Ok (mgen n k (fun i => softmax k (X i))).
Proof. intros. eapply eq_trans; [exact (fwdSoftmax_gen (ROps jk) n k X H)|]. apply Ok_eq, mgen_ext. intros. apply softF_R; auto. Qed.
Lemma fwdSoftmin_R : forall jk n k X, (0 < k)%nat -> fwdSoftmin (ROps jk) (mgen n k X) = Ok (mgen n k (fun i => softmax k (fun j => - X i j))).
Proof. intros. eapply eq_trans; [exact (fwdSoftmin_gen (ROps jk) n k X H)|]. apply Ok_eq, mgen_ext. intros. apply softF_R; auto. Qed.

Lemma softmax_pos : forall k x j, (0 < k)%nat -> 0 < softmax k x j.
Proof. intros. apply Rdiv_lt_0_compat; [apply exp_pos | apply exp_sum_pos; auto]. Qed.
Lemma softmax_sum : forall k x, (0 < k)%nat -> rsum k (softmax k x) = 1.
Proof. intros. unfold softmax. rewrite rsum_div. unfold Rdiv. apply Rinv_r. pose proof (exp_sum_pos k x H). lra. Qed.
Lemma softmax_lt : forall k x j l, (0 < k)%nat -> (softmax k x j < softmax k x l <-> x j < x l).
Proof.
  intros k x j l Hk. unfold softmax. pose proof (exp_sum_pos k x Hk) as S. split.
  - intro H. apply exp_lt_inv. apply (Rmult_lt_compat_r _ _ _ S) in H. unfold Rdiv in H. rewrite !Rmult_assoc, Rinv_l in H by lra. lra.
  - intro H. apply Rmult_lt_compat_r; [apply Rinv_0_lt_compat; auto | apply exp_increasing; auto].
Qed.
Lemma softmax_shift : forall k x c j, (0 < k)%nat -> softmax k (fun l => x l + c) j = softmax k x j.
Proof.
  intros k x c j Hk. unfold softmax. rewrite exp_plus. rewrite (rsum_ext k _ (fun l => exp (x l) * exp c)) by (intros; apply exp_plus).
  rewrite rsum_scal_r. pose proof (exp_sum_pos k x Hk). pose proof (exp_pos c). field. lra.
Qed.

Lemma softmax_layer : forall jk n k X, (0 < k)%nat -> exists P,
  fwdSoftmax (ROps jk) (mgen n k X) = Ok (mgen n k P) /\
  (forall i j, (i < n)%nat -> (j < k)%nat -> P i j = exp (X i j) / rsum k (fun l => exp (X i l))) /\
  (forall i j, (i < n)%nat -> (j < k)%nat -> 0 < P i j) /\
  (forall i, (i < n)%nat -> rsum k (P i) = 1) /\
  (forall i j l, (i < n)%nat -> (j < k)%nat -> (l < k)%nat -> (P i j < P i l <-> X i j < X i l)) /\
  (forall c, fwdSoftmax (ROps jk) (mgen n k (fun i j => X i j + c i)) = Ok (mgen n k P)).
Proof.
  intros jk n k X Hk. exists (fun i => softmax k (X i)). split; [apply fwdSoftmax_R; auto|].
  repeat split; intros; try reflexivity.
  - apply softmax_pos; auto. - apply softmax_sum; auto.
  - apply (softmax_lt k (X i)); auto. - apply (softmax_lt k (X i)); auto.
  - eapply eq_trans; [exact (fwdSoftmax_R jk n k _ Hk)|]. apply Ok_eq, mgen_ext. intros. apply softmax_shift; auto.
Qed.
Lemma softmin_layer : forall jk n k X, (0 < k)%nat -> exists P,
  fwdSoftmin (ROps jk) (mgen n k X) = Ok (mgen n k P) /\
  (forall i j, (i < n)%nat -> (j < k)%nat -> P i j = exp (- X i j) / rsum k (fun l => exp (- X i l))) /\
  (forall i j, (i < n)%nat -> (j < k)%nat -> 0 < P i j) /\
  (forall i, (i < n)%nat -> rsum k (P i) = 1) /\
  (forall i j l, (i < n)%nat -> (j < k)%nat -> (l < k)%nat -> (P i j < P i l <-> X i l < X i j)) /\
  (forall c, fwdSoftmin (ROps jk) (mgen n k (fun i j => X i j + c i)) = Ok (mgen n k P)).
Proof.
  intros jk n k X Hk. exists (fun i => softmax k (fun j => - X i j)). split; [apply fwdSoftmin_R; auto|].
  repeat split; intros; try reflexivity.
  - apply softmax_pos; auto. - apply softmax_sum; auto.
  - apply (softmax_lt k (fun j => - X i j)) in H2; auto. lra. - apply (proj2 (softmax_lt k (fun j => - X i j) j l Hk)). simpl in H2. simpl. lra.
  - eapply eq_trans; [exact (fwdSoftmin_R jk n k _ Hk)|]. apply Ok_eq, mgen_ext. intros.
    eapply eq_trans; [|exact (softmax_shift k (fun j => - X i j) (- c i) j Hk)]. unfold softmax. f_equal; [f_equal; simpl; ring|].
    apply rsum_ext. intros. f_equal. simpl; ring.
Qed.

(** derivative of softmax along a curve *)
Lemma softmax_curve : forall n k X t dX (G : nat -> nat -> R), (0 < k)%nat -> dcurve n k X t dX ->
  exists dY, dcurve n k (fun x i => softmax k (X x i)) t dY /\
  dot n k G dY = dot n k (fun i j => softmax k (X t i) j * (G i j - rsum k (fun l => G i l * softmax k (X t i) l))) dX.
Proof.
  intros n k X t dX G Hk HX.
  set (P := fun i j => softmax k (X t i) j).
  exists (fun i j => P i j * (dX i j - rsum k (fun l => P i l * dX i l))). split.
  - intros i j Hi Hj. pose proof (exp_sum_pos k (X t i) Hk) as S. eapply is_derive_eq.
    + apply (d_div (fun x => exp (X x i j)) (fun x => rsum k (fun l => exp (X x i l)))).
      * apply (d_exp (fun x => X x i j)). apply HX; auto.
      * apply (is_derive_rsum k (fun l x => exp (X x i l)) (fun l => exp (X t i l) * dX i l)). intros l Hl. apply (d_exp (fun x => X x i l)). apply HX; auto.
      * lra.
    + unfold P, softmax. rewrite (rsum_ext k (fun l => exp (X t i l) / rsum k (fun l0 => exp (X t i l0)) * dX i l) (fun l => exp (X t i l) * dX i l * / rsum k (fun l0 => exp (X t i l0)))) by (intros; field; lra).
      rewrite rsum_scal_r. field. lra.
  - unfold dot. apply rsum_ext. intros i Hi. fold (P i).
    transitivity (rsum k (fun j => G i j * P i j * dX i j) - rsum k (fun j => G i j * P i j) * rsum k (fun l => P i l * dX i l)).
    + rewrite <- rsum_scal_r, <- rsum_minus. apply rsum_ext. intros. ring.
    + rewrite <- rsum_scal. rewrite <- rsum_minus. apply rsum_ext. intros j Hj. change (softmax k (X t i) j) with (P i j). 
      rewrite (rsum_ext k (fun l => G i l * softmax k (X t i) l) (fun l => G i l * P i l)) by reflexivity. ring.
Qed.
Lemma softmax_true_gradient : forall jk n k X G, (0 < k)%nat ->
  gradOf n k 1 (fun X' => obj G (fwdSoftmax (ROps jk) (mgen n k X'))) X
    (fun i j => softmax k (X i) j * (G i j - rsum k (fun l => G i l * softmax k (X i) l))).
Proof.
  intros jk n k X G Hk. apply gradOf_curve with (n := n) (m := k) (f := fun X i => softmax k (X i)).
  - intro. apply fwdSoftmax_R; auto.
  - intros a c Ha Hc. destruct (softmax_curve n k (fun x => upd2 X a c x) (X a c) _ G Hk (dcurve_cell _ _ _ _ _)) as (dY & H1 & H2).
    exists dY. split; [exact H1|]. rewrite H2. at_cell. ring.
Qed.
Lemma bwdSoftmax_R : forall jk n k X G gin, (0 < k)%nat ->
  bwdSoftmax (ROps jk) false (mgen n k X) (mgen n k G) gin =
  Ok (mgen n k (fun i j => G i j * (softmax k (X i) j * (1 - softmax k (X i) j)))).
Proof.
  intros. eapply eq_trans; [exact (bwdSoftmax_gen (ROps jk) n k X G gin H)|]. apply Ok_eq, mgen_ext. intros.
  exact (f_equal (fun z => G i j * (z * (1 - z))) (softF_R jk k (X i) j H)).
Qed.
Lemma bwdSoftmin_R : forall jk n k X G gin, (0 < k)%nat -> mwf gin ->
  bwdSoftmin (ROps jk) false (mgen n k X) (mgen n k G) gin =
  Ok (mgen n k (fun i j => - (G i j * (softmax k (fun l => - X i l) j * (1 - softmax k (fun l => - X i l) j))))).
Proof.
  intros. eapply eq_trans; [exact (bwdSoftmin_gen (ROps jk) n k X G gin H H0)|]. apply Ok_eq, mgen_ext. intros i j Hi Hj.
  cbv zeta. assert (E : softmax k (fun l => - X i l) j = softF (ROps jk) k (fun l => - X i l) j) by (symmetry; apply softF_R; auto).
  eapply eq_trans; [|apply (f_equal (fun z => - (G i j * (z * (1 - z)))) (eq_sym E))].
  unfold softF. change (fun j0 => fopp (ROps jk) (X i j0)) with (fun l => - X i l). set (e := expF (ROps jk) k (fun l => - X i l)). fs. simpl fopp.
  assert (0 < rsum k e) by (apply rsum_pos; auto; intros; unfold e, expF; simpl; apply exp_pos). field. lra.
Qed.
Lemma softmax_backward_refuted : forall jk : R, exists n k X G gin gi, (0 < k)%nat /\
  bwdSoftmax (ROps jk) false (mgen n k X) (mgen n k G) gin = Ok (mgen n k gi) /\
  ~ gradOf n k 1 (fun X' => obj G (fwdSoftmax (ROps jk) (mgen n k X'))) X gi.
Proof.
  intros jk. exists 1%nat, 2%nat, (fun _ _ => 0), (fun _ _ => 1), (mempty (ROps jk)). eexists. split; [lia|]. split; [exact (bwdSoftmax_R jk 1 2 _ _ _ ltac:(lia))|]. intros H.
  specialize (H 0%nat 0%nat ltac:(lia) ltac:(lia)).
  pose proof (softmax_true_gradient jk 1 2 (fun _ _ => 0) (fun _ _ => 1) ltac:(lia) 0%nat 0%nat ltac:(lia) ltac:(lia)) as H'.
  pose proof (partial_unique _ _ _ _ _ _ H H') as E. unfold softmax in E. simpl in E. rewrite exp_0 in E. lra.
Qed.
(* what is returned, for every input: the diagonal of the Jacobian only; right exactly when the off-diagonal part vanishes *)
Lemma softmax_backward_diagonal : forall jk n k X G gin, (0 < k)%nat ->
  bwdSoftmax (ROps jk) false (mgen n k X) (mgen n k G) gin =
    Ok (mgen n k (fun i j => G i j * (softmax k (X i) j * (1 - softmax k (X i) j)))) /\
  forall i j, (i < n)%nat -> (j < k)%nat ->
    softmax k (X i) j * (G i j - rsum k (fun l => G i l * softmax k (X i) l)) =
    G i j * (softmax k (X i) j * (1 - softmax k (X i) j)) - softmax k (X i) j * (rsum k (fun l => G i l * softmax k (X i) l) - G i j * softmax k (X i) j).
Proof. intros. split; [apply bwdSoftmax_R; auto|]. intros. ring. Qed.
(* with the gradient -t/p of the cross-entropy, t one-hot at class c: p - 1 at the true class, 0 (not p) elsewhere *)
Lemma softmax_crossentropy : forall jk n k X c gin, (0 < k)%nat -> (forall i, (i < n)%nat -> (c i < k)%nat) ->
  bwdSoftmax (ROps jk) false (mgen n k X) (mgen n k (fun i j => - ((if (j =? c i)%nat then 1 else 0) / softmax k (X i) j))) gin =
  Ok (mgen n k (fun i j => if (j =? c i)%nat then softmax k (X i) j - 1 else 0)).
Proof.
  intros jk n k X c gin Hk Hc. eapply eq_trans; [exact (bwdSoftmax_R jk n k X _ gin Hk)|]. apply Ok_eq, mgen_ext. intros i j Hi Hj.
  pose proof (softmax_pos k (X i) j Hk). destruct (j =? c i)%nat; field; lra.
Qed.
(* the exact value would be p - t everywhere *)
Lemma softmax_crossentropy_exact : forall jk n k X c, (0 < k)%nat -> (forall i, (i < n)%nat -> (c i < k)%nat) ->
  gradOf n k 1 (fun X' => obj (fun i j => - ((if (j =? c i)%nat then 1 else 0) / softmax k (X i) j)) (fwdSoftmax (ROps jk) (mgen n k X'))) X
    (fun i j => softmax k (X i) j - (if (j =? c i)%nat then 1 else 0)).
Proof.
  intros jk n k X c Hk Hc a b Ha Hb. pose proof (softmax_true_gradient jk n k X (fun i j => - ((if (j =? c i)%nat then 1 else 0) / softmax k (X i) j)) Hk a b Ha Hb) as H.
  unfold isPartial in *. eapply is_derive_eq; [exact H|]. cbv beta.
  rewrite (rsum_ext k _ (fun l => if (l =? c a)%nat then (fun _ => -1) l else 0)).
  - rewrite (rsum_if k (c a) (fun _ => -1)) by auto. pose proof (softmax_pos k (X a) b Hk). destruct (b =? c a)%nat; field; lra.
  - intros l Hl. pose proof (softmax_pos k (X a) l Hk). destruct (l =? c a)%nat; field; lra.
Qed.
