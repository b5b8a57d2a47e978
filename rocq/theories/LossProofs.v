(* LossProofs.v - lemmas behind P_Loss.v *)
From Coq Require Import Reals Lra Lia Arith List Bool ZArith.
From Coquelicot Require Import Coquelicot.
From Verif Require Import Base Scalar B32Facts Mat SpecMat SpecReal RSum MatFacts MatProofs RDeriv Loss SpecLoss.
Import ListNotations.
Local Open Scope R_scope.

Lemma matTotal_app : forall l1 l2, fold_right Rplus 0 (l1 ++ l2) = fold_right Rplus 0 l1 + fold_right Rplus 0 l2.
Proof. induction l1; intros; simpl; [ring|]. rewrite IHl1. ring. Qed.
Lemma fold_right_seq : forall n f s, fold_right Rplus 0 (map f (seq s n)) = rsum n (fun i => f (s + i)%nat).
Proof.
  induction n; intros; [reflexivity|]. rewrite seq_S, map_app, matTotal_app, IHn. simpl. ring.
Qed.
Lemma matTotal_gen : forall r c f, matTotal (mgen r c f) = rsum r (fun i => rsum c (f i)).
Proof.
  intros. unfold matTotal, mgen. cbn [mdata]. induction r; [reflexivity|].
  rewrite seq_S, flat_map_app, matTotal_app, IHr. simpl. rewrite app_nil_r, fold_right_seq. reflexivity.
Qed.

Lemma mapLoopR_gen : forall (F : FOps) f g r c h, (forall x, f x = Ok (g x)) ->
  mapLoopR F f (mgen r c h) = Ok (mgen r c (fun i j => g (h i j))).
Proof.
  intros. rewrite <- (@mapLoop_gen F). unfold mapLoopR, mapLoop, forN. apply (@forL_ext nat (mat F)).
  intros i s Hi. destruct (mget1 s i); auto. cbn [bind]. rewrite H. reflexivity.
Qed.

(** values *)
Lemma regElem_R : forall jk k x, isRegression k -> regElem (ROps jk) (absFloat (ROps jk)) k x = Ok (errTerm k x).
Proof.
  intros jk k x H. destruct k; simpl in H; try tauto; unfold regElem, absFloat, errTerm, half, Rcosh; simpl; f_equal; try ring.
  - rewrite !Rabs_mult. ring.
  - rewrite !Rabs_mult. ring.
  - unfold Rltb. destruct (Rlt_dec (Rabs x) 1).
    + assert (Rabs x * Rabs x = x * x). { rewrite <- Rabs_mult. apply Rabs_pos_eq. nra. } nra.
    + lra.
  - replace (x * x * 1 + 1) with (1 + x * (x * 1)) by ring. ring.
Qed.

Lemma reg_compute : forall jk k n c P T out, isRegression k ->
  compute (ROps jk) (absFloat (ROps jk)) k (noBalance (ROps jk)) (mgen n c P) (mgen n c T) out =
  Ok (mgen 1 c (fun _ j => lossColumn k n P T j)).
Proof.
  intros jk k n c P T out H.
  transitivity (e <- Ok (mgen n c (fun i j => errTerm k (P i j - T i j))) ;; regReduce (ROps jk) k e).
  - destruct k; simpl in H; try tauto; unfold compute, balanceIf;
    change (mcols (mgen n c T)) with c; change (mcols (mgen n c P)) with c;
    change (mrows (mgen n c T)) with n; change (mrows (mgen n c P)) with n;
    rewrite !Nat.eqb_refl; cbn [assert_ bind];
    rewrite (msubM_gen (ROps jk)); cbn [bind];
    erewrite mapLoopR_gen by (intros; apply regElem_R; exact I); cbn [bind];
    match goal with |- (l <- ?x ;; _) = ?y => change y with x; destruct x; reflexivity end.
  - cbn [bind]. unfold lossColumn, isSum.
    destruct k; simpl in H; try tauto; unfold regReduce, colWiseSum, colWiseMean; rewrite (colWise_gen (ROps jk)); f_equal;
    apply mgen_ext; intros; rewrite fsum_R; change (mrows (mgen n c (fun i0 j0 => errTerm _ (P i0 j0 - T i0 j0)))) with n;
    rewrite ?fofN_R; simpl; lra.
Qed.

Lemma reg_total : forall jk k n c P T out, isRegression k ->
  totalLoss jk (absFloat (ROps jk)) k (mgen n c P) (mgen n c T) out = rsum c (lossColumn k n P T).
Proof.
  intros. unfold totalLoss. rewrite reg_compute by auto. rewrite matTotal_gen. cbn [rsum]. rewrite Rplus_0_l. reflexivity.
Qed.

(** one modified entry *)
Lemma rsum_upd1 : forall n f i x, (i < n)%nat -> rsum n (fun a => if a =? i then x else f a) = rsum n f + (x - f i).
Proof.
  intros. replace (x - f i) with (rsum n (fun a => if a =? i then x - f a else 0)).
  - rewrite <- rsum_plus. apply rsum_ext. intros a Ha. destruct (a =? i); ring.
  - rewrite (rsum_delta n i (fun a => x - f a)) by auto. reflexivity.
Qed.
Lemma rsum_upd2 : forall n c (h : nat -> nat -> R -> R) P i j x, (i < n)%nat -> (j < c)%nat ->
  rsum c (fun b => rsum n (fun a => h a b (upd2 P i j x a b))) =
  rsum c (fun b => rsum n (fun a => h a b (P a b))) + (h i j x - h i j (P i j)).
Proof.
  intros n c h P i j x Hi Hj.
  transitivity (rsum c (fun b => if b =? j then rsum n (fun a => h a j (P a j)) + (h i j x - h i j (P i j)) else rsum n (fun a => h a b (P a b)))).
  - apply rsum_ext. intros b Hb. destruct (Nat.eqb_spec b j) as [->|Hbj].
    + rewrite <- (rsum_upd1 n (fun a => h a j (P a j)) i (h i j x) Hi). apply rsum_ext. intros a Ha.
      unfold upd2. rewrite Nat.eqb_refl. destruct (Nat.eqb_spec a i); subst; auto.
    + apply rsum_ext. intros a Ha. unfold upd2. destruct (Nat.eqb_spec b j); [tauto|]. rewrite andb_false_r. auto.
  - rewrite (rsum_upd1 c (fun b => rsum n (fun a => h a b (P a b))) j) by auto. ring.
Qed.

Lemma rsum_lossColumn : forall k n c P T, rsum c (lossColumn k n P T) =
  rsum c (fun j => rsum n (fun i => errTerm k (P i j - T i j) / (if isSum k then 1 else INR n))).
Proof. intros. apply rsum_ext. intros. unfold lossColumn. rewrite rsum_div. reflexivity. Qed.

(** derivatives of the error terms *)
Definition errDeriv (k : lossKind) (x : R) : R :=
  match k with
  | LMeanSquaredError | LL2 => 2 * x
  | LMeanAbsoluteError | LL1 => Rsign x
  | LMeanCubicError | LL3 => 3 * x * x * (if Rlt_dec 0 x then 1 else -1)
  | LHuber => if Rlt_dec 1 x then 1 else if Rlt_dec x (-1) then -1 else x
  | LPseudoHuber => x / sqrt (1 + x ^ 2)
  | LLogCosh => Rtanh x
  | _ => 0
  end.
Definition isAbs (k : lossKind) : Prop := match k with LMeanAbsoluteError | LL1 => True | _ => False end.

Lemma derive_abs : forall x, x <> 0 -> is_derive Rabs x (Rsign x).
Proof.
  intros x Hx. unfold Rsign. destruct (Rlt_dec x 0).
  - apply is_derive_lt with (g := fun y => - y) (v := 0); [lra | intros; apply Rabs_left; lra |].
    auto_derive; auto; ring.
  - apply is_derive_gt with (g := fun y => y) (u := 0); [lra | intros; apply Rabs_pos_eq; lra |]. apply (is_derive_id x).
Qed.
Lemma derive_abs3 : forall x, is_derive (fun y => Rabs y ^ 3) x (3 * x * x * (if Rlt_dec 0 x then 1 else -1)).
Proof.
  intros x. destruct (Rlt_dec 0 x).
  - apply is_derive_gt with (g := fun y => y ^ 3) (u := 0); [lra | intros; rewrite Rabs_pos_eq by lra; auto |].
    auto_derive; auto; ring.
  - destruct (Req_dec x 0) as [->|Hx].
    + apply is_derive_glue with (g := fun y => - y ^ 3) (h := fun y => y ^ 3) (r := 1); [lra | | | |].
      * intros y Hy. rewrite Rabs_left1 by lra. ring.
      * intros y Hy. rewrite Rabs_pos_eq by lra. ring.
      * auto_derive; auto; ring.
      * auto_derive; auto; ring.
    + apply is_derive_lt with (g := fun y => - y ^ 3) (v := 0); [lra | intros; rewrite Rabs_left by lra; ring |].
      auto_derive; auto; ring.
Qed.
Lemma derive_huber : forall x,
  is_derive (errTerm LHuber) x (if Rlt_dec 1 x then 1 else if Rlt_dec x (-1) then -1 else x).
Proof.
  intros x.
  assert (A : forall y, 1 <= y -> errTerm LHuber y = y - 1 / 2).
  { intros y Hy. unfold errTerm. rewrite Rabs_pos_eq by lra. destruct (Rlt_dec y 1); lra. }
  assert (B : forall y, y <= -1 -> errTerm LHuber y = - y - 1 / 2).
  { intros y Hy. unfold errTerm. rewrite Rabs_left1 by lra. destruct (Rlt_dec (- y) 1); lra. }
  assert (C : forall y, -1 <= y <= 1 -> errTerm LHuber y = y ^ 2 / 2).
  { intros y Hy. destruct (Req_dec y 1) as [->|]; [rewrite A by lra; lra|].
    destruct (Req_dec y (-1)) as [->|]; [rewrite B by lra; lra|].
    unfold errTerm. destruct (Rlt_dec (Rabs y) 1) as [_|n]; auto. exfalso. apply n. apply Rabs_def1; lra. }
  destruct (Rlt_dec 1 x); [|destruct (Rlt_dec x (-1))].
  - apply is_derive_gt with (g := fun y => y - 1 / 2) (u := 1); [lra | intros; apply A; lra |]. auto_derive; auto; ring.
  - apply is_derive_lt with (g := fun y => - y - 1 / 2) (v := -1); [lra | intros; apply B; lra |]. auto_derive; auto; ring.
  - destruct (Req_dec x 1) as [->|]; [|destruct (Req_dec x (-1)) as [->|]].
    + apply is_derive_glue with (g := fun y => y ^ 2 / 2) (h := fun y => y - 1 / 2) (r := 1);
      [lra | intros; apply C; lra | intros; apply A; lra | |]; auto_derive; auto; lra.
    + apply is_derive_glue with (g := fun y => - y - 1 / 2) (h := fun y => y ^ 2 / 2) (r := 1);
      [lra | intros; apply B; lra | intros; apply C; lra | |]; auto_derive; auto; lra.
    + apply is_derive_open with (g := fun y => y ^ 2 / 2) (u := -1) (v := 1); [lra | intros; apply C; lra |].
      auto_derive; auto; lra.
Qed.
Lemma derive_errTerm : forall k x, isRegression k -> (isAbs k -> x <> 0) -> is_derive (errTerm k) x (errDeriv k x).
Proof.
  intros k x H Hx. destruct k; simpl in H, Hx; try tauto; unfold errDeriv.
  - unfold errTerm. auto_derive; auto; ring.
  - apply derive_abs; auto.
  - apply derive_abs3.
  - unfold errTerm. auto_derive; auto; ring.
  - apply derive_abs; auto.
  - apply derive_abs3.
  - apply derive_huber.
  - unfold errTerm. assert (0 < 1 + x ^ 2) by nra. auto_derive; [auto|].
    assert (0 < sqrt (1 + x ^ 2)) by (apply sqrt_lt_R0; auto). simpl in *. field. lra.
  - unfold errTerm. apply (is_derive_logcosh x).
Qed.

(** the gradients *)
(* the factor between the code's gradient and the partial derivatives *)
Definition gradScale (k : lossKind) (n c : nat) : R :=
  match k with
  | LMeanSquaredError => 2 * INR c / INR n
  | LL2 => 2
  | LL1 => INR c
  | LL3 => 1
  | _ => / INR n
  end.
Lemma gradScale_pos : forall k n c, (0 < n)%nat -> (0 < c)%nat -> 0 < gradScale k n c.
Proof.
  intros k n c Hn Hc. apply lt_INR in Hn, Hc. simpl in Hn, Hc.
  assert (0 < / INR n) by (apply Rinv_0_lt_compat; auto).
  destruct k; unfold gradScale, Rdiv; try lra. apply Rmult_lt_0_compat; lra.
Qed.

Definition regG jk k c (P T : nat -> nat -> R) i j : R := regGrad (ROps jk) k c (P i j - T i j).

Lemma reg_gradient_value : forall jk k n c P T out, isRegression k ->
  compute_gradient (ROps jk) k (noBalance (ROps jk)) (mgen n c P) (mgen n c T) out = Ok (mgen n c (regG jk k c P T)).
Proof.
  intros jk k n c P T out H.
  destruct k; simpl in H; try tauto; unfold compute_gradient, balanceIf;
  change (mcols (mgen n c T)) with c; change (mcols (mgen n c P)) with c;
  change (mrows (mgen n c T)) with n; change (mrows (mgen n c P)) with n;
  rewrite !Nat.eqb_refl; cbn [assert_ bind];
  rewrite (msubM_gen (ROps jk)); cbn [bind]; rewrite (@mapLoop_gen R); reflexivity.
Qed.

Lemma regGrad_scale : forall jk k n c x, isRegression k -> (0 < n)%nat -> (0 < c)%nat ->
  errDeriv k x / (if isSum k then 1 else INR n) = gradScale k n c * regGrad (ROps jk) k c x.
Proof.
  intros jk k n c x H Hn Hc. apply lt_INR in Hn, Hc. simpl in Hn, Hc.
  destruct k; simpl in H; try tauto; unfold errDeriv, gradScale, regGrad, isSum; rewrite ?fofN_R; simpl; try (field; lra).
  - unfold Rltb. destruct (Rlt_dec 0 x); field; lra.
  - unfold Rltb. destruct (Rlt_dec 0 x); field.
  - unfold Rltb. destruct (Rlt_dec 1 x); destruct (Rlt_dec x (-1)); destruct (Rlt_dec x (- (1))); try lra; field; lra.
  - replace (x * x * 1 + 1) with (1 + x * (x * 1)) by ring.
    assert (0 < sqrt (1 + x * (x * 1))) by (apply sqrt_lt_R0; nra). field. split; lra.
Qed.

Lemma reg_gradient : forall k n c, isRegression k -> (0 < n)%nat -> (0 < c)%nat ->
  exists kappa, 0 < kappa /\ forall jk out out' (P T : nat -> nat -> R), exists G : nat -> nat -> R,
  compute_gradient (ROps jk) k (noBalance (ROps jk)) (mgen n c P) (mgen n c T) out = Ok (mgen n c G) /\
  forall i j, (i < n)%nat -> (j < c)%nat -> (k = LMeanAbsoluteError \/ k = LL1 -> P i j <> T i j) ->
  isPartial (fun Q => totalLoss jk (absFloat (ROps jk)) k (mgen n c Q) (mgen n c T) out') P i j (kappa * G i j).
Proof.
  intros k n c H Hn Hc. exists (gradScale k n c). split; [apply gradScale_pos; auto|].
  intros jk out out' P T. exists (regG jk k c P T). split; [apply reg_gradient_value; auto|].
  intros i j Hi Hj Hne. unfold isPartial.
  set (w := / (if isSum k then 1 else INR n)).
  set (A := rsum c (lossColumn k n P T) - w * errTerm k (P i j - T i j)).
  apply is_derive_ext with (f := fun x => A + w * errTerm k (x - T i j)).
  - intros x. rewrite reg_total by auto. rewrite rsum_lossColumn.
    rewrite (rsum_upd2 n c (fun a b v => errTerm k (v - T a b) / (if isSum k then 1 else INR n)) P i j x Hi Hj).
    unfold A. rewrite rsum_lossColumn. unfold w, Rdiv. match goal with |- ?a = ?b => change (@eq R a b) end. ring.
  - eapply is_derive_eq.
    + apply is_derive_affine_comp. apply derive_errTerm; auto.
      intros Ha. destruct k; simpl in Ha; try tauto; assert (P i j <> T i j) by auto; lra.
    + unfold regG. rewrite <- (regGrad_scale jk k n c) by auto. unfold w, Rdiv. ring.
Qed.

(* subgradient inequality for the absolute losses, at every point *)
Lemma abs_subgradient : forall k n c, k = LMeanAbsoluteError \/ k = LL1 -> (0 < n)%nat -> (0 < c)%nat ->
  exists kappa, 0 < kappa /\ forall jk out out' (P T : nat -> nat -> R), exists G : nat -> nat -> R,
  compute_gradient (ROps jk) k (noBalance (ROps jk)) (mgen n c P) (mgen n c T) out = Ok (mgen n c G) /\
  forall i j y, (i < n)%nat -> (j < c)%nat ->
  let L (Q : nat -> nat -> R) := totalLoss jk (absFloat (ROps jk)) k (mgen n c Q) (mgen n c T) out' in
  L (upd2 P i j y) >= L P + kappa * G i j * (y - P i j).
Proof.
  intros k n c H Hn Hc. exists (gradScale k n c). split; [apply gradScale_pos; auto|].
  intros jk out out' P T. exists (regG jk k c P T).
  assert (HR : isRegression k) by (destruct H; subst; exact I).
  split; [apply reg_gradient_value; auto|].
  intros i j y Hi Hj. cbv beta zeta. rewrite !reg_total by auto. rewrite !rsum_lossColumn.
  rewrite (rsum_upd2 n c (fun a b v => errTerm k (v - T a b) / (if isSum k then 1 else INR n)) P i j y Hi Hj).
  unfold regG. rewrite <- (regGrad_scale jk k n c) by auto.
  assert (Hs : forall u v, Rabs v - Rabs u >= Rsign u * (v - u)).
  { intros u v. unfold Rsign. destruct (Rlt_dec u 0).
    - rewrite (Rabs_left u) by lra. pose proof (Rle_abs (- v)). rewrite Rabs_Ropp in *. lra.
    - rewrite (Rabs_pos_eq u) by lra. pose proof (Rle_abs v). lra. }
  specialize (Hs (P i j - T i j) (y - T i j)).
  assert (Hw : 0 < / (if isSum k then 1 else INR n)).
  { apply Rinv_0_lt_compat. apply lt_INR in Hn. simpl in Hn. destruct (isSum k); lra. }
  assert (E : errTerm k (y - T i j) - errTerm k (P i j - T i j) >= errDeriv k (P i j - T i j) * (y - P i j)).
  { destruct H; subst; simpl; replace (y - T i j - (P i j - T i j)) with (y - P i j) in Hs by ring; exact Hs. }
  unfold Rdiv. nra.
Qed.

(** C39 *)
Lemma errTerm_nonneg : forall k x, 0 <= errTerm k x.
Proof.
  intros. destruct k; unfold errTerm; try lra; try nra; try apply Rabs_pos; try (apply pow_le; apply Rabs_pos).
  - destruct (Rlt_dec (Rabs x) 1); nra.
  - assert (1 <= sqrt (1 + x ^ 2)); [|lra]. rewrite <- sqrt_1 at 1. apply sqrt_le_1_alt. nra.
  - pose proof (Rcosh_ge_1 x) as Hc. fold (Rcosh x). rewrite <- ln_1. destruct Hc as [Hc|Hc].
    + left. apply ln_increasing; lra.
    + rewrite <- Hc. right. reflexivity.
Qed.
Lemma errTerm_zero : forall k x, isRegression k -> errTerm k x = 0 <-> x = 0.
Proof.
  intros k x H. split.
  - destruct k; simpl in H; try tauto; unfold errTerm; intros E.
    + nra.
    + destruct (Req_dec x 0); auto. apply Rabs_no_R0 in H0. lra.
    + destruct (Req_dec x 0); auto. apply Rabs_no_R0 in H0. exfalso. apply (pow_nonzero _ 3 H0). auto.
    + nra.
    + destruct (Req_dec x 0); auto. apply Rabs_no_R0 in H0. lra.
    + destruct (Req_dec x 0); auto. apply Rabs_no_R0 in H0. exfalso. apply (pow_nonzero _ 3 H0). auto.
    + destruct (Rlt_dec (Rabs x) 1); nra.
    + assert (Hs : sqrt (1 + x ^ 2) = 1) by lra.
      assert (Hq : 1 + x ^ 2 = 1). { rewrite <- (sqrt_sqrt (1 + x ^ 2)) by nra. rewrite Hs. ring. } nra.
    + fold (Rcosh x) in E. apply Rcosh_1_inv. pose proof (Rcosh_pos x). rewrite <- ln_1 in E. apply ln_inv in E; lra.
  - intros ->. destruct k; simpl in H; try tauto; unfold errTerm; rewrite ?Rabs_R0; try ring.
    + destruct (Rlt_dec 0 1); lra.
    + replace (1 + 0 ^ 2) with 1 by ring. rewrite sqrt_1. ring.
    + rewrite Ropp_0, exp_0. replace ((1 + 1) / 2) with 1 by field. apply ln_1.
Qed.

Lemma reg_nonneg : forall jk k n c (P T : nat -> nat -> R) out, isRegression k -> (0 < n)%nat -> exists l : nat -> R,
  compute (ROps jk) (absFloat (ROps jk)) k (noBalance (ROps jk)) (mgen n c P) (mgen n c T) out = Ok (mgen 1 c (fun _ => l)) /\
  forall j, (j < c)%nat -> 0 <= l j /\ (l j = 0 <-> forall i, (i < n)%nat -> P i j = T i j).
Proof.
  intros jk k n c P T out H Hn. exists (lossColumn k n P T). split; [apply reg_compute; auto|].
  intros j Hj. unfold lossColumn.
  assert (Hw : 0 < (if isSum k then 1 else INR n)) by (apply lt_INR in Hn; simpl in Hn; destruct (isSum k); lra).
  assert (Hs : 0 <= rsum n (fun i => errTerm k (P i j - T i j))) by (apply rsum_nonneg; intros; apply errTerm_nonneg).
  split; [apply Rmult_le_pos; [auto | left; apply Rinv_0_lt_compat; auto]|]. split.
  - intros E i Hi.
    assert (E0 : rsum n (fun i => errTerm k (P i j - T i j)) = 0).
    { apply Rmult_eq_reg_r with (/ (if isSum k then 1 else INR n)).
      - rewrite Rmult_0_l. exact E.
      - apply Rinv_neq_0_compat. lra. }
    pose proof (rsum_zero_inv n _ (fun i _ => errTerm_nonneg k _) E0 i Hi) as E1. simpl in E1.
    apply errTerm_zero in E1; auto. lra.
  - intros E. rewrite (rsum_zero n); [unfold Rdiv; ring|]. intros i Hi. apply errTerm_zero; auto. rewrite E by auto. ring.
Qed.
