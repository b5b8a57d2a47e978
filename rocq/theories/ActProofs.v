(* ActProofs.v - the statements about all activations together *)
From Coq Require Import Reals List Lra Lia ZArith String Bool.
From Coquelicot Require Import Coquelicot.
From Verif Require Import Scalar SpecReal RDeriv Act SpecAct ActDeriv ActDeriv2 ActDeriv3 ActDeriv4.
Import ListNotations.
Local Open Scope R_scope.

Lemma act_derivative : forall jk k x, ~ odd_derivative k -> ~ In x (corners k) ->
  is_derive (act_apply (ROps jk) k) x (act_deriv (ROps jk) k x).
Proof.
  intros jk k x Hk Hx. change (goodAt jk k x).
  destruct k;
    first [ exfalso; apply Hk; unfold odd_derivative; cbn [In]; tauto
          | auto using d_Asinh, d_Atan, d_Bent, d_BipolarSigmoid, d_Bump, d_CELU, d_ComplementaryLogLog, d_DivideBy256, d_dSiLU, d_ELiSH, d_Elliot, d_ELU, d_Eswish, d_Exponential, d_E2RU, d_E3RU, d_Gauss, d_Identity, d_ISRLU, d_LecunTanh, d_LiSHT, d_LogSigmoid, d_Mish, d_O2RU, d_O3RU; fail
          | auto using d_SmoothSigmoid, d_SmoothSoftPlus, d_SmoothTanh, d_SoftPlus, d_SoftSign, d_SQNL, d_Sigmoid, d_SiLU, d_SinC, d_Sin, d_Swish, d_Tanh, d_TanhShrink; fail
          | auto using d_Absolute, d_BinaryStep, d_Bipolar, d_FTS, d_FTSPlus, d_Hann, d_HardELU, d_HardSigmoid, d_HardShrink, d_HardSwish, d_HardTanh, d_LeakyRelu, d_LeakyRelu256, d_LeakyTwiceRelu6, d_NLRelu, d_Relu, d_Relu6, d_Selu, d_SoftShrink, d_ThresholdedRelu; fail ].
Qed.

Lemma act_corners : forall jk k x, In x (corners k) -> ~ ex_derive (act_apply (ROps jk) k) x.
Proof.
  intros jk k x Hx.
  destruct k; try (cbn [corners In] in Hx; contradiction Hx);
   auto using c_Absolute, c_BinaryStep, c_Bipolar, c_FTS, c_FTSPlus, c_Hann, c_HardELU, c_HardSigmoid, c_HardShrink, c_HardSwish, c_HardTanh, c_LeakyRelu, c_LeakyRelu256, c_LeakyTwiceRelu6, c_NLRelu, c_Relu, c_Relu6, c_Selu, c_SoftShrink, c_ThresholdedRelu.
Qed.

Lemma In_R_dec : forall (x : R) l, In x l \/ ~ In x l.
Proof. intros. destruct (in_dec Req_EM_T x l); auto. Qed.

Lemma act_derivation_right : forall jk k x, ~ odd_derivative k -> ex_derive (act_apply (ROps jk) k) x ->
  act_deriv (ROps jk) k x = Derive (act_apply (ROps jk) k) x.
Proof.
  intros jk k x Hk Hx. destruct (In_R_dec x (corners k)) as [C|C].
  - exfalso. exact (act_corners jk k x C Hx).
  - symmetry. apply is_derive_unique. apply act_derivative; auto.
Qed.

Lemma act_derivation_close : forall jk x,
  (exists l, is_derive (act_apply (ROps jk) AGELU) x l /\ Rabs (act_deriv (ROps jk) AGELU x - l) <= 2 / 100000000000) /\
  (exists l, is_derive (act_apply (ROps jk) ASoftSteps) x l /\ Rabs (act_deriv (ROps jk) ASoftSteps x - l) <= 1 / 100000000).
Proof.
  intros jk x. split; [|apply derive_SoftSteps].
  exists (gelu' x). split; [apply derive_GELU | apply GELU_close].
Qed.

Lemma act_derivation_odd_right : forall jk x,
  (1 < Rabs x -> is_derive (act_apply (ROps jk) ASQRBF) x (act_deriv (ROps jk) ASQRBF x)) /\
  (0 < x -> is_derive (act_apply (ROps jk) ASineReLU) x (act_deriv (ROps jk) ASineReLU x)).
Proof. intros. split; intros; [apply SQRBF_right | apply SineReLU_right]; auto. Qed.

Lemma act_derivation_wrong : forall jk k, In k [ASQRBF; ALogit; ASineReLU; ATanhExp] ->
  exists x l, is_derive (act_apply (ROps jk) k) x l /\ act_deriv (ROps jk) k x <> l.
Proof.
  intros jk k [H|[H|[H|[H|[]]]]]; subst k.
  - exists 0, (- 0). destruct (SQRBF_actual jk 0 ltac:(lra)) as [D E]. split; auto. rewrite E. change (1 - 0 <> - 0). lra.
  - exists (1/2), (1 / (1/2 * (1 - 1/2))). destruct (Logit_actual jk (1/2) ltac:(lra)) as [D E]. split; auto. rewrite E.
    change (1 / 2 / (1 - 1 / 2) <> 1 / (1 / 2 * (1 - 1 / 2))). lra.
  - pose proof PI_RGT_0. exists (- PI), (1 / 100 * (cos (- PI) + sin (- PI))).
    destruct (SineReLU_actual jk (- PI) ltac:(lra)) as [D E]. split; auto. rewrite E.
    change (1 / 100 * (sin (- PI) - cos (- PI)) <> 1 / 100 * (cos (- PI) + sin (- PI))).
    rewrite sin_neg, cos_neg, sin_PI, cos_PI. lra.
  - exists 0, (Rtanh (exp 0) - 0 * exp 0 * (Rtanh (exp 0) * Rtanh (exp 0) - 1)).
    destruct (TanhExp_actual jk 0) as [D E]. split; auto. rewrite E.
    match goal with |- ?a <> ?b => change (~ (@eq R a b)) end.
    rewrite exp_0. assert (0 < Rtanh 1).
    { unfold Rtanh. assert (exp (- (1)) < exp 1) by (apply exp_increasing; lra). pose proof (exp_pos (- (1))). pose proof (exp_pos 1). apply Rdiv_lt_0_compat; lra. }
    lra.
Qed.

(** ranges *)
Lemma exp_neg_lt_1 : forall x, x < 0 -> exp x < 1.
Proof. intros. rewrite <- exp_0. apply exp_increasing; auto. Qed.
Lemma frac_bounds : forall a b, 0 < b -> - b < a < b -> -1 < a / b < 1.
Proof. intros a b Hb H. split; apply Rmult_lt_reg_r with b; auto; unfold Rdiv; rewrite Rmult_assoc, Rinv_l by lra; lra. Qed.
Lemma frac01 : forall a b, 0 < a < b -> 0 < a / b < 1.
Proof.
  intros a b H. split; apply Rmult_lt_reg_r with b; try lra; unfold Rdiv; rewrite Rmult_assoc, Rinv_l by lra; lra.
Qed.
Lemma frac_ge : forall a b c, 0 < b -> c * b <= a -> c <= a / b.
Proof. intros. apply Rmult_le_reg_r with b; auto. unfold Rdiv. rewrite Rmult_assoc, Rinv_l by lra. lra. Qed.
Lemma exp_ge_quad : forall t, 0 <= t -> 1 + t + t * t / 2 <= exp t.
Proof.
  intros t Ht.
  set (f := fun t => exp t - 1 - t - t * t / 2).
  destruct (MVT_gen f 0 t (fun t => exp t - 1 - t)) as [c [Hc E]].
  - intros x _. unfold f. auto_derive; auto. field.
  - intros x _. apply derivable_continuous_pt. exists (exp x - 1 - x). apply is_derive_Reals. unfold f. auto_derive; auto. field.
  - rewrite Rmin_left, Rmax_right in Hc by auto. unfold f in E. rewrite exp_0 in E.
    assert (0 <= exp c - 1 - c).
    { destruct (Req_dec c 0). subst. rewrite exp_0. lra. pose proof (exp_ineq1 c H). lra. }
    nra.
Qed.
Lemma swish_lower : forall x, - (1 / 3) <= x / (1 + exp (- x)).
Proof.
  intros x. pose proof (exp_pos (- x)). apply frac_ge; [lra|].
  destruct (Rle_dec 0 x); [nra|]. pose proof (exp_ge_quad (- x) ltac:(lra)).
  assert (0 <= (x + 2) * (x + 2)) by apply Rle_0_sqr. nra.
Qed.
Lemma Rpower_gt_0 : forall x p, 0 < Rpower x p.
Proof. intros. unfold Rpower. apply exp_pos. Qed.
Lemma ln_pos : forall x, 1 < x -> 0 < ln x.
Proof. intros. rewrite <- ln_1. apply ln_increasing; lra. Qed.

Lemma range_sign_exp : forall x, exp x * exp (- x) = 1.
Proof. exact exp_inv_mult. Qed.
Lemma act_ranges : forall jk k x, act_range k (act_apply (ROps jk) k x).
Proof.
  intros jk k x. pose proof (exp_pos x) as E1. pose proof (exp_pos (- x)) as E2.
  destruct k; unfold act_range; try exact I; act.
  all: try (br; lra).
  - (* Atan *) pose proof (atan_bound x); lra.
  - (* BinaryStep *) br; auto.
  - (* Bipolar *) br; auto.
  - (* BipolarSigmoid *) apply frac_bounds; lra.
  - (* Bump *) unfold Rltb. destruct (Rlt_dec (Rabs x) 1) as [Y|Y]; [|lra]. apply Rabs_def2 in Y. split; [left; apply exp_pos|].
    assert (P : 0 < 1 - x * x) by nra. left. apply exp_neg_lt_1. unfold Rdiv. pose proof (Rinv_0_lt_compat _ P). lra.
  - (* CELU *) unfold Rleb. destruct (Rle_dec 0 x); [lra|]. pose proof (exp_pos (x / 1)). lra.
  - (* CLogLog *) pose proof (exp_pos (- exp x)). pose proof (exp_neg_lt_1 (- exp x) ltac:(lra)). lra.
  - (* ELiSH *) unfold Rleb. destruct (Rle_dec 0 x).
    + apply Rlt_le_trans with 0; [lra|]. apply Rmult_le_pos; [lra|]. left. apply Rinv_0_lt_compat. lra.
    + assert (L : exp x < 1) by (apply exp_neg_lt_1; lra).
      replace (1 / exp (- x)) with (exp x) by (rewrite exp_Ropp; field; lra).
      assert (1 < exp (- x)) by (rewrite <- exp_0; apply exp_increasing; lra).
      apply frac_bounds; lra.
  - (* Elliot *) pose proof (Rabs_pos x). assert (-1 < x / (1 + Rabs x) < 1) by (apply frac_bounds; [lra|]; unfold Rabs; destruct (Rcase_abs x); lra). lra.
  - (* Eswish *) pose proof (swish_lower x). unfold Rdiv in *. rewrite Rmult_assoc. lra.
  - (* E2RU *) unfold Rleb. destruct (Rle_dec 0 x).
    + pose proof (sqrt_pos (2 / 1 * (2 / 1) * x + 1)). assert (0 < sqrt (2 / 1 * (2 / 1) * x + 1)) by (apply sqrt_lt_R0; lra). lra.
    + pose proof (exp_pos (x * (2 / 1))). lra.
  - (* E3RU *) unfold Rleb. destruct (Rle_dec 0 x).
    + rewrite Rpow_pos by lra. pose proof (Rpower_gt_0 (3 / 1 * (3 / 1) * x + 1) (1 / (3 / 1))). lra.
    + pose proof (exp_pos (x * (3 / 1))). lra.
  - (* FTS *) unfold Rltb. destruct (Rlt_dec x 0); [lra|]. assert (0 <= x / (1 + exp (- x))) by (apply Rmult_le_pos; [lra|left; apply Rinv_0_lt_compat; lra]). lra.
  - unfold Rltb. destruct (Rlt_dec x 0); [lra|]. assert (0 <= x / (1 + exp (- x))) by (apply Rmult_le_pos; [lra|left; apply Rinv_0_lt_compat; lra]). lra.
  - (* Gauss *) split; [apply exp_pos|]. destruct (Req_dec x 0). subst. replace (- 0 * 0) with 0 by ring. rewrite exp_0. lra. left. apply exp_neg_lt_1. nra.
  - (* Hann *) unfold Rltb. destruct (Rlt_dec 1 (Rabs x)); [lra|]. pose proof (COS_bound (314159265359 / 100000000000 * (1 / 2) * x)). nra.
  - (* HardSwish *) unfold Rleb, Rltb. destruct (Rle_dec (3 / 1) x); [lra|]. destruct (Rlt_dec x (- (3 / 1))); [lra|].
    assert (0 <= (x + 3/2) * (x + 3/2)) by apply Rle_0_sqr. lra.
  - (* ISRLU *) unfold Rleb. destruct (Rle_dec 0 x); [lra|]. assert (P : 0 < 1 + 1 * x * x) by nra. pose proof (sqrt_lt_R0 _ P).
    assert (Q : sqrt (1 + 1 * x * x) * sqrt (1 + 1 * x * x) = 1 + 1 * x * x) by (apply sqrt_sqrt; lra).
    apply frac_bounds; auto. split; nra.
  - (* LecunTanh *) pose proof (Rtanh_bound (x * (666666 / 1000000))). lra.
  - (* LiSHT *) unfold Rtanh. pose proof (exp_sum_pos x). unfold Rdiv. rewrite <- Rmult_assoc. apply Rmult_le_pos; [|left; apply Rinv_0_lt_compat; auto].
    destruct (Rle_dec 0 x).
    + apply Rmult_le_pos; auto. destruct (Req_dec x 0). subst. rewrite Ropp_0. lra. assert (exp (- x) < exp x) by (apply exp_increasing; lra). lra.
    + assert (exp x < exp (- x)) by (apply exp_increasing; lra). nra.
  - (* LogSigmoid *) rewrite <- ln_1. assert (0 < 1 / (1 + exp (- x)) < 1) by (apply frac01; lra). apply ln_increasing; lra.
  - (* NLRelu *) unfold Rltb. destruct (Rlt_dec 0 x); [|lra]. left. apply ln_pos. lra.
  - (* SmoothSigmoid *) br; nra.
  - (* SmoothSoftPlus *) br; nra.
  - (* SmoothTanh *) br; nra.
  - (* SoftPlus *) apply ln_pos. lra.
  - (* SoftSign *) pose proof (Rabs_pos x). apply frac_bounds; [lra|]; unfold Rabs; destruct (Rcase_abs x); lra.
  - (* SQNL *) br; nra.
  - (* SQRBF *) br; nra.
  - (* Sigmoid *) apply frac01. lra.
  - (* SiLU *) apply swish_lower.
  - (* SinC *) unfold Reqb. destruct (Req_EM_T x 0); [lra|].
    assert (K : forall y, 0 < y -> -1 <= sin y / y <= 1).
    { intros y Hy. pose proof (SIN_bound y). assert (sin y <= y) by (left; apply sin_lt_x; auto).
      assert (- y <= sin y).
      { destruct (Rle_dec 1 y); [lra|]. pose proof (sin_cubic y ltac:(lra)). assert (y * y * y <= y) by (assert (y * y <= 1) by nra; nra). lra. }
      split; apply Rmult_le_reg_r with y; auto; unfold Rdiv; rewrite Rmult_assoc, Rinv_l by lra; lra. }
    destruct (Rlt_le_dec 0 x); [apply K; auto|]. replace (sin x / x) with (sin (- x) / - x) by (rewrite sin_neg; field; auto). apply K; lra.
  - (* Sin *) apply SIN_bound.
  - (* Swish *) apply swish_lower.
  - apply Rtanh_bound.
Qed.
