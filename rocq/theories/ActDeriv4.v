(* ActDeriv4.v - activations whose code uses decimal approximations of pi, and those with a wrong derivative *)
From Coq Require Import Reals List Lra Lia ZArith.
From Coq Require Import Machin.
From Coquelicot Require Import Coquelicot.
From Verif Require Import Scalar SpecReal RDeriv Act SpecAct ActDeriv ActDeriv2.
Import ListNotations.
Local Open Scope R_scope.

Lemma PI_upper : PI < 314159265359 / 100000000000.
Proof.
  destruct (PI_2_3_7_ineq 7) as [_ H]. simpl mult in H.
  unfold sum_f_R0, tg_alt, PI_2_3_7_tg, Ratan_seq in H. simpl plus in H. simpl mult in H.
  simpl in H. lra.
Qed.
Lemma PI_lower : 314159265358 / 100000000000 < PI.
Proof.
  destruct (PI_2_3_7_ineq 7) as [H _]. simpl mult in H.
  unfold sum_f_R0, tg_alt, PI_2_3_7_tg, Ratan_seq in H. simpl plus in H. simpl mult in H.
  simpl in H. lra.
Qed.

Lemma d_Hann : forall jk x, ~ In x (corners AHann) -> goodAt jk AHann x.
Proof.
  intros jk x; unfold goodAt; cbn [corners In]; intro C.
  destruct (Rtotal_order x (-1)) as [L|[L|L]]; [|exfalso; apply C; right; left; lra|destruct (Rtotal_order x 1) as [M|[M|M]]; [|exfalso; apply C; left; lra|]].
  - apply (is_derive_lt _ (fun x : R => 0) (-1)); [lra|agree|]. der. act; br; lra.
  - set (p := 314159265359 / 100000000000).
    apply (is_derive_open _ (fun x : R => cos (p * (1 / 2) * x) * cos (p * (1 / 2) * x)) (-1) x 1); [lra|unfold p; agree|].
    der. act; fold p. br.
    + replace (p * x) with (2 * (p * (1 / 2) * x)) by field. rewrite sin_2a. fld.
    + replace (p * x) with (2 * (p * (1 / 2) * x)) by field. rewrite sin_2a. fld.
  - apply (is_derive_gt _ (fun x : R => 0) 1); [lra|agree|]. der. act; br; lra.
Qed.
Lemma cos_piLit_half : cos (314159265359 / 100000000000 * (1 / 2)) < 0.
Proof. pose proof PI_upper. pose proof PI_lower. apply cos_lt_0; lra. Qed.
Lemma c_Hann : forall jk x, In x (corners AHann) -> ~ ex_derive (act_apply (ROps jk) AHann) x.
Proof.
  intros jk x. pose proof cos_piLit_half as H. set (p := 314159265359 / 100000000000 * (1 / 2)) in H.
  assert (Z : 0 < cos p * cos p) by nra.
  cbn [corners In]; intros [C|[C|[]]]; rewrite <- C.
  - apply (jump_right _ (fun _ => 0) 1 1); [lra|agree|auto_derive; auto|]. act; br. fold p. rewrite Rmult_1_r. lra.
  - apply (jump_left _ (fun _ => 0) (-1) 1); [lra|agree|auto_derive; auto|]. act; br. fold p.
    replace (p * -1) with (- p) by ring. rewrite cos_neg. lra.
Qed.

(** GELU *)
Lemma is_derive_erf : forall x, is_derive Rerf x (2 / sqrt PI * exp (- (x * x))).
Proof.
  intros x. unfold Rerf. eapply is_derive_eq.
  - apply (is_derive_Rmult (fun _ => 2 / sqrt PI) (fun y => RInt (fun t => exp (- (t * t))) 0 y)); [apply (is_derive_const (2 / sqrt PI))|].
    apply (is_derive_RInt (fun t => exp (- (t * t))) (fun y => RInt (fun t => exp (- (t * t))) 0 y) 0 x).
    + exists (mkposreal 1 Rlt_0_1). intros y _. apply (@RInt_correct R_CompleteNormedModule).
      apply (@ex_RInt_continuous R_CompleteNormedModule). intros z _.
      apply (@ex_derive_continuous R_AbsRing R_NormedModule). auto_derive. auto.
    + apply (@ex_derive_continuous R_AbsRing R_NormedModule). auto_derive. auto.
  - change (@zero R_NormedModule) with 0. match goal with |- ?a = ?b => change (@eq R a b) end. ring.
Qed.

Definition gelu' (x : R) : R := 1 / 2 * (1 + Rerf (x / sqrt 2)) + x * exp (- x * x * (1 / 2)) / sqrt (2 * PI).

Lemma derive_GELU : forall jk x, is_derive (act_apply (ROps jk) AGELU) x (gelu' x).
Proof.
  intros jk x. pose proof PI_RGT_0. pose proof (sqrt_lt_R0 PI H). pose proof (sqrt_lt_R0 2 ltac:(lra)).
  assert (S2 : sqrt 2 * sqrt 2 = 2) by (apply sqrt_sqrt; lra).
  assert (E1 : 2 / 1 = 2) by lra. act. rewrite ?E1.
  eapply is_derive_eq.
  - apply (is_derive_Rmult (fun x => 1 / 2 * x) (fun x => 1 + Rerf (x / sqrt 2))).
    + instantiate (1 := 1 / 2). auto_derive; auto; lra.
    + apply (is_derive_Rplus (fun _ => 1) (fun x => Rerf (x / sqrt 2))); [apply (is_derive_const 1)|].
      apply (is_derive_Rcomp Rerf (fun x => x / sqrt 2)); [apply is_derive_erf|].
      instantiate (1 := / sqrt 2). auto_derive; nz.
  - change (@zero R_NormedModule) with 0. unfold gelu'. rewrite sqrt_mult by lra.
    replace (- (x / sqrt 2 * (x / sqrt 2))) with (- x * x * (1 / 2)).
    2:{ replace (x / sqrt 2 * (x / sqrt 2)) with (x * x / (sqrt 2 * sqrt 2)) by (field; lra). rewrite S2. lra. }
    match goal with |- ?a = ?b => change (@eq R a b) end. field. lra.
Qed.

Lemma gauss_le_1 : forall x, Rabs (x * exp (- x * x * (1 / 2))) <= 1.
Proof.
  intro x. rewrite Rabs_mult, (Rabs_pos_eq (exp _)) by (left; apply exp_pos).
  replace (- x * x * (1 / 2)) with (- (x * x / 2)) by lra. rewrite exp_Ropp.
  pose proof (exp_pos (x * x / 2)).
  apply Rmult_le_reg_r with (exp (x * x / 2)); auto. rewrite Rmult_assoc, Rinv_l, Rmult_1_r, Rmult_1_l by lra.
  assert (G : 1 + x * x / 2 <= exp (x * x / 2)).
  { destruct (Req_dec x 0). subst. replace (0 * 0 / 2) with 0 by lra. rewrite exp_0. lra. left. apply exp_ineq1. nra. }
  eapply Rle_trans; [|exact G]. unfold Rabs. destruct (Rcase_abs x); nra.
Qed.

Lemma GELU_close : forall jk x, Rabs (act_deriv (ROps jk) AGELU x - gelu' x) <= 2 / 100000000000.
Proof.
  intros jk x. act. unfold gelu'. replace (2 / 1) with 2 by lra.
  set (b := 314159265359 / 100000000000 * 2). set (a := 2 * PI).
  pose proof PI_upper. pose proof PI_lower.
  assert (Ha : 1 < a < b) by (unfold a, b; lra).
  set (X := x * exp (- x * x * (1 / 2))).
  replace (1 / 2 * (1 + Rerf (x / sqrt 2)) + X / sqrt b - (1 / 2 * (1 + Rerf (x / sqrt 2)) + X / sqrt a)) with (X * (/ sqrt b - / sqrt a)).
  2:{ unfold Rdiv. ring. }
  assert (Sa : 1 <= sqrt a) by (rewrite <- sqrt_1; apply sqrt_le_1; lra).
  assert (Sb : 1 <= sqrt b) by (rewrite <- sqrt_1; apply sqrt_le_1; lra).
  assert (Qa : sqrt a * sqrt a = a) by (apply sqrt_sqrt; lra).
  assert (Qb : sqrt b * sqrt b = b) by (apply sqrt_sqrt; lra).
  rewrite Rabs_mult. pose proof (gauss_le_1 x) as G. fold X in G. pose proof (Rabs_pos X).
  apply Rle_trans with (1 * (b - a)); [|unfold a, b; lra].
  apply Rmult_le_compat; auto using Rabs_pos.
  replace (/ sqrt b - / sqrt a) with (- ((b - a) / (sqrt a * sqrt b * (sqrt a + sqrt b)))).
  2:{ rewrite <- Qa at 1. rewrite <- Qb at 1. field. repeat split; lra. }
  assert (1 <= sqrt a * sqrt b * (sqrt a + sqrt b)) by nra.
  rewrite Rabs_Ropp, Rabs_pos_eq by (apply Rmult_le_pos; [lra|left; apply Rinv_0_lt_compat; lra]).
  apply Rmult_le_reg_r with (sqrt a * sqrt b * (sqrt a + sqrt b)); [lra|].
  unfold Rdiv. rewrite Rmult_assoc, Rinv_l, Rmult_1_r by lra. nra.
Qed.

Lemma derive_SoftSteps : forall jk x, exists l, is_derive (act_apply (ROps jk) ASoftSteps) x l /\
  Rabs (act_deriv (ROps jk) ASoftSteps x - l) <= 1 / 100000000.
Proof.
  intros jk x. act.
  set (A := 6283185307 / 1000000000). set (B := 159154943 / 1000000000).
  exists (1 - cos (x * A) * A * B). split.
  - der. fld.
  - replace (1 - cos (x * A) - (1 - cos (x * A) * A * B)) with (cos (x * A) * (A * B - 1)) by ring.
    rewrite Rabs_mult. pose proof (COS_bound (x * A)).
    apply Rle_trans with (1 * Rabs (A * B - 1)).
    + apply Rmult_le_compat_r; [apply Rabs_pos|]. apply Rabs_le. lra.
    + rewrite Rmult_1_l. apply Rabs_le. unfold A, B. lra.
Qed.

(** wrong derivatives *)
Lemma SQRBF_actual : forall jk x, -1 < x < 1 -> is_derive (act_apply (ROps jk) ASQRBF) x (- x) /\ act_deriv (ROps jk) ASQRBF x = 1 - x.
Proof.
  intros jk x Hx. split; [|act; br; lra].
  apply (is_derive_open _ (fun x => 1 - x * x * (1 / 2)) (-1) x 1); auto.
  - intros; act; br; lra.
  - der. fld.
Qed.
Lemma SQRBF_right : forall jk x, 1 < Rabs x -> goodAt jk ASQRBF x.
Proof.
  intros jk x Hx. unfold goodAt.
  set (g := fun x : R => x * x * (1 / 2) + 2 * x + 2). set (h := fun x : R => x * x * (1 / 2) - 2 * x + 2).
  assert (Q : x < -1 \/ 1 < x) by (revert Hx; unfold Rabs; destruct (Rcase_abs x); lra). clear Hx.
  destruct Q as [Q|Q].
  - destruct (Rtotal_order x (-2)) as [L|[L|L]].
    + apply (is_derive_lt _ (fun _ => 0) (-2)); [lra|agree|]. der. act; br; lra.
    + subst. apply (is_derive_glue _ (fun _ => 0) g (-2) 1); unfold g; [lra|intros; act; br; lra| |der; act; br; lra|der; act; br; lra].
      intros; act; br; try lra; replace x with (-2) by lra; lra.
    + apply (is_derive_open _ g (-2) x (-1)); [lra|unfold g; intros; act; br; lra|]. unfold g. der. act; br; lra.
  - destruct (Rtotal_order x 2) as [L|[L|L]].
    + apply (is_derive_open _ h 1 x 2); [lra|unfold h; intros; act; br; lra|]. unfold h. der. act; br; lra.
    + subst. apply (is_derive_glue _ h (fun _ => 0) 2 1); unfold h; [lra| |intros; act; br; lra|der; act; br; lra|der; act; br; lra].
      intros; act; br; try lra; replace x with 2 by lra; lra.
    + apply (is_derive_gt _ (fun _ => 0) 2); [lra|agree|]. der. act; br; lra.
Qed.
Lemma Logit_actual : forall jk x, 0 < x < 1 -> is_derive (act_apply (ROps jk) ALogit) x (1 / (x * (1 - x))) /\
  act_deriv (ROps jk) ALogit x = x / (1 - x).
Proof.
  intros jk x Hx. split; [|act; field; lra].
  act. der.
  - apply Rdiv_lt_0_compat; lra.
  - fld.
Qed.
Lemma SineReLU_actual : forall jk x, x < 0 -> is_derive (act_apply (ROps jk) ASineReLU) x (1 / 100 * (cos x + sin x)) /\
  act_deriv (ROps jk) ASineReLU x = 1 / 100 * (sin x - cos x).
Proof.
  intros jk x Hx. split; [|act; br; lra].
  apply (is_derive_lt _ (fun x => 1 / 100 * (sin x - cos x)) 0); auto.
  - intros; act; br; lra.
  - der. fld.
Qed.
Lemma SineReLU_right : forall jk x, 0 < x -> goodAt jk ASineReLU x.
Proof. intros jk x Hx. unfold goodAt. apply (is_derive_gt _ (fun x => x) 0); [lra|agree|]. der. act; br; lra. Qed.
Lemma TanhExp_actual : forall jk x, is_derive (act_apply (ROps jk) ATanhExp) x
    (Rtanh (exp x) - x * exp x * (Rtanh (exp x) * Rtanh (exp x) - 1)) /\
  act_deriv (ROps jk) ATanhExp x = x * Rtanh (exp x) - x * (x * Rtanh (exp x) * (x * Rtanh (exp x)) - 1).
Proof.
  intros jk x. split; [|reflexivity]. act. eapply is_derive_eq.
  - apply (is_derive_Rmult (fun x => x) (fun x => Rtanh (exp x))); [apply (is_derive_id x)|].
    apply (is_derive_Rcomp Rtanh exp); [apply is_derive_tanh|]. apply is_derive_Reals, derivable_pt_lim_exp.
  - change (@one R_AbsRing) with 1. match goal with |- ?a = ?b => change (@eq R a b) end. ring.
Qed.
