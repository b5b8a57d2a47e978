(* ActDeriv2.v - derivation is the derivative of apply: piecewise activations *)
From Coq Require Import Reals List Lra Lia ZArith.
From Coquelicot Require Import Coquelicot.
From Verif Require Import Scalar SpecReal RDeriv Act SpecAct ActDeriv.
Import ListNotations.
Local Open Scope R_scope.

Lemma d_SoftSign : forall jk x, goodAt jk ASoftSign x.
Proof.
  intros jk x; unfold goodAt.
  set (g := fun x : R => x / (1 + - x)). set (h := fun x : R => x / (1 + x)).
  destruct (Rtotal_order x 0) as [L|[L|L]].
  - apply (is_derive_lt _ g 0); [lra|unfold g; agree|]. unfold g. der. act; br. fld.
  - apply (is_derive_glue _ g h x 1); unfold g, h; [lra|..].
    + intros; act; br; [reflexivity|]. replace x0 with 0 by lra. lra.
    + agree.
    + der. act; br. subst. fld.
    + der. act; br. subst. fld.
  - apply (is_derive_gt _ h 0); [lra|unfold h; agree|]. unfold h. der. act; br. fld.
Qed.
Lemma d_Elliot : forall jk x, goodAt jk AElliot x.
Proof.
  intros jk x; unfold goodAt.
  eapply is_derive_eq.
  - apply (is_derive_Rplus (fun x => 1 / 2 * act_apply (ROps jk) ASoftSign x) (fun _ => 1 / 2)); [|apply (is_derive_const (1/2))].
    apply (is_derive_Rmult (fun _ => 1 / 2) (act_apply (ROps jk) ASoftSign)); [apply (is_derive_const (1/2)) | apply d_SoftSign].
  - change (@zero R_NormedModule) with 0. act. pose proof (Rabs_pos x).
    match goal with |- ?a = ?b => change (@eq R a b) end. field. lra.
Qed.
Lemma d_ISRLU : forall jk x, goodAt jk AISRLU x.
Proof.
  intros jk x; unfold goodAt.
  set (g := fun x : R => x / sqrt (1 + 1 * x * x)).
  assert (P : 0 < 1 + 1 * x * x) by nra. pose proof (sqrt_lt_R0 _ P).
  assert (Q : sqrt (1 + 1 * x * x) * sqrt (1 + 1 * x * x) = 1 + 1 * x * x) by (apply sqrt_sqrt; lra).
  assert (G : is_derive g x (1 / sqrt (1 + 1 * x * x) * (1 / sqrt (1 + 1 * x * x)) * (1 / sqrt (1 + 1 * x * x)))).
  { unfold g. der. match goal with |- ?a = ?b => change (@eq R a b) end.
    set (r := sqrt (1 + 1 * x * x)) in *. replace (x * x) with (r * r - 1) by lra.
    transitivity ((r * r - x * x) / (r * r * r)); [field; lra|]. replace (r * r - x * x) with 1 by lra. field. lra. }
  destruct (Rtotal_order x 0) as [L|[L|L]].
  - apply (is_derive_lt _ g 0); [lra|unfold g; agree|]. eapply is_derive_eq; [exact G|]. act; br. reflexivity.
  - apply (is_derive_glue _ g (fun x => x) x 1); [lra|..].
    + unfold g; intros; act; br; [|reflexivity]. replace x0 with 0 by lra. lra.
    + agree.
    + eapply is_derive_eq; [exact G|]. act; br. subst. replace (1 + 1 * 0 * 0) with 1 by lra. rewrite sqrt_1. lra.
    + der. act; br; lra.
  - apply (is_derive_gt _ (fun x => x) 0); [lra|agree|]. der. act; br. lra.
Qed.

(* a function made of four pieces, smooth at the joins: where = (join, left piece, right piece) *)
Lemma d_SmoothSigmoid : forall jk x, goodAt jk ASmoothSigmoid x.
Proof.
  intros jk x; unfold goodAt.
  set (g0 := fun _ : R => 0). set (g1 := fun x : R => 1 / 2 + x * (1 / 4) + x * x * (1 / 32)).
  set (g2 := fun x : R => 1 / 2 + x * (1 / 4) - x * x * (1 / 32)). set (g3 := fun _ : R => 1).
  destruct (Rtotal_order x (-4)) as [L|[L|L]]; [|subst|destruct (Rtotal_order x 0) as [M|[M|M]]; [|subst|destruct (Rtotal_order x 4) as [N|[N|N]]; [|subst|]]].
  - apply (is_derive_lt _ g0 (-4)); [lra|unfold g0; agree|]. unfold g0. der. act; br; lra.
  - apply (is_derive_glue _ g0 g1 (-4) 1); unfold g0, g1; [lra|intros; act; br; try lra; replace x with (-4) by lra; lra|agree|der; act; br; lra|der; act; br; lra].
  - apply (is_derive_open _ g1 (-4) x 0); [lra|unfold g1; agree|]. unfold g1. der. act; br; lra.
  - apply (is_derive_glue _ g1 g2 0 1); unfold g1, g2; [lra|agree|intros; act; br; try lra; replace x with 0 by lra; lra|der; act; br; lra|der; act; br; lra].
  - apply (is_derive_open _ g2 0 x 4); [lra|unfold g2; agree|]. unfold g2. der. act; br; lra.
  - apply (is_derive_glue _ g2 g3 4 1); unfold g2, g3; [lra|agree|intros; act; br; try lra; replace x with 4 by lra; lra|der; act; br; lra|der; act; br; lra].
  - apply (is_derive_gt _ g3 4); [lra|unfold g3; agree|]. unfold g3. der. act; br; lra.
Qed.
Lemma d_SmoothTanh : forall jk x, goodAt jk ASmoothTanh x.
Proof.
  intros jk x; unfold goodAt.
  set (g0 := fun _ : R => -1). set (g1 := fun x : R => x + x * x * (1 / 4)).
  set (g2 := fun x : R => x - x * x * (1 / 4)). set (g3 := fun _ : R => 1).
  destruct (Rtotal_order x (-2)) as [L|[L|L]]; [|subst|destruct (Rtotal_order x 0) as [M|[M|M]]; [|subst|destruct (Rtotal_order x 2) as [N|[N|N]]; [|subst|]]].
  - apply (is_derive_lt _ g0 (-2)); [lra|unfold g0; agree|]. unfold g0. der. act; br; lra.
  - apply (is_derive_glue _ g0 g1 (-2) 1); unfold g0, g1; [lra|intros; act; br; try lra; replace x with (-2) by lra; lra|agree|der; act; br; lra|der; act; br; lra].
  - apply (is_derive_open _ g1 (-2) x 0); [lra|unfold g1; agree|]. unfold g1. der. act; br; lra.
  - apply (is_derive_glue _ g1 g2 0 1); unfold g1, g2; [lra|agree|intros; act; br; try lra; replace x with 0 by lra; lra|der; act; br; lra|der; act; br; lra].
  - apply (is_derive_open _ g2 0 x 2); [lra|unfold g2; agree|]. unfold g2. der. act; br; lra.
  - apply (is_derive_glue _ g2 g3 2 1); unfold g2, g3; [lra|agree|intros; act; br; try lra; replace x with 2 by lra; lra|der; act; br; lra|der; act; br; lra].
  - apply (is_derive_gt _ g3 2); [lra|unfold g3; agree|]. unfold g3. der. act; br; lra.
Qed.
Lemma d_SQNL : forall jk x, goodAt jk ASQNL x.
Proof.
  intros jk x; unfold goodAt.
  set (g0 := fun _ : R => -1). set (g1 := fun x : R => x + x * x * (1 / 4)).
  set (g2 := fun x : R => x - x * x * (1 / 4)). set (g3 := fun _ : R => 1).
  destruct (Rtotal_order x (-2)) as [L|[L|L]]; [|subst|destruct (Rtotal_order x 0) as [M|[M|M]]; [|subst|destruct (Rtotal_order x 2) as [N|[N|N]]; [|subst|]]].
  - apply (is_derive_lt _ g0 (-2)); [lra|unfold g0; agree|]. unfold g0. der. act; br; lra.
  - apply (is_derive_glue _ g0 g1 (-2) 1); unfold g0, g1; [lra|agree|intros; act; br; try lra; replace x with (-2) by lra; lra|der; act; br; lra|der; act; br; lra].
  - apply (is_derive_open _ g1 (-2) x 0); [lra|unfold g1; agree|]. unfold g1. der. act; br; lra.
  - apply (is_derive_glue _ g1 g2 0 1); unfold g1, g2; [lra|intros; act; br; try lra; replace x with 0 by lra; lra|agree|der; act; br; lra|der; act; br; lra].
  - apply (is_derive_open _ g2 0 x 2); [lra|unfold g2; agree|]. unfold g2. der. act; br; lra.
  - apply (is_derive_glue _ g2 g3 2 1); unfold g2, g3; [lra|intros; act; br; try lra; replace x with 2 by lra; lra|agree|der; act; br; lra|der; act; br; lra].
  - apply (is_derive_gt _ g3 2); [lra|unfold g3; agree|]. unfold g3. der. act; br; lra.
Qed.
Lemma d_SmoothSoftPlus : forall jk x, goodAt jk ASmoothSoftPlus x.
Proof.
  intros jk x; unfold goodAt.
  set (g0 := fun _ : R => 0). set (g1 := fun x : R => x * x). set (g2 := fun x : R => x - 1 / 4).
  destruct (Rtotal_order x 0) as [L|[L|L]]; [|subst|destruct (Rtotal_order x (1/2)) as [M|[M|M]]; [|subst|]].
  - apply (is_derive_lt _ g0 0); [lra|unfold g0; agree|]. unfold g0. der. act; br; lra.
  - apply (is_derive_glue _ g0 g1 0 (1/2)); unfold g0, g1; [lra|intros; act; br; try lra; replace x with 0 by lra; lra|agree|der; act; br; lra|der; act; br; lra].
  - apply (is_derive_open _ g1 0 x (1/2)); [lra|unfold g1; agree|]. unfold g1. der. act; br; lra.
  - apply (is_derive_glue _ g1 g2 (1/2) (1/2)); unfold g1, g2; [lra|agree|intros; act; br; try lra; replace x with (1/2) by lra; lra|der; act; br; lra|der; act; br; lra].
  - apply (is_derive_gt _ g2 (1/2)); [lra|unfold g2; agree|]. unfold g2. der. act; br; lra.
Qed.

(* squeezed by a parabola: derivative 0 *)
Lemma is_derive_squeeze : forall (f : R -> R) a C r, 0 < r -> 0 <= C ->
  (forall x, Rabs (x - a) < r -> Rabs (f x - f a) <= C * ((x - a) * (x - a))) -> is_derive f a 0.
Proof.
  intros f a C r Hr HC H. apply is_derive_Reals. intros e He.
  assert (Hd : 0 < Rmin r (e / (C + 1))) by (apply Rmin_pos; auto; apply Rdiv_lt_0_compat; lra).
  exists (mkposreal _ Hd). intros t Ht Hl. simpl in Hl.
  assert (H1 : Rabs t < r) by (eapply Rlt_le_trans; [exact Hl|apply Rmin_l]).
  assert (H2 : Rabs t < e / (C + 1)) by (eapply Rlt_le_trans; [exact Hl|apply Rmin_r]).
  specialize (H (a + t)). replace (a + t - a) with t in H by ring. specialize (H H1).
  rewrite Rminus_0_r. unfold Rdiv. rewrite Rabs_mult, Rabs_inv.
  assert (P : 0 < Rabs t) by (apply Rabs_pos_lt; auto).
  apply Rle_lt_trans with (C * Rabs t).
  - apply Rmult_le_reg_r with (Rabs t); auto. rewrite Rmult_assoc, Rinv_l, Rmult_1_r by lra.
    rewrite Rmult_assoc, <- Rabs_mult. rewrite (Rabs_pos_eq (t * t)) by nra. exact H.
  - apply Rle_lt_trans with ((C + 1) * Rabs t); [nra|].
    apply Rmult_lt_reg_r with (/ (C + 1)); [apply Rinv_0_lt_compat; lra|].
    replace ((C + 1) * Rabs t * / (C + 1)) with (Rabs t) by (field; lra). exact H2.
Qed.

Lemma sin_cubic : forall x, 0 <= x <= 1 -> x - x * x * x / 6 <= sin x <= x.
Proof.
  intros x H. pose proof PI_RGT_0. pose proof PI2_1.
  assert (B : sin_lb x <= sin x <= sin_ub x) by (apply SIN; lra).
  destruct (pre_sin_bound x 0 ltac:(lra) ltac:(lra)) as [B1 B2].
  assert (E1 : sin_approx x (2 * 0 + 1) = x - x * x * x / 6).
  { unfold sin_approx. simpl. unfold sin_term. simpl. field. }
  assert (E2 : sin_approx x (2 * (0 + 1)) = x - x * x * x / 6 + x * x * x * x * x / 120).
  { unfold sin_approx. simpl. unfold sin_term. simpl. field. }
  rewrite E1 in B1. rewrite E2 in B2.
  assert (0 <= x * x * x) by (repeat apply Rmult_le_pos; lra).
  split; [lra|]. assert (x * x <= 1) by nra. assert (x * x * x * x * x <= x * x * x) by nra. lra.
Qed.

Lemma d_SinC : forall jk x, goodAt jk ASinC x.
Proof.
  intros jk x; unfold goodAt. destruct (Rtotal_order x 0) as [L|[L|L]].
  - apply (is_derive_lt _ (fun x => sin x / x) 0); [lra|agree|]. der. act; br. fld.
  - subst. eapply is_derive_eq; [apply (is_derive_squeeze _ 0 (1/6) 1); [lra|lra|]|act; br; reflexivity].
    intros x Hx. rewrite Rminus_0_r in *. apply Rabs_def2 in Hx. act.
    unfold Reqb. destruct (Req_EM_T 0 0); [|lra]. destruct (Req_EM_T x 0) as [E|E].
    + subst. replace (1 - 1) with 0 by ring. rewrite Rabs_R0. lra.
    + assert (K : forall y, 0 < y <= 1 -> 1 - y * y / 6 <= sin y / y <= 1).
      { intros y Hy. pose proof (sin_cubic y ltac:(lra)). split.
        - apply Rmult_le_reg_r with y; [lra|]. unfold Rdiv at 2. rewrite (Rmult_assoc (sin y)), Rinv_l by lra. lra.
        - apply Rmult_le_reg_r with y; [lra|]. unfold Rdiv. rewrite Rmult_assoc, Rinv_l by lra. lra. }
      destruct (Rlt_le_dec 0 x).
      * pose proof (K x ltac:(lra)). apply Rabs_le. lra.
      * pose proof (K (- x) ltac:(lra)) as Q. rewrite sin_neg in Q. replace (- sin x / - x) with (sin x / x) in Q by (field; lra).
        apply Rabs_le. lra.
  - apply (is_derive_gt _ (fun x => sin x / x) 0); [lra|agree|]. der. act; br. fld.
Qed.

Lemma exp_ge_sq : forall u, 0 <= u -> u * u / 4 <= exp u.
Proof.
  intros u Hu. replace u with (u / 2 + u / 2) at 3 by lra. rewrite exp_plus.
  assert (1 + u / 2 <= exp (u / 2)).
  { destruct (Req_dec u 0). subst. replace (0 / 2) with 0 by lra. rewrite exp_0. lra. left. apply exp_ineq1. lra. }
  nra.
Qed.

Lemma d_Bump : forall jk x, goodAt jk ABump x.
Proof.
  intros jk x; unfold goodAt.
  set (g := fun x : R => exp (- (1) / (1 - x * x))).
  assert (B : forall a, a = 1 \/ a = -1 -> is_derive (act_apply (ROps jk) ABump) a 0).
  { intros a Ha. apply (is_derive_squeeze _ a 36 1); [lra|lra|]. intros y Hy. apply Rabs_def2 in Hy.
    assert (Z0 : act_apply (ROps jk) ABump a = 0) by (destruct Ha; subst; act; br; lra). rewrite Z0, Rminus_0_r.
    act. unfold Rltb. destruct (Rlt_dec (Rabs y) 1) as [Y|Y].
    - apply Rabs_def2 in Y. assert (P : 0 < 1 - y * y) by nra.
      rewrite Rabs_pos_eq by (left; apply exp_pos).
      set (u := / (1 - y * y)). assert (Pu : 0 < u) by (apply Rinv_0_lt_compat; auto).
      replace (- (1) / (1 - y * y)) with (- u) by (unfold u; field; lra).
      rewrite exp_Ropp. pose proof (exp_ge_sq u ltac:(lra)) as G. pose proof (exp_pos u).
      apply Rle_trans with (4 * ((1 - y * y) * (1 - y * y))).
      + replace (4 * ((1 - y * y) * (1 - y * y))) with (/ (u * u / 4)) by (unfold u; field; lra).
        apply Rinv_le_contravar; [|exact G]. assert (0 < u * u) by nra. lra.
      + destruct Ha; subst a.
        * replace (1 - y * y) with (- (y - 1) * (1 + y)) by ring. assert (0 <= (1 + y) * (1 + y) <= 4) by nra.
          pose proof (Rle_0_sqr (y - 1)). unfold Rsqr in *. nra.
        * replace (1 - y * y) with ((y - -1) * (1 - y)) by ring. assert (0 <= (1 - y) * (1 - y) <= 4) by nra.
          pose proof (Rle_0_sqr (y - -1)). unfold Rsqr in *. nra.
    - rewrite Rabs_R0. pose proof (Rle_0_sqr (y - a)). unfold Rsqr in *. lra. }
  destruct (Rtotal_order x (-1)) as [L|[L|L]]; [|subst|destruct (Rtotal_order x 1) as [M|[M|M]]; [|subst|]].
  - apply (is_derive_lt _ (fun _ => 0) (-1)); [lra|agree|]. der. act; br; lra.
  - eapply is_derive_eq; [apply B; auto|]. act; br; lra.
  - assert (P : 0 < 1 - x * x) by nra.
    apply (is_derive_open _ g (-1) x 1); [lra|unfold g; agree|]. unfold g.
    eapply is_derive_eq.
    { apply (is_derive_Rcomp exp (fun x => - (1) / (1 - x * x))); [apply is_derive_Reals, derivable_pt_lim_exp|].
      instantiate (1 := - (2) * x / ((1 - x * x) * (1 - x * x))). auto_derive; [lra|]. fld. }
    assert (E : 1 / (x * x - 1) = - (1) / (1 - x * x)) by (field; lra).
    act. rewrite E. unfold Rltb.
    destruct (Rlt_dec (Rabs x) 1) as [Y|Y]; [|exfalso; apply Y; apply Rabs_def1; lra].
    fld.
  - eapply is_derive_eq; [apply B; auto|]. act; br; lra.
  - apply (is_derive_gt _ (fun _ => 0) 1); [lra|agree|]. der. act; br; lra.
Qed.
