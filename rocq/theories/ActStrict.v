(* ActStrict.v - which of the monotone activations are strictly increasing *)
From Coq Require Import Reals List Lra Lia ZArith String Bool.
From Coquelicot Require Import Coquelicot.
From Verif Require Import Scalar SpecReal RDeriv Loss Act SpecAct ActDeriv ActDeriv2 ActDeriv3 ActDeriv4 ActProofs ActMono SpecClass.
Import ListNotations.
Local Open Scope R_scope.

Lemma strict_deriv : forall (f f' : R -> R), (forall x, is_derive f x (f' x)) -> (forall x, 0 < f' x) -> forall x y, x < y -> f x < f y.
Proof.
  intros f f' D P x y H.
  destruct (MVT_gen f x y f') as [c [Hc E]].
  - intros; apply D.
  - intros z _. apply derivable_continuous_pt. exists (f' z). apply is_derive_Reals, D.
  - pose proof (P c). nra.
Qed.
Lemma strict_smooth : forall jk k, ~ odd_derivative k -> corners k = [] -> (forall x, 0 < act_deriv (ROps jk) k x) ->
  forall x y, x < y -> act_apply (ROps jk) k x < act_apply (ROps jk) k y.
Proof.
  intros jk k Hk C P. apply (strict_deriv (act_apply (ROps jk) k) (act_deriv (ROps jk) k)); auto.
  intros z. apply act_derivative; auto. rewrite C. auto.
Qed.
Lemma div_pos : forall a b, 0 < a -> 0 < b -> 0 < a / b.
Proof. intros. apply Rmult_lt_0_compat; auto. apply Rinv_0_lt_compat. auto. Qed.
Ltac st := apply strict_smooth; auto; [unfold odd_derivative; cbn [In]; intros QQ; repeat (destruct QQ as [QQ|QQ]; [discriminate QQ|]); exact QQ | let z := fresh "z" in intro z; pose proof (exp_pos z); pose proof (exp_pos (- z)); act ].
Lemma Rtanh_nz : forall c, c <> 0 -> 0 < Rtanh c * Rtanh c.
Proof.
  intros c Hc. assert (Rtanh c <> 0). 2:{ nra. } unfold Rtanh. intro E. pose proof (exp_pos c). pose proof (exp_pos (- c)).
  assert (Q : exp c - exp (- c) = 0). { replace (exp c - exp (- c)) with ((exp c - exp (- c)) / (exp c + exp (- c)) * (exp c + exp (- c))) by (field; lra). rewrite E. ring. }
  destruct (Rtotal_order c 0) as [L|[L|L]]; [|auto|]; [pose proof (exp_increasing c (- c) ltac:(lra))|pose proof (exp_increasing (- c) c ltac:(lra))]; lra.
Qed.
Lemma shrink_strict : forall jk x y, x < y -> act_apply (ROps jk) ATanhShrink x < act_apply (ROps jk) ATanhShrink y.
Proof.
  intros jk. set (f := act_apply (ROps jk) ATanhShrink). set (f' := act_deriv (ROps jk) ATanhShrink).
  assert (D : forall z, is_derive f z (f' z)). { intro z. apply act_derivative; auto. unfold odd_derivative; cbn [In]; intros QQ; repeat (destruct QQ as [QQ|QQ]; [discriminate QQ|]); exact QQ. }
  assert (M : forall x y, x <= y -> f x <= f y) by (intros; apply act_monotone; auto; unfold monotone_kinds; cbn [In]; tauto).
  assert (G : forall x y, x < y -> 0 < x \/ y < 0 -> f x < f y).
  { intros x y H S. destruct (MVT_gen f x y f') as [c [Hc E]]; [intros; apply D|intros z _; apply derivable_continuous_pt; exists (f' z); apply is_derive_Reals, D|].
    rewrite Rmin_left, Rmax_right in Hc by lra. assert (P : 0 < f' c) by (apply Rtanh_nz; lra). nra. }
  intros x y H. destruct (Rlt_dec 0 y).
  - apply Rle_lt_trans with (f ((Rmax x 0 + y) / 2)); [apply M|apply G]; unfold Rmax; destruct (Rle_dec x 0); lra.
  - apply Rlt_le_trans with (f ((x + y) / 2)); [apply G|apply M]; lra.
Qed.
Lemma act_strict : forall jk k, In k strict_kinds -> forall x y, x < y -> act_apply (ROps jk) k x < act_apply (ROps jk) k y.
Proof.
  intros jk k Hk.
  assert (M : existsb (fun a => if actKind_dec k a then true else false) strict_kinds = true).
  { apply existsb_exists. exists k. split; auto. destruct (actKind_dec k k); auto. }
  clear Hk. destruct k; try (exfalso; vm_compute in M; discriminate M); clear M.
  all: try (intros x y Hxy; act; br; lra).
  - (* Asinh *) st. apply div_pos; [lra|]. apply sqrt_lt_R0. nra.
  - st. apply div_pos; nra.
  - (* Bent *) st. assert (P : 0 < z * z + 1) by nra. pose proof (sqrt_lt_R0 _ P).
    assert (Q : sqrt (z * z + 1) * sqrt (z * z + 1) = z * z + 1) by (apply sqrt_sqrt; lra).
    assert (-1 < z / (2 / 1 * sqrt (z * z + 1)) < 1) by (apply frac_bounds; nra). lra.
  - st. apply div_pos; nra.
  - (* CELU *) st. unfold Rleb. destruct (Rle_dec 0 z); [lra|]. apply exp_pos.
  - st. apply exp_pos.
  - (* Elliot *) st. pose proof (Rabs_pos z). apply div_pos; nra.
  - (* ELU *) st. br; lra.
  - st. lra.
  - (* E2RU *) st. unfold Rleb. destruct (Rle_dec 0 z).
    + apply div_pos; [lra|]. apply sqrt_lt_R0. nra.
    + pose proof (exp_pos (2 / 1 * z)). lra.
  - (* E3RU *) st. unfold Rleb. destruct (Rle_dec 0 z).
    + rewrite Rpow_pos by lra. pose proof (Rpower_gt_0 (3 / 1 * (3 / 1) * z + 1) (- (2 / 1) / (3 / 1))). lra.
    + pose proof (exp_pos (3 / 1 * z)). lra.
  - (* ISRLU *) st. unfold Rleb. destruct (Rle_dec 0 z); [lra|]. assert (P : 0 < 1 + 1 * z * z) by nra. pose proof (sqrt_lt_R0 _ P).
    assert (0 < 1 / sqrt (1 + 1 * z * z)) by (apply div_pos; lra). apply Rmult_lt_0_compat; [apply Rmult_lt_0_compat|]; assumption.
  - (* LecunTanh *) st. pose proof (Rcosh_pos (z * (666666 / 1000000))). apply div_pos; nra.
  - st. apply div_pos; lra.
  - (* O2RU *) st. unfold Rleb. destruct (Rle_dec 0 z); (apply div_pos; [lra|]; apply sqrt_lt_R0; nra).
  - (* O3RU *) st. unfold Rleb. destruct (Rle_dec 0 z); rewrite Rpow_pos by lra.
    + pose proof (Rpower_gt_0 (3 / 1 * (3 / 1) * z + 1) (- (2 / 1) / (3 / 1))). lra.
    + pose proof (Rpower_gt_0 (- (3 / 1) * (3 / 1) * z + 1) (- (2 / 1) / (3 / 1))). lra.
  - (* Selu *) intros x y H; act; unfold Rleb. pose proof (exp_pos x).
    destruct (Rle_dec 0 x), (Rle_dec 0 y); try lra.
    + pose proof (exp_neg_lt_1 x ltac:(lra)). lra.
    + pose proof (exp_increasing x y H). lra.
  - st. apply div_pos; lra.
  - (* SoftSign *) st. pose proof (Rabs_pos z). apply div_pos; nra.
  - (* SoftSteps *)
    intros x y.
    apply (strict_deriv (act_apply (ROps jk) ASoftSteps) (fun x => 1 - cos (x * (6283185307 / 1000000000)) * (6283185307 / 1000000000) * (159154943 / 1000000000))).
    + intro z. act. der. fld.
    + intro z. pose proof (COS_bound (z * (6283185307 / 1000000000))). lra.
  - st. assert (0 < 1 / (1 + exp (- z)) < 1) by (apply frac01; lra). nra.
  - st. pose proof (Rtanh_bound z). nra.
  - apply shrink_strict.
Qed.
(* the other monotone activations are constant somewhere *)
Lemma act_flat : forall jk k, In k monotone_kinds -> ~ In k strict_kinds -> exists x y, x < y /\ act_apply (ROps jk) k x = act_apply (ROps jk) k y.
Proof.
  intros jk k Hk Hs.
  assert (M : existsb (fun a => if actKind_dec k a then true else false) monotone_kinds = true).
  { apply existsb_exists. exists k. split; auto. destruct (actKind_dec k k); auto. }
  assert (N : existsb (fun a => if actKind_dec k a then true else false) strict_kinds = false).
  { apply not_true_iff_false. intro E. apply existsb_exists in E. destruct E as (a & Ha & E). destruct (actKind_dec k a) as [->|]; [auto|discriminate]. }
  clear Hk Hs. destruct k; try (exfalso; vm_compute in M; discriminate M); try (exfalso; vm_compute in N; discriminate N); clear M N.
  all: try (exists (-8), (-7); split; [lra|]; act; br; lra).
  all: exists (-1/4), 0; split; [lra|]; act; br; lra.
Qed.
Theorem strict_iff : forall jk k, In k monotone_kinds -> (In k strict_kinds <-> forall x y : R, (x < y)%R -> (act_apply (ROps jk) k x < act_apply (ROps jk) k y)%R).
Proof.
  intros jk k Hk. split; [apply act_strict|]. intro H. destruct (in_dec actKind_dec k strict_kinds) as [|Hn]; auto. exfalso. destruct (act_flat jk k Hk Hn) as (x & y & L & E). pose proof (H x y L) as P. rewrite E in P. lra.
Qed.
