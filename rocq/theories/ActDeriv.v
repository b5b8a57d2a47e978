(* ActDeriv.v - derivation is the derivative of apply *)
From Coq Require Import Reals List Lra Lia ZArith.
From Coquelicot Require Import Coquelicot.
From Verif Require Import Scalar SpecReal RDeriv Act SpecAct.
Import ListNotations.
Local Open Scope R_scope.

Lemma is_derive_neg : forall a, is_derive (fun x : R => - x) a (-1).
Proof. intros. auto_derive; auto; lra. Qed.

(** non-differentiability *)
Lemma derive_uniq_left : forall (f g : R -> R) a r l m, 0 < r ->
  (forall x, a - r < x <= a -> f x = g x) -> is_derive f a l -> is_derive g a m -> l = m.
Proof.
  intros f g a r l m Hr E Df Dg. destruct (Req_dec l m) as [|N]; auto. exfalso.
  apply is_derive_Reals in Df, Dg.
  assert (He : 0 < Rabs (l - m) / 2) by (assert (0 < Rabs (l - m)) by (apply Rabs_pos_lt; lra); lra).
  destruct (Df _ He) as [d1 H1]. destruct (Dg _ He) as [d2 H2].
  pose proof (cond_pos d1). pose proof (cond_pos d2).
  set (t := - (Rmin (Rmin d1 d2) r / 2)).
  assert (Hm : 0 < Rmin (Rmin d1 d2) r) by (repeat apply Rmin_pos; auto).
  pose proof (Rmin_l (Rmin d1 d2) r). pose proof (Rmin_r (Rmin d1 d2) r).
  pose proof (Rmin_l d1 d2). pose proof (Rmin_r d1 d2).
  assert (Ht : Rabs t = Rmin (Rmin d1 d2) r / 2) by (unfold t; rewrite Rabs_Ropp, Rabs_pos_eq by lra; auto).
  assert (Htl : t < 0) by (unfold t; lra).
  specialize (H1 t ltac:(lra) ltac:(lra)). specialize (H2 t ltac:(lra) ltac:(lra)).
  rewrite (E (a + t)), (E a) in H1 by (unfold t in *; lra).
  pose proof (Rabs_triang_inv2 ((g (a + t) - g a) / t - m) ((g (a + t) - g a) / t - l)).
  replace ((g (a + t) - g a) / t - m - ((g (a + t) - g a) / t - l)) with (l - m) in H7 by ring.
  assert (Rabs (l - m) <= Rabs ((g (a + t) - g a) / t - m) + Rabs ((g (a + t) - g a) / t - l)).
  { replace (l - m) with (((g (a + t) - g a) / t - m) + - ((g (a + t) - g a) / t - l)) at 1 by ring.
    eapply Rle_trans; [apply Rabs_triang|]. rewrite Rabs_Ropp. lra. }
  lra.
Qed.

Lemma derive_uniq_right : forall (f g : R -> R) a r l m, 0 < r ->
  (forall x, a <= x < a + r -> f x = g x) -> is_derive f a l -> is_derive g a m -> l = m.
Proof.
  intros f g a r l m Hr E Df Dg.
  assert (M : forall (h : R -> R) c, is_derive h a c -> is_derive (fun x => h (- x)) (- a) (- c)).
  { intros h c D. eapply is_derive_eq.
    - apply (is_derive_Rcomp h (fun x => - x)); [rewrite Ropp_involutive; exact D|].
      apply is_derive_neg.
    - match goal with |- ?a = ?b => change (@eq R a b) end. ring. }
  assert (Q : - l = - m :> R).
  { apply (derive_uniq_left (fun x => f (- x)) (fun x => g (- x)) (- a) r); auto.
    intros x Hx. apply E. lra. }
  apply (f_equal Ropp) in Q. rewrite !Ropp_involutive in Q. exact Q.
Qed.

Lemma corner_not_derivable : forall (f g h : R -> R) a r l m, 0 < r ->
  (forall x, a - r < x <= a -> f x = g x) -> (forall x, a <= x < a + r -> f x = h x) ->
  is_derive g a l -> is_derive h a m -> l <> m -> ~ ex_derive f a.
Proof.
  intros f g h a r l m Hr Eg Eh Dg Dh N [d D]. apply N.
  rewrite <- (derive_uniq_left f g a r d l), <- (derive_uniq_right f h a r d m); auto.
Qed.

(* a jump: next to a the function agrees with something continuous of another value at a *)
Lemma jump_right : forall (f h : R -> R) a r, 0 < r ->
  (forall x, a < x < a + r -> f x = h x) -> ex_derive h a -> f a <> h a -> ~ ex_derive f a.
Proof.
  intros f h a r Hr E Dh N Df.
  apply ex_derive_continuous in Df, Dh.
  assert (He : 0 < Rabs (f a - h a) / 2) by (assert (0 < Rabs (f a - h a)) by (apply Rabs_pos_lt; lra); lra).
  apply continuity_pt_filterlim in Df, Dh.
  destruct (Df _ He) as [d1 [P1 H1]]. destruct (Dh _ He) as [d2 [P2 H2]].
  set (t := Rmin (Rmin d1 d2) r / 2).
  assert (Hm : 0 < Rmin (Rmin d1 d2) r) by (repeat apply Rmin_pos; auto).
  pose proof (Rmin_l (Rmin d1 d2) r). pose proof (Rmin_r (Rmin d1 d2) r).
  pose proof (Rmin_l d1 d2). pose proof (Rmin_r d1 d2).
  assert (Rabs t = t) by (unfold t; rewrite Rabs_pos_eq; lra).
  simpl in *. unfold R_dist in *.
  assert (K : forall d, t < d -> D_x no_cond a (a + t) /\ Rabs (a + t - a) < d).
  { intros d Hd. split. split; [exact I | unfold t; lra]. replace (a + t - a) with t by ring. lra. }
  specialize (H1 (a + t) (K d1 ltac:(unfold t; lra))). specialize (H2 (a + t) (K d2 ltac:(unfold t; lra))).
  rewrite E in H1 by (unfold t; lra).
  assert (Rabs (f a - h a) <= Rabs (h (a + t) - h a) + Rabs (h (a + t) - f a)).
  { replace (f a - h a) with ((h (a + t) - h a) + - (h (a + t) - f a)) at 1 by ring.
    eapply Rle_trans; [apply Rabs_triang|]. rewrite Rabs_Ropp. lra. }
  lra.
Qed.

Lemma jump_left : forall (f h : R -> R) a r, 0 < r ->
  (forall x, a - r < x < a -> f x = h x) -> ex_derive h a -> f a <> h a -> ~ ex_derive f a.
Proof.
  intros f h a r Hr E Dh N Df.
  assert (M : forall (h : R -> R), ex_derive h a -> ex_derive (fun x => h (- x)) (- a)).
  { intros g [c D]. exists (c * -1).
    apply (is_derive_Rcomp g (fun x => - x)); [rewrite Ropp_involutive; exact D|].
    apply is_derive_neg. }
  apply (jump_right (fun x => f (- x)) (fun x => h (- x)) (- a) r); auto.
  - intros; apply E; lra.
  - rewrite Ropp_involutive. auto.
Qed.

(** one lemma for each activation *)
Ltac act := unfold act_apply, act_deriv, piLit, seluL, seluA, twoPi, invTwoPi in *;
  cbn [T f0 f1 fadd fsub fmul fdiv fopp fabs flt fle feq flm fpow flit ROps Rlibm] in *.
(* settle the comparisons of the model by linear arithmetic *)
Ltac br := unfold Rltb, Rleb, Reqb, Rabs in *;
  repeat match goal with
  | |- context [Rcase_abs ?a] => destruct (Rcase_abs a); try (exfalso; lra)
  | |- context [Rlt_dec ?a ?b] => destruct (Rlt_dec a b); try (exfalso; lra)
  | |- context [Rle_dec ?a ?b] => destruct (Rle_dec a b); try (exfalso; lra)
  | |- context [Req_EM_T ?a ?b] => destruct (Req_EM_T a b); try (exfalso; lra)
  end.
Ltac exps x := pose proof (exp_pos x); pose proof (exp_pos (- x)); pose proof (exp_inv_mult x).
Ltac nz := repeat split; try (apply Rgt_not_eq; lra); try (apply Rlt_not_eq; lra); try (apply Rgt_not_eq); try lra; auto.

Definition goodAt (jk : R) (k : actKind) (x : R) : Prop := is_derive (act_apply (ROps jk) k) x (act_deriv (ROps jk) k x).

Ltac smooth := intros jk x; unfold goodAt; act; exps x;
  match goal with |- is_derive ?f ?x ?l => eapply (is_derive_eq f x) end;
  [ auto_derive; nz | ].

Lemma d_Asinh : forall jk x, goodAt jk AAsinh x.
Proof.
  intros jk x. unfold goodAt. act. unfold Rasinh.
  assert (0 < x * x + 1) by nra. pose proof (sqrt_lt_R0 _ H).
  assert (sqrt (x * x + 1) * sqrt (x * x + 1) = x * x + 1) by (apply sqrt_sqrt; lra).
  assert (0 < x + sqrt (x * x + 1)) by nra.
  eapply is_derive_eq. auto_derive; nz. replace (1 + x * x) with (x * x + 1) by ring. field. lra.
Qed.
Lemma d_Atan : forall jk x, goodAt jk AAtan x.
Proof. intros jk x. unfold goodAt. act. apply is_derive_Reals. replace (1 + x * x) with (1 + x ^ 2) by ring. unfold Rdiv. rewrite Rmult_1_l. apply derivable_pt_lim_atan. Qed.
Lemma d_Bent : forall jk x, goodAt jk ABent x.
Proof.
  intros jk x. unfold goodAt. act.
  assert (0 < x * x + 1) by nra. pose proof (sqrt_lt_R0 _ H).
  eapply is_derive_eq. auto_derive; nz. field. lra.
Qed.
Lemma d_BipolarSigmoid : forall jk x, goodAt jk ABipolarSigmoid x.
Proof. smooth. field. lra. Qed.
Lemma d_ComplementaryLogLog : forall jk x, goodAt jk AComplementaryLogLog x.
Proof. smooth. replace (x - exp x) with (x + - exp x) by ring. rewrite exp_plus. ring. Qed.
Lemma d_DivideBy256 : forall jk x, goodAt jk ADivideBy256 x.
Proof. smooth. lra. Qed.
Lemma d_dSiLU : forall jk x, goodAt jk AdSiLU x.
Proof. smooth. field. lra. Qed.
Lemma d_Eswish : forall jk x, goodAt jk AEswish x.
Proof. smooth. field. lra. Qed.
Lemma d_Exponential : forall jk x, goodAt jk AExponential x.
Proof. smooth. ring. Qed.
Lemma d_Gauss : forall jk x, goodAt jk AGauss x.
Proof. smooth. match goal with |- ?a = ?b => change (@eq R a b) end. field. Qed.
Lemma d_Identity : forall jk x, goodAt jk AIdentity x.
Proof. smooth. ring. Qed.
Lemma d_LecunTanh : forall jk x, goodAt jk ALecunTanh x.
Proof.
  intros jk x. unfold goodAt. act. unfold Rtanh, Rcosh.
  set (c := 666666 / 1000000). pose proof (exp_sum_pos (x * c)). pose proof (exp_inv_mult (x * c)).
  eapply is_derive_eq. auto_derive; nz.
  set (p := exp (x * c)) in *. set (q := exp (- (x * c))) in *.
  match goal with |- ?a = ?b => change (@eq R a b) end.
  replace (17159 / 10000 * c) with (17159 / 10000 * c * (p * q)) by (rewrite H0; ring). field. lra.
Qed.
Ltac fld := match goal with |- ?a = ?b => change (@eq R a b) end; field; nz.
Lemma d_LiSHT : forall jk x, goodAt jk ALiSHT x.
Proof. intros jk x; unfold goodAt; act. unfold Rtanh. exps x. eapply is_derive_eq; [auto_derive; nz|]. fld. Qed.
Lemma d_LogSigmoid : forall jk x, goodAt jk ALogSigmoid x.
Proof.
  intros jk x; unfold goodAt; act. exps x.
  eapply is_derive_eq; [auto_derive; nz|].
  - unfold Rdiv. rewrite Rmult_1_l. apply Rinv_0_lt_compat. lra.
  - replace (exp x) with (/ exp (- x)) by (rewrite <- exp_Ropp; f_equal; ring). fld.
Qed.
Lemma d_Mish : forall jk x, goodAt jk AMish x.
Proof.
  intros jk x; unfold goodAt; act. exps x.
  eapply is_derive_eq.
  - apply (is_derive_Rmult (fun x => x) (fun x => Rtanh (ln (1 + exp x)))); [apply (is_derive_id x)|].
    apply (is_derive_Rcomp Rtanh (fun x => ln (1 + exp x))); [apply is_derive_tanh|].
    instantiate (1 := exp x / (1 + exp x)). auto_derive; [lra|]. fld.
  - match goal with |- ?a = ?b => change (@eq R a b) end. change (@one R_AbsRing) with 1.
    assert (E : forall p, 1 - Rtanh p * Rtanh p = 1 / Rcosh p * (1 / Rcosh p)).
    { intro p. unfold Rtanh, Rcosh. pose proof (exp_sum_pos p). pose proof (exp_inv_mult p) as M.
      set (a := exp p) in *. set (b := exp (- p)) in *.
      transitivity (4 * (a * b) / ((a + b) * (a + b))); [field; lra|]. rewrite M. field. lra. }
    rewrite E. pose proof (Rcosh_pos (ln (1 + exp x))). field. lra.
Qed.
Lemma d_SoftPlus : forall jk x, goodAt jk ASoftPlus x.
Proof.
  intros jk x; unfold goodAt; act. exps x.
  eapply is_derive_eq; [auto_derive; nz|].
  replace (exp (- x)) with (/ exp x) by (rewrite <- exp_Ropp; f_equal; ring). fld.
Qed.
Lemma d_Sigmoid : forall jk x, goodAt jk ASigmoid x.
Proof. smooth. fld. Qed.
Lemma d_SiLU : forall jk x, goodAt jk ASiLU x.
Proof. smooth. fld. Qed.
Lemma d_Swish : forall jk x, goodAt jk ASwish x.
Proof. smooth. fld. Qed.
Lemma d_Sin : forall jk x, goodAt jk ASin x.
Proof. smooth. fld. Qed.
Lemma d_Tanh : forall jk x, goodAt jk ATanh x.
Proof. intros jk x; unfold goodAt; act. apply is_derive_tanh. Qed.
Lemma d_TanhShrink : forall jk x, goodAt jk ATanhShrink x.
Proof.
  intros jk x; unfold goodAt; act.
  eapply is_derive_eq; [apply (is_derive_Rminus (fun x => x) Rtanh); [apply (is_derive_id x) | apply is_derive_tanh]|].
  change (@one R_AbsRing) with 1. match goal with |- ?a = ?b => change (@eq R a b) end. ring.
Qed.

(** piecewise, smooth everywhere *)
Ltac der := match goal with |- is_derive ?f ?x ?l => eapply (is_derive_eq f x) end; [auto_derive; nz | ].
(* agreement with a branch *)
Ltac agree := intros; act; br; try reflexivity; try lra; try (field; nz); try nra.

Lemma dv1 : forall x, x / 1 = x.
Proof. intros. field. Qed.
Lemma d_CELU : forall jk x, goodAt jk ACELU x.
Proof.
  intros jk x; unfold goodAt. destruct (Rtotal_order x 0) as [H|[H|H]].
  - apply (is_derive_lt _ (fun x => exp x - 1) 0); [lra|intros; act; br; rewrite dv1; ring|]. der. act; br. rewrite dv1. fld.
  - subst. apply (is_derive_glue _ (fun x => exp x - 1) (fun x => x) 0 1); [lra|..].
    + intros; act; br; rewrite ?dv1; [|ring]. replace x with 0 by lra. rewrite exp_0. lra.
    + agree.
    + der. act; br. rewrite exp_0. lra.
    + der. act; br; lra.
  - apply (is_derive_gt _ (fun x => x) 0); [lra|agree|]. der. act; br; lra.
Qed.
Lemma d_ELU : forall jk x, goodAt jk AELU x.
Proof.
  intros jk x; unfold goodAt. destruct (Rtotal_order x 0) as [H|[H|H]].
  - apply (is_derive_lt _ (fun x => exp x - 1) 0); [lra|agree|]. der. act; br. fld.
  - subst. apply (is_derive_glue _ (fun x => exp x - 1) (fun x => x) 0 1); [lra|..].
    + agree. replace x with 0 by lra. rewrite exp_0. lra.
    + agree.
    + der. act; br. rewrite exp_0. lra.
    + der. act; br; lra.
  - apply (is_derive_gt _ (fun x => x) 0); [lra|agree|]. der. act; br; lra.
Qed.
Lemma d_ELiSH : forall jk x, goodAt jk AELiSH x.
Proof.
  intros jk x; unfold goodAt. exps x. destruct (Rtotal_order x 0) as [L|[L|L]].
  - apply (is_derive_lt _ (fun x => (1 / exp (- x) - 1) / (1 + exp (- x))) 0); [lra|agree|]. der. act; br. fld.
  - subst. apply (is_derive_glue _ (fun x => (1 / exp (- x) - 1) / (1 + exp (- x))) (fun x => x / (1 + exp (- x))) 0 1); [lra|..].
    + agree. replace x with 0 by lra. rewrite Ropp_0, exp_0. lra.
    + agree.
    + der. act; br. rewrite Ropp_0, exp_0. lra.
    + der. act; br. rewrite Ropp_0, exp_0. lra.
  - apply (is_derive_gt _ (fun x => x / (1 + exp (- x))) 0); [lra|agree|]. der. act; br; fld.
Qed.
Lemma d_E2RU : forall jk x, goodAt jk AE2RU x.
Proof.
  intros jk x; unfold goodAt. destruct (Rtotal_order x 0) as [L|[L|L]].
  - apply (is_derive_lt _ (fun x => exp (x * (2 / 1)) - 1 / 2) 0); [lra|agree|]. der. act; br.
    replace (2 / 1 * x) with (x * (2 / 1)) by ring. fld.
  - subst. apply (is_derive_glue _ (fun x => exp (x * (2 / 1)) - 1 / 2) (fun x => sqrt (2 / 1 * (2 / 1) * x + 1) - 1 / 2) 0 1); [lra|..].
    + agree. replace x with 0 by lra. rewrite Rmult_0_r, Rplus_0_l, sqrt_1, Rmult_0_l, exp_0. lra.
    + agree.
    + der. act; br. rewrite Rmult_0_r, Rplus_0_l, sqrt_1, Rmult_0_l, exp_0. lra.
    + der. act; br. rewrite Rmult_0_r, Rplus_0_l, sqrt_1. lra.
  - assert (0 < 2 / 1 * (2 / 1) * x + 1) by nra. pose proof (sqrt_lt_R0 _ H).
    apply (is_derive_gt _ (fun x => sqrt (2 / 1 * (2 / 1) * x + 1) - 1 / 2) 0); [lra|agree|]. der. act; br. fld.
Qed.
Lemma d_O2RU : forall jk x, goodAt jk AO2RU x.
Proof.
  intros jk x; unfold goodAt.
  set (g := fun x => - sqrt (- (2 / 1) * (2 / 1) * x + 1) + 1). set (h := fun x => sqrt (2 / 1 * (2 / 1) * x + 1) - 1).
  destruct (Rtotal_order x 0) as [L|[L|L]].
  - assert (0 < - (2 / 1) * (2 / 1) * x + 1) by nra. pose proof (sqrt_lt_R0 _ H).
    apply (is_derive_lt _ g 0); [lra|unfold g; agree|]. unfold g. der. act; br. fld.
  - subst. apply (is_derive_glue _ g h 0 1); unfold g, h; [lra|..].
    + agree. replace x with 0 by lra. rewrite !Rmult_0_r, Rplus_0_l, sqrt_1. lra.
    + agree.
    + der. act; br. rewrite !Rmult_0_r, Rplus_0_l, sqrt_1. lra.
    + der. act; br. rewrite !Rmult_0_r, Rplus_0_l, sqrt_1. lra.
  - assert (0 < 2 / 1 * (2 / 1) * x + 1) by nra. pose proof (sqrt_lt_R0 _ H).
    apply (is_derive_gt _ h 0); [lra|unfold h; agree|]. unfold h. der. act; br. fld.
Qed.

Lemma Rpower_derive : forall a c p x, 0 < a * x + c ->
  is_derive (fun x => Rpower (a * x + c) p) x (p * a * Rpower (a * x + c) (p - 1)).
Proof.
  intros. unfold Rpower. eapply is_derive_eq; [auto_derive; nz|].
  replace ((p - 1) * ln (a * x + c)) with (p * ln (a * x + c) + - ln (a * x + c)) by ring.
  rewrite exp_plus, exp_Ropp, exp_ln by auto. fld.
Qed.
Lemma Rpow_pos : forall x p, 0 < x -> Rpow x p = Rpower x p.
Proof. intros. unfold Rpow. destruct (Req_EM_T x 0); auto. lra. Qed.
Lemma Rpower_1_l : forall p, Rpower 1 p = 1.
Proof. intros. unfold Rpower. rewrite ln_1, Rmult_0_r, exp_0. auto. Qed.

Lemma d_E3RU : forall jk x, goodAt jk AE3RU x.
Proof.
  intros jk x; unfold goodAt.
  set (g := fun x => exp (x * (3 / 1)) - 1 / (3 / 1)). set (h := fun x => Rpower (3 / 1 * (3 / 1) * x + 1) (1 / (3 / 1)) - 1 / (3 / 1)).
  assert (G : is_derive g x (3 / 1 * exp (3 / 1 * x))).
  { unfold g. der. replace (3 / 1 * x) with (x * (3 / 1)) by ring. fld. }
  assert (K : 0 <= x -> is_derive h x (3 / 1 * Rpow (3 / 1 * (3 / 1) * x + 1) (- (2 / 1) / (3 / 1)))).
  { intro L. unfold h. eapply is_derive_eq; [apply (is_derive_Rminus (fun x => Rpower (3 / 1 * (3 / 1) * x + 1) (1 / (3 / 1))) (fun _ => 1 / (3 / 1))); [apply Rpower_derive; lra | apply (is_derive_const (1 / (3/1)))]|].
    change (@zero R_NormedModule) with 0. rewrite Rpow_pos by lra. replace (1 / (3 / 1) - 1) with (- (2 / 1) / (3 / 1)) by lra. 
    match goal with |- ?a = ?b => change (@eq R a b) end. field. }
  destruct (Rtotal_order x 0) as [L|[L|L]].
  - apply (is_derive_lt _ g 0); [lra|unfold g; agree|]. eapply is_derive_eq; [exact G|]. act; br; reflexivity.
  - assert (Z1 : forall p, Rpow (3 / 1 * (3 / 1) * 0 + 1) p = 1) by (intro; rewrite Rmult_0_r, Rplus_0_l, Rpow_pos by lra; apply Rpower_1_l).
    apply (is_derive_glue _ g h x 1); [lra|..].
    + unfold g; agree. subst. replace x0 with 0 by lra. rewrite Z1, Rmult_0_l, exp_0. lra.
    + unfold h. intros. act; br. rewrite Rpow_pos by lra. reflexivity.
    + eapply is_derive_eq; [exact G|]. act; br. subst. rewrite Z1, Rmult_0_r, exp_0. lra.
    + eapply is_derive_eq; [apply K; lra|]. act; br. reflexivity.
  - apply (is_derive_gt _ h 0); [lra| |]. unfold h. intros. act; br. rewrite Rpow_pos by lra. reflexivity.
    eapply is_derive_eq; [apply K; lra|]. act; br; reflexivity.
Qed.
Lemma d_O3RU : forall jk x, goodAt jk AO3RU x.
Proof.
  intros jk x; unfold goodAt.
  set (g := fun x => - Rpower (- (3 / 1) * (3 / 1) * x + 1) (1 / (3 / 1)) + 1). set (h := fun x => Rpower (3 / 1 * (3 / 1) * x + 1) (1 / (3 / 1)) - 1).
  assert (G : x <= 0 -> is_derive g x (3 / 1 * Rpow (- (3 / 1) * (3 / 1) * x + 1) (- (2 / 1) / (3 / 1)))).
  { intro L. unfold g. eapply is_derive_eq.
    - apply (is_derive_Rplus (fun x => - Rpower (- (3 / 1) * (3 / 1) * x + 1) (1 / (3 / 1))) (fun _ => 1)); [|apply (is_derive_const 1)].
      apply (is_derive_Rcomp Ropp (fun x => Rpower (- (3 / 1) * (3 / 1) * x + 1) (1 / (3 / 1)))); [apply is_derive_neg|].
      apply Rpower_derive. nra.
    - change (@zero R_NormedModule) with 0. rewrite Rpow_pos by lra. replace (1 / (3 / 1) - 1) with (- (2 / 1) / (3 / 1)) by lra.
      match goal with |- ?a = ?b => change (@eq R a b) end. field. }
  assert (K : 0 <= x -> is_derive h x (3 / 1 * Rpow (3 / 1 * (3 / 1) * x + 1) (- (2 / 1) / (3 / 1)))).
  { intro L. unfold h. eapply is_derive_eq; [apply (is_derive_Rminus (fun x => Rpower (3 / 1 * (3 / 1) * x + 1) (1 / (3 / 1))) (fun _ => 1)); [apply Rpower_derive; lra | apply (is_derive_const 1)]|].
    change (@zero R_NormedModule) with 0. rewrite Rpow_pos by lra. replace (1 / (3 / 1) - 1) with (- (2 / 1) / (3 / 1)) by lra.
    match goal with |- ?a = ?b => change (@eq R a b) end. field. }
  destruct (Rtotal_order x 0) as [L|[L|L]].
  - apply (is_derive_lt _ g 0); [lra| |]. unfold g; intros; act; br. rewrite Rpow_pos by nra. reflexivity.
    eapply is_derive_eq; [apply G; lra|]. act; br; reflexivity.
  - assert (Z1 : forall p, Rpow (3 / 1 * (3 / 1) * 0 + 1) p = 1) by (intro; rewrite Rmult_0_r, Rplus_0_l, Rpow_pos by lra; apply Rpower_1_l).
    apply (is_derive_glue _ g h x 1); [lra|..].
    + unfold g; intros; act; br.
      * subst. replace x0 with 0 by lra. rewrite Z1, Rmult_0_r, Rplus_0_l, Rpower_1_l. lra.
      * rewrite Rpow_pos by nra. reflexivity.
    + unfold h. intros. act; br. rewrite Rpow_pos by lra. reflexivity.
    + eapply is_derive_eq; [apply G; lra|]. act; br. subst. rewrite Z1, Rmult_0_r, Rplus_0_l, Rpow_pos, Rpower_1_l by lra. lra.
    + eapply is_derive_eq; [apply K; lra|]. act; br. reflexivity.
  - apply (is_derive_gt _ h 0); [lra| |]. unfold h. intros. act; br. rewrite Rpow_pos by lra. reflexivity.
    eapply is_derive_eq; [apply K; lra|]. act; br; reflexivity.
Qed.
