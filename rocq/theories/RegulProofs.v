(* RegulProofs.v - lemmas behind P_Regul.v *)
From Coq Require Import List Arith Bool ZArith Lia Reals Lra Psatz String.
From Coquelicot Require Import Coquelicot.
From Verif Require Import Base Scalar Mat SpecMat SpecReal RSum MatFacts MatProofs MatLoops RDeriv Loss LossProofs Optim OptProofs OptProofs2 SpecOpt Regul SpecRegul.
Import ListNotations.
Local Open Scope R_scope.

Section R.
Variable jk : R.
Notation RF := (ROps jk).

Notation regulariser := (regulariser jk).
Lemma rparam_R : forall k p, p <> -1 -> rparam RF (regulariser k p) = p.
Proof.
  intros. unfold SpecRegul.regulariser, set_parameter, newReg. cbn [rkind rparam].
  destruct k; rewrite ?dflt_R; unfold orDefault; destruct (Req_EM_T p (-1)); tauto.
Qed.

Lemma reg_default : forall k, regulariser k (-1) = regulariser k (regDefault k) /\ rparam RF (regulariser k (-1)) = regDefault k.
Proof.
  assert (D : forall d, orDefault (-1) d = d) by (intros; unfold orDefault; destruct (Req_EM_T (-1) (-1)); congruence).
  assert (N : forall d, d <> -1 -> forall e, orDefault d e = d) by (intros d Hd e; unfold orDefault; destruct (Req_EM_T d (-1)); congruence).
  intros k. unfold SpecRegul.regulariser, set_parameter, newReg. cbn [rkind rparam]. destruct k; rewrite ?dflt_R, ?D; unfold regDefault; cbn; rewrite ?N by lra; split; try reflexivity; try lra; f_equal; lra.
Qed.
Lemma reg_none : forall p r c w (dw : nat -> nat -> R), reg_apply RF (regulariser RNone p) (mgen r c w) (mgen r c dw) = Ok (mgen r c dw).
Proof. reflexivity. Qed.

(* sign of a weight: zero counts as positive *)
Lemma reg_penalty : forall k p r c (w dw : nat -> nat -> R), p <> -1 -> k = RL1 \/ k = RL2 \/ k = RL1L2 ->
  exists g, reg_apply RF (regulariser k p) (mgen r c w) (mgen r c dw) = Ok (mgen r c (fun i j => dw i j + g (w i j))) /\
  forall x, x <> 0 ->
  is_derive (fun y => match k with RL1 => p * Rabs y | RL2 => p * y ^ 2 / 2 | _ => p * y ^ 2 / 2 + p * Rabs y end) x (g x).
Proof.
  intros k p r c w dw Hp H.
  exists (fun x => match k with RL1 => p * Rsign x | RL2 => p * x | _ => p * x + p * Rsign x end). split.
  - assert (P := rparam_R k p Hp). unfold reg_apply. rewrite P. unfold msign, mscale.
    destruct H as [->|[->| ->]]; cbn [rkind SpecRegul.regulariser set_parameter newReg];
    repeat (rewrite ?(@mapLoop_gen R), ?(maddM_gen RF); cbn [bind]); apply Ok_eq, mgen_ext; intros; simpl; ring.
  - intros x Hx.
    assert (A := derive_abs x Hx).
    assert (Q : is_derive (fun y => p * y ^ 2 / 2) x (p * x)) by (auto_derive; auto; field).
    assert (B : is_derive (fun y => p * Rabs y) x (p * Rsign x)) by (apply (is_derive_scal Rabs x p); exact A).
    destruct H as [->|[->| ->]]; auto. apply (is_derive_plus _ _ x _ _ Q B).
Qed.

(* at a zero weight L1 uses +1, an element of the subdifferential *)
Lemma reg_penalty_zero : forall p r c (w dw : nat -> nat -> R), p <> -1 ->
  reg_apply RF (regulariser RL1 p) (mgen r c w) (mgen r c dw) = Ok (mgen r c (fun i j => dw i j + p * sgn (w i j))) /\
  reg_apply RF (regulariser RL2 p) (mgen r c w) (mgen r c dw) = Ok (mgen r c (fun i j => dw i j + p * w i j)) /\
  reg_apply RF (regulariser RL1L2 p) (mgen r c w) (mgen r c dw) = Ok (mgen r c (fun i j => dw i j + p * w i j + p * sgn (w i j))).
Proof.
  intros p r c w dw Hp. unfold reg_apply.
  rewrite (rparam_R RL1 p Hp), (rparam_R RL2 p Hp), (rparam_R RL1L2 p Hp). unfold msign, mscale.
  repeat split; cbn [rkind SpecRegul.regulariser set_parameter newReg];
    repeat (rewrite ?(@mapLoop_gen R), ?(maddM_gen RF); cbn [bind]); apply Ok_eq, mgen_ext; intros; simpl; unfold sgn, Rsign; ring.
Qed.

Lemma clip_bounds : forall p r c (w dw : nat -> nat -> R), 0 < p -> exists g,
  reg_apply RF (regulariser RClip p) (mgen r c w) (mgen r c dw) = Ok (mgen r c g) /\
  forall i j, - p <= g i j <= p /\ (- p <= dw i j <= p -> g i j = dw i j) /\ (dw i j > p -> g i j = p) /\ (dw i j < - p -> g i j = - p).
Proof.
  intros p r c w dw Hp. eexists. split.
  - unfold reg_apply. rewrite rparam_R by lra. cbn [rkind SpecRegul.regulariser set_parameter newReg]. apply (clamp_gen RF).
  - intros i j. unfold clampVal. simpl. unfold Rltb.
    repeat match goal with |- context [Rlt_dec ?a ?b] => destruct (Rlt_dec a b) end; lra.
Qed.

Lemma mnorm_R : forall r c (f : nat -> nat -> R), mnorm RF (mgen r c f) = Ok (norm2 r c f).
Proof.
  intros. unfold mnorm. rewrite (mgen_flat _ r c f), (msquaredNorm_flat RF). cbn [bind]. apply Ok_eq. unfold norm2. simpl. f_equal.
  rewrite fsum_R, rsum_flat. apply rsum_ext. intros i Hi. apply rsum_ext. intros j Hj. simpl.
  rewrite idx_div, idx_mod by auto. reflexivity.
Qed.

Lemma norm2_scale : forall r c k f, 0 <= k -> norm2 r c (fun i j => f i j * k) = norm2 r c f * k.
Proof.
  intros. unfold norm2. transitivity (sqrt (rsum r (fun i => rsum c (fun j => f i j * f i j)) * (k * k))).
  - f_equal. rewrite <- rsum_scal_r. apply rsum_ext. intros. rewrite <- rsum_scal_r. apply rsum_ext. intros. ring.
  - rewrite sqrt_mult_alt, sqrt_square; auto. apply rsum_nonneg. intros. apply rsum_nonneg. intros. nra.
Qed.

Lemma normclip_bounds : forall p r c (w dw : nat -> nat -> R), 0 < p -> exists s,
  0 < s <= 1 /\
  reg_apply RF (regulariser RNormClip p) (mgen r c w) (mgen r c dw) = Ok (mgen r c (fun i j => dw i j * s)) /\
  norm2 r c (fun i j => dw i j * s) <= p /\
  (norm2 r c dw <= p -> s = 1) /\ (norm2 r c dw > p -> norm2 r c (fun i j => dw i j * s) = p).
Proof.
  intros p r c w dw Hp. set (n := norm2 r c dw).
  assert (HN : forall s, 0 <= s -> norm2 r c (fun i j => dw i j * s) = n * s) by (intros; apply norm2_scale; auto).
  unfold reg_apply. rewrite rparam_R by lra. cbn [rkind SpecRegul.regulariser set_parameter newReg]. rewrite mnorm_R. cbn [bind].
  fold n. simpl flt. unfold Rltb. destruct (Rlt_dec p n).
  - exists (p / n). assert (0 < p / n) by (apply Rdiv_lt_0_compat; lra).
    assert (n * (p / n) = p) by (field; lra).
    repeat split; auto.
    + apply Rmult_le_reg_l with n; lra.
    + unfold mdivS, mscale. rewrite (@mapLoop_gen R). cbn [bind]. rewrite (@mapLoop_gen R). apply Ok_eq, mgen_ext. intros. simpl. field. lra.
    + rewrite HN by lra. lra.
    + lra.
    + intros _. rewrite HN; lra.
  - exists 1. repeat split; try lra.
    + apply Ok_eq, mgen_ext. intros. ring.
    + rewrite HN by lra. lra.
Qed.

Lemma cliptanh_bounds : forall p r c (w dw : nat -> nat -> R), 0 < p -> exists g,
  reg_apply RF (regulariser RClipTanh p) (mgen r c w) (mgen r c dw) = Ok (mgen r c g) /\
  forall i j, - p < g i j < p /\ (0 < dw i j -> 0 < g i j) /\ (dw i j < 0 -> g i j < 0) /\ (dw i j = 0 -> g i j = 0).
Proof.
  intros p r c w dw Hp. eexists. split.
  - unfold reg_apply. rewrite rparam_R by lra. cbn [rkind SpecRegul.regulariser set_parameter newReg]. unfold mtanh, mscale.
    repeat (rewrite (@mapLoop_gen R); cbn [bind]). reflexivity.
  - intros i j. simpl. set (x := dw i j * (1 / p)).
    assert (B := Rtanh_bound x).
    assert (S : (0 < x -> 0 < Rtanh x) /\ (x < 0 -> Rtanh x < 0) /\ (x = 0 -> Rtanh x = 0)).
    { unfold Rtanh. assert (0 < exp x) by apply exp_pos. assert (0 < exp (- x)) by apply exp_pos. repeat split; intros Hx.
      - apply Rdiv_lt_0_compat; [|lra]. assert (exp (- x) < exp x) by (apply exp_increasing; lra). lra.
      - assert (exp x < exp (- x)) by (apply exp_increasing; lra).
        replace ((exp x - exp (-x)) / (exp x + exp (-x))) with (- ((exp (-x) - exp x) / (exp x + exp (-x)))) by (field; lra).
        enough (0 < (exp (-x) - exp x) / (exp x + exp (-x))) by lra. apply Rdiv_lt_0_compat; lra.
      - rewrite Hx, Ropp_0. unfold Rdiv. ring. }
    assert (I : 0 < 1 / p) by (apply Rdiv_lt_0_compat; lra).
    destruct S as (S1 & S2 & S3). repeat split; try nra.
    + intros. specialize (S1 ltac:(unfold x; nra)). nra.
    + intros. specialize (S2 ltac:(unfold x; nra)). nra.
    + intros H. rewrite S3; [ring|]. unfold x. rewrite H. ring.
Qed.
End R.

Local Open Scope string_scope.
Lemma reg_registry : forall s, In s list_regularizer_available -> exists k, create_regularizer s = Some k /\ reg_name k = s.
Proof. intros s H. simpl in H. decompose [or] H; subst; try contradiction; eexists; split; reflexivity. Qed.
Lemma reg_registry_complete : forall k, In (reg_name k) list_regularizer_available /\ create_regularizer (reg_name k) = Some k.
Proof. destruct k; split; simpl; tauto || reflexivity. Qed.
Lemma reg_registry_unknown : forall s, ~ In s list_regularizer_available -> create_regularizer s = None.
Proof.
  intros s H. simpl in H. unfold create_regularizer.
  repeat match goal with |- context [if (s =? ?x)%string then _ else _] => destruct (String.eqb_spec s x); [subst; exfalso; apply H; tauto|] end.
  reflexivity.
Qed.
