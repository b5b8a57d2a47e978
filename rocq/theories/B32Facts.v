(* B32Facts.v - the float comparison without NaN is a comparison of reals *)
From Coq Require Import ZArith Reals Lra Lia Bool.
From Flocq Require Import Core IEEE754.BinarySingleNaN.
From Verif Require Import Base Scalar.

Definition b32_val (x : b32) : R :=
  match x with
  | B754_infinity false => bpow radix2 128
  | B754_infinity true => (- bpow radix2 128)%R
  | _ => B2R x
  end.

Definition b32_isnan (x : b32) : bool := match x with B754_nan => true | _ => false end.

Lemma b32_lt_val : forall x y : b32, b32_isnan x = false -> b32_isnan y = false ->
  b32_lt x y = Rltb (b32_val x) (b32_val y).
Proof.
  assert (FIN : forall x y : b32, is_finite x = true -> is_finite y = true -> b32_lt x y = Rltb (B2R x) (B2R y)).
  { intros x y Hx Hy. unfold b32_lt. rewrite Bcompare_correct by auto. unfold Rltb.
    destruct (Rcompare_spec (B2R x) (B2R y)); destruct (Rlt_dec (B2R x) (B2R y)); auto; lra. }
  assert (BND : forall x : b32, (- bpow radix2 128 < B2R x < bpow radix2 128)%R).
  { intro x. pose proof (abs_B2R_lt_emax 24 128 x) as H. apply Rabs_def2 in H. lra. }
  assert (P : (0 < bpow radix2 128)%R) by apply bpow_gt_0.
  intros x y Hx Hy.
  destruct (is_finite x) eqn:Fx; destruct (is_finite y) eqn:Fy.
  - rewrite FIN by auto. destruct x; try discriminate Fx; destruct y; try discriminate Fy; reflexivity.
  - destruct y as [sy|sy| |sy my ey Hy']; try discriminate.
    assert (E : b32_val x = B2R x) by (destruct x; try discriminate Fx; reflexivity).
    rewrite E. pose proof (BND x). unfold Rltb, b32_val. destruct sy.
    + destruct (Rlt_dec (B2R x) (- bpow radix2 128)); [lra|]. destruct x as [sx|sx| |sx mx ex Hx']; try discriminate Fx; try destruct sx; reflexivity.
    + destruct (Rlt_dec (B2R x) (bpow radix2 128)); [|lra]. destruct x as [sx|sx| |sx mx ex Hx']; try discriminate Fx; try destruct sx; reflexivity.
  - destruct x as [sx|sx| |sx mx ex Hx']; try discriminate.
    assert (E : b32_val y = B2R y) by (destruct y; try discriminate Fy; reflexivity).
    rewrite E. pose proof (BND y). unfold Rltb, b32_val. destruct sx.
    + destruct (Rlt_dec (- bpow radix2 128) (B2R y)); [|lra]. destruct y as [sy|sy| |sy my ey Hy']; try discriminate Fy; try destruct sy; reflexivity.
    + destruct (Rlt_dec (bpow radix2 128) (B2R y)); [lra|]. destruct y as [sy|sy| |sy my ey Hy']; try discriminate Fy; try destruct sy; reflexivity.
  - destruct x as [sx|sx| |sx mx ex Hx']; try discriminate. destruct y as [sy|sy| |sy my ey Hy']; try discriminate.
    unfold Rltb, b32_val. destruct sx, sy; simpl b32_lt; destruct (Rlt_dec _ _); try reflexivity; lra.
Qed.

Lemma Rltb_true : forall x y, Rltb x y = true <-> (x < y)%R.
Proof. intros. unfold Rltb. destruct (Rlt_dec x y); split; intros; auto; try discriminate; lra. Qed.
Lemma Rltb_false : forall x y, Rltb x y = false <-> (y <= x)%R.
Proof. intros. unfold Rltb. destruct (Rlt_dec x y); split; intros; auto; try discriminate; lra. Qed.
