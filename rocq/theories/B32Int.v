(* B32Int.v - small integers are exact in single precision *)
From Coq Require Import ZArith Reals Lra Lia Bool Arith.
From Flocq Require Import Core IEEE754.BinarySingleNaN.
From Verif Require Import Base Scalar B32Facts.
Local Open Scope Z_scope.

Lemma int_format : forall z, Z.abs z <= 2 ^ 24 -> generic_format radix2 (SpecFloat.fexp 24 128) (IZR z).
Proof.
  intros z H. destruct (Z_lt_le_dec (Z.abs z) (2 ^ 24)) as [L|L].
  - apply generic_format_FLT. exists (Float radix2 z 0).
    + unfold F2R; simpl. lra.
    + simpl Fnum. exact L.
    + vm_compute; discriminate.
  - assert (E : IZR z = bpow radix2 24 \/ IZR z = (- bpow radix2 24)%R).
    { replace (bpow radix2 24) with (IZR (2 ^ 24)) by reflexivity. destruct (Z_le_gt_dec 0 z).
      - left. f_equal. lia.
      - right. rewrite <- opp_IZR. f_equal. lia. }
    destruct E as [-> | ->]; [|apply generic_format_opp]; apply generic_format_bpow; vm_compute; discriminate.
Qed.

Lemma int_small : forall z, Z.abs z <= 2 ^ 24 -> (Rabs (IZR z) < bpow radix2 128)%R.
Proof.
  intros z H. rewrite <- abs_IZR. apply Rle_lt_trans with (IZR (2 ^ 24)); [apply IZR_le; auto|].
  replace (IZR (2 ^ 24)) with (bpow radix2 24) by reflexivity. apply bpow_lt. lia.
Qed.

Lemma ofZ_exact : forall z, Z.abs z <= 2 ^ 24 ->
  B2R (b32_of_Z z) = IZR z /\ is_finite (b32_of_Z z) = true /\ Bsign (b32_of_Z z) = (z <? 0).
Proof.
  intros z H. unfold b32_of_Z.
  pose proof (binary_normalize_correct 24 128 prec32_gt_0 prec32_lt mode_NE z 0 false) as C. cbv zeta in C.
  assert (E : F2R (Float radix2 z 0) = IZR z) by (unfold F2R; simpl; lra).
  rewrite E in C. rewrite round_generic in C; [|apply valid_rnd_N|apply int_format; auto].
  rewrite Rlt_bool_true in C by (apply int_small; auto). destruct C as (C1 & C2 & C3).
  split; auto. split; auto. rewrite C3. destruct (Z.ltb_spec z 0).
  - rewrite Rcompare_Lt; auto. apply IZR_lt; auto.
  - destruct (Z.eq_dec z 0) as [->|]. + rewrite Rcompare_Eq; auto. + rewrite Rcompare_Gt; auto. apply IZR_lt. lia.
Qed.

Lemma ofZ_plus : forall a b, Z.abs a <= 2 ^ 24 -> Z.abs b <= 2 ^ 24 -> Z.abs (a + b) <= 2 ^ 24 -> (0 <= a)%Z -> (0 <= b)%Z ->
  b32_add (b32_of_Z a) (b32_of_Z b) = b32_of_Z (a + b).
Proof.
  intros a b Ha Hb Hab Pa Pb. destruct (ofZ_exact a Ha) as (A1 & A2 & A3). destruct (ofZ_exact b Hb) as (B1 & B2 & B3).
  destruct (ofZ_exact (a + b) Hab) as (C1 & C2 & C3).
  pose proof (Bplus_correct 24 128 prec32_gt_0 prec32_lt mode_NE _ _ A2 B2) as P. cbv zeta in P. rewrite A1, B1, <- plus_IZR in P.
  rewrite round_generic in P; [|apply valid_rnd_N|apply int_format; auto].
  rewrite Rlt_bool_true in P by (apply int_small; auto). destruct P as (P1 & P2 & P3).
  apply B2R_Bsign_inj; auto.
  - unfold b32_add. rewrite P1. auto.
  - unfold b32_add. rewrite P3, C3, A3, B3. destruct (Z.ltb_spec (a + b) 0); [lia|]. destruct (Z.ltb_spec a 0); [lia|].
    destruct (Z.ltb_spec b 0); [lia|]. destruct (Z.eq_dec (a + b) 0) as [E|].
    + rewrite E, Rcompare_Eq; auto. + rewrite Rcompare_Gt; auto. apply IZR_lt. lia.
Qed.

Lemma iter_S : forall A (f : A -> A) k x, Nat.iter (S k) f x = f (Nat.iter k f x).
Proof. reflexivity. Qed.

(* counting by adding 1.f: exact up to 2^24, then stuck *)
Lemma b32_count : forall k, (Z.of_nat k <= 2 ^ 24)%Z -> Nat.iter k (fun v => b32_add v (b32_of_Z 1)) (B754_zero false) = b32_of_Z (Z.of_nat k).
Proof.
  induction k as [|k IH]; intros H. - vm_compute. reflexivity.
  - rewrite iter_S. rewrite IH by lia. rewrite ofZ_plus by lia. f_equal. lia.
Qed.
Lemma b32_count_stuck : forall k, (2 ^ 24 <= Z.of_nat k)%Z -> Nat.iter k (fun v => b32_add v (b32_of_Z 1)) (B754_zero false) = b32_of_Z (2 ^ 24).
Proof.
  induction k as [|k IH]; intros H; [lia|]. destruct (Z.eq_dec (Z.of_nat (S k)) (2 ^ 24)) as [E|E].
  - rewrite b32_count by lia. f_equal. auto.
  - rewrite iter_S. rewrite IH by lia. apply B2SF_inj. vm_compute. reflexivity.
Qed.
