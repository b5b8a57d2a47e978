(* NaNRefute.v - finite inputs with a not-a-number as result, whatever the C library *)
From Coq Require Import List Arith ZArith Reals Lra Lia Bool.
From Flocq Require Import Core IEEE754.BinarySingleNaN.
From Verif Require Import Base Scalar B32Int Act SpecRound RoundProofs1 SpecNaN B32Kit NaNAct.
Import ListNotations.
Local Open Scope R_scope.

Lemma nan_eq : forall y, nan y -> y = B754_nan. Proof. intros [s|s| |s m e H] N; try discriminate N. reflexivity. Qed.
Definition huge : b32 := b32_of_Z (3 * 10 ^ 38).
Definition tiny : b32 := @B754_finite 24 128 false 1 (-149) (eq_refl true).
Lemma tiny_val : val tiny = p2 (-149). Proof. unfold val, tiny, p2. simpl. unfold F2R. simpl. lra. Qed.
Lemma big_ext : forall x, fin x -> b32_le (b32_of_Z 89) x = true -> num x /\ 89 <= ext x.
Proof. intros x Hx H. split; [apply fin_num; auto|]. rewrite fin_ext by auto. destruct (ofZ_val 89 ltac:(lia)) as [A <-]. apply le_val; auto. Qed.
Ltac expbig S x := let A := fresh in let B := fresh in destruct (big_ext x ltac:(closed) ltac:(closed)) as [A B]; rewrite (exp_big _ _ S x A B).
Ltac opn := intros; unfold act_apply, act_deriv; cbn [fadd fsub fmul fdiv fopp fabs flt fle feq flm fpow flit f0 f1 B32Ops]; cbv beta zeta.

Section R.
Variables (lm : libm -> b32 -> b32) (pw : b32 -> b32 -> b32) (jk : b32).
Hypothesis S : stdLibm lm pw.
Notation F := (B32Ops lm pw jk).
Local Opaque b32_of_Z.
Lemma r1 : nan (act_apply F ABipolarSigmoid (b32_of_Z 100)). Proof. opn. expbig S (b32_of_Z 100). closed. Qed.
Lemma r2 : nan (act_deriv F ABipolarSigmoid (b32_of_Z 100)). Proof. opn. expbig S (b32_of_Z 100). closed. Qed.
Lemma r3 : nan (act_apply F AdSiLU (b32_of_Z (-100))). Proof. opn. expbig S (Bopp (b32_of_Z (-100))). closed. Qed.
Lemma r4 : nan (act_deriv F AdSiLU (b32_of_Z (-100))). Proof. opn. expbig S (Bopp (b32_of_Z (-100))). closed. Qed.
Lemma r5 : nan (act_apply F AEswish (Bopp huge)). Proof. opn. expbig S (Bopp (Bopp huge)). closed. Qed.
Lemma r6 : nan (act_apply F ALogit (b32_of_Z 2)).
Proof.
  opn. apply (log_neg _ _ S); [closed|]. rewrite fin_ext by closed. apply lit_neg; closed.
Qed.
Lemma big2pi : b32_mul huge (twoPi F) = inf32 false. Proof. closed. Qed.
Lemma r7 : nan (act_apply F ASoftSteps huge). Proof. opn. rewrite big2pi, (nan_eq _ (sin_inf _ _ S false)). closed. Qed.
Lemma r8 : nan (act_deriv F ASoftSteps huge). Proof. opn. rewrite big2pi, (nan_eq _ (cos_inf _ _ S false)). closed. Qed.
Lemma r9 : nan (act_deriv F AELiSH (b32_of_Z (-100))). Proof. opn. expbig S (Bopp (b32_of_Z (-100))). closed. Qed.
Lemma r10 : nan (act_deriv F ASiLU (b32_of_Z (-100))). Proof. opn. expbig S (Bopp (b32_of_Z (-100))). closed. Qed.
Lemma r11 : nan (act_deriv F AGauss huge).
Proof. opn. replace (b32_mul (Bopp huge) huge) with (inf32 true) by closed. rewrite (exp_inf _ _ S). closed. Qed.
Lemma r12 : nan (act_deriv F AMish (b32_of_Z 100)).
Proof.
  opn. expbig S (b32_of_Z 100). rewrite (log1p_inf _ _ S), (cosh_inf _ _ S). pose proof max_big. destruct (btw_val _ _ _ (tanh_num _ _ S (inf32 false) eq_refl) ltac:(lra) ltac:(lra)) as [A _].
  match goal with |- nan (b32_add _ ?y) => replace y with (B754_nan : b32) by closed end. destruct (lm Ltanh (inf32 false)); reflexivity.
Qed.
Lemma r13 : nan (act_deriv F ASinC tiny).
Proof.
  opn. replace (b32_eq tiny z32) with false by closed. replace (b32_mul tiny tiny) with z32 by closed. pose proof max_big. assert (P : 0 < p2 (-149)) by apply bpow_gt_0. assert (P1 : p2 (-149) <= / 2) by (unfold p2; simpl; lra).
  assert (A : b32_div (lm Lsin tiny) z32 = inf32 false).
  { destruct (btw_val _ _ _ (sin_fin _ _ S tiny eq_refl) ltac:(lra) ltac:(lra)) as [A1 _]. pose proof (sin_pos _ _ S tiny eq_refl ltac:(rewrite tiny_val; lra)) as A2. rewrite fin_ext in A2 by auto.
    destruct (lm Lsin tiny) as [b|b| |b m e He]; try discriminate A1; [simpl in A2; lra|]. destruct b; [pose proof (sign_neg _ A1 eq_refl); unfold val in A2; lra | reflexivity]. }
  assert (B : b32_div (lm Lcos tiny) tiny = inf32 false).
  { pose proof (cos_one _ _ S tiny eq_refl ltac:(rewrite tiny_val, Rabs_pos_eq; lra)) as C. destruct (btw_val _ _ _ C ltac:(lra) ltac:(lra)) as [B1 B2].
    assert (D : btw max32 (p2 300) (b32_div (lm Lcos tiny) tiny)).
    { pose proof huge_max. destruct fmt_huge. apply div_btw; auto; try lra; [reflexivity | exact fmt_max | rewrite tiny_val; lra |]. rewrite tiny_val. unfold Rdiv.
      assert (E : / p2 (-149) = p2 149) by (unfold p2; rewrite <- bpow_opp; reflexivity). rewrite E. assert (max32 * 2 <= p2 149) by (unfold max32; change 2 with (bpow radix2 1); unfold p2; rewrite <- bpow_plus; apply bpow_le; lia).
      assert (p2 149 <= p2 300) by (apply bpow_le; lia). nra. }
    destruct D as [D1 D2]. apply ext_inf; auto. tauto. }
  rewrite A, B. closed.
Qed.
End R.
Definition badApply (k : actKind) : b32 :=
  match k with ABipolarSigmoid => b32_of_Z 100 | AdSiLU => b32_of_Z (-100) | AEswish => Bopp huge | ALogit => b32_of_Z 2 | _ => huge end.
Definition badDeriv (k : actKind) : b32 :=
  match k with ABipolarSigmoid | AMish => b32_of_Z 100 | AdSiLU | AELiSH | ASiLU => b32_of_Z (-100) | ASinC => tiny | _ => huge end.
Theorem apply_nan : forall k, In k nanApply -> exists x, fin x /\ forall lm pw jk, stdLibm lm pw -> nan (act_apply (B32Ops lm pw jk) k x).
Proof.
  intros k Hk. exists (badApply k). repeat (destruct Hk as [<-|Hk]); try contradiction; (split; [closed | intros lm pw jk S]); cbn [badApply]; [apply r1 | apply r3 | apply r5 | apply r6 | apply r7]; auto.
Qed.
Theorem deriv_nan : forall k, In k nanDeriv -> exists x, fin x /\ forall lm pw jk, stdLibm lm pw -> nan (act_deriv (B32Ops lm pw jk) k x).
Proof.
  intros k Hk. exists (badDeriv k). repeat (destruct Hk as [<-|Hk]); try contradiction; (split; [closed | intros lm pw jk S]); cbn [badDeriv]; [apply r2 | apply r4 | apply r9 | apply r11 | apply r12 | apply r10 | apply r13 | apply r8]; auto.
Qed.
