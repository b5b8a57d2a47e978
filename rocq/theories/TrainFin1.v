(* TrainFin1.v - sums, means, dense layers and output layers on floats of bounded magnitude *)
From Coq Require Import List Arith ZArith Reals Lra Lia Bool.
From Flocq Require Import Core IEEE754.BinarySingleNaN.
From Verif Require Import Base Scalar Mat SpecMat B32Int Act Loss LayMat LayImg Layer LayProofs1 LayProofs3 LayProofs7 SpecRound RoundProofs1 SpecNaN B32Kit NaNAct SpecSoft SoftProofs1 SoftProofs2 SoftProofs3 SpecStay OptFin1 SpecTrainFin.
Import ListNotations.
Local Open Scope R_scope.
Local Opaque b32_add b32_sub b32_mul b32_div b32_sqrt b32_of_Z Bopp Babs.

Section B32.
Variables (lm : libm -> b32 -> b32) (pw : b32 -> b32 -> b32) (jk : b32).
Notation F := (B32Ops lm pw jk).

Lemma fmt_N : forall n e, (Z.of_nat n < 2 ^ 24)%Z -> (-149 <= e)%Z -> fmt (INR n * p2 e).
Proof. intros n e H He. rewrite INR_IZR_INZ. apply fmt_dy; auto. lia. Qed.
Lemma N_lt : forall n e, (Z.of_nat n < 2 ^ 24)%Z -> (e <= 103)%Z -> INR n * p2 e < max32.
Proof.
  intros n e H He. assert (B : INR n < p2 24). { rewrite INR_IZR_INZ. unfold p2. change (bpow radix2 24) with (IZR (2 ^ 24)). apply IZR_lt. auto. }
  pose proof (p2_pos e). assert (INR n * p2 e < p2 24 * p2 e) by nra. rewrite p2_mul in *. pose proof (p2_lt_max (24 + e) ltac:(lia)). lra.
Qed.
(* sums of values in [-2^e, 2^e], or in [0, 2^e] *)
Lemma sum_rg : forall e n (f : nat -> b32), (Z.of_nat n < 2 ^ 24)%Z -> (-149 <= e <= 103)%Z -> (forall i, (i < n)%nat -> within e (f i)) -> rg (- (INR n * p2 e)) (INR n * p2 e) (fsum F n f).
Proof.
  intros e n f Hn He Hf. induction n as [|n IH].
  - split; [reflexivity|]. change (val (fsum F 0 f)) with 0. simpl. lra.
  - rewrite fsum_S. destruct IH as [A B]; [lia | intros; apply Hf; lia|]. destruct (Hf n ltac:(lia)) as [C D]. apply Rabs_le_inv in D. pose proof (N_lt (S n) e Hn ltac:(lia)). pose proof (fmt_N (S n) e Hn ltac:(lia)). rewrite S_INR in *.
    apply rg_add; auto; try lra. apply fmt_opp. auto.
Qed.
Lemma sum_nn : forall e n (f : nat -> b32), (Z.of_nat n < 2 ^ 24)%Z -> (-149 <= e <= 103)%Z -> (forall i, (i < n)%nat -> nn e (f i)) -> rg 0 (INR n * p2 e) (fsum F n f).
Proof.
  intros e n f Hn He Hf. induction n as [|n IH].
  - split; [reflexivity|]. change (val (fsum F 0 f)) with 0. simpl. lra.
  - rewrite fsum_S. destruct IH as [A B]; [lia | intros; apply Hf; lia|]. destruct (Hf n ltac:(lia)) as [C D]. pose proof (N_lt (S n) e Hn ltac:(lia)). pose proof (fmt_N (S n) e Hn ltac:(lia)). rewrite S_INR in *. pose proof max_pos.
    apply rg_add; auto; try lra. apply fmt_0.
Qed.
Lemma ofN_val : forall n, (Z.of_nat n < 2 ^ 24)%Z -> fin (fofN F n) /\ val (fofN F n) = INR n.
Proof. intros n H. rewrite INR_IZR_INZ. unfold fofN. cbn [fofZ B32Ops]. apply ofZ_val. lia. Qed.
(* a sum divided by the number of its terms, or by more *)
Lemma mean_rg : forall e n q (s : b32), (0 < n <= q)%nat -> (Z.of_nat q < 2 ^ 24)%Z -> (-149 <= e <= 103)%Z -> rg (- (INR n * p2 e)) (INR n * p2 e) s -> within e (b32_div s (fofN F q)).
Proof.
  intros e n q s Hn Hq He [A B]. destruct (ofN_val q Hq) as [C D]. assert (P : 0 < INR n) by (apply lt_0_INR; lia). assert (Q : INR n <= INR q) by (apply le_INR; lia). pose proof (p2_pos e). pose proof (p2_lt_max e ltac:(lia)).
  apply within_rg. apply rg_div; auto; try lra; try (apply fmt_opp); try (apply fmt_p2; lia); rewrite D.
  assert (K : INR n * p2 e <= p2 e * INR q) by nra. split.
  - apply Rmult_le_reg_r with (INR q); [lra|]. unfold Rdiv. rewrite Rmult_assoc, Rinv_l, Rmult_1_r by lra. lra.
  - apply Rmult_le_reg_r with (INR q); [lra|]. unfold Rdiv. rewrite Rmult_assoc, Rinv_l, Rmult_1_r by lra. lra.
Qed.
Lemma mean_nn : forall e n q (s : b32), (0 < n <= q)%nat -> (Z.of_nat q < 2 ^ 24)%Z -> (-149 <= e <= 103)%Z -> rg 0 (INR n * p2 e) s -> nn e (b32_div s (fofN F q)).
Proof.
  intros e n q s Hn Hq He [A B]. destruct (ofN_val q Hq) as [C D]. assert (P : 0 < INR n) by (apply lt_0_INR; lia). assert (Q : INR n <= INR q) by (apply le_INR; lia). pose proof (p2_pos e). pose proof (p2_lt_max e ltac:(lia)). pose proof max_pos.
  apply rg_div; auto; try lra; try (apply fmt_0); try (apply fmt_p2; lia); rewrite D.
  assert (K : INR n * p2 e <= p2 e * INR q) by nra. split.
  - apply Rmult_le_reg_r with (INR q); [lra|]. unfold Rdiv. rewrite Rmult_assoc, Rinv_l, Rmult_1_r by lra. lra.
  - apply Rmult_le_reg_r with (INR q); [lra|]. unfold Rdiv. rewrite Rmult_assoc, Rinv_l, Rmult_1_r by lra. lra.
Qed.
(* 1/n is rounded: the mean by multiplication may be twice as large *)
Lemma half_pow : forall n, (0 < n)%nat -> exists b, (0 <= b)%Z /\ p2 b <= INR n < p2 (b + 1).
Proof.
  intros n H. exists (Z.log2 (Z.of_nat n)). pose proof (Z.log2_nonneg (Z.of_nat n)). pose proof (Z.log2_spec (Z.of_nat n) ltac:(lia)) as [A B]. split; auto. rewrite INR_IZR_INZ. unfold p2. rewrite <- !IZR_Zpower by lia. change (radix_val radix2) with 2%Z. split; [apply IZR_le; auto | apply IZR_lt; auto].
Qed.
Lemma scaled_rg : forall e n (s : b32), (0 < n)%nat -> (Z.of_nat n < 2 ^ 24)%Z -> (-100 <= e <= 103)%Z -> rg (- (INR n * p2 e)) (INR n * p2 e) s -> within (e + 1) (b32_mul s (b32_div (b32_of_Z 1) (fofN F n))).
Proof.
  intros e n s Hn Hq He [A B]. destruct (ofN_val n Hq) as [C D]. destruct (half_pow n Hn) as (b & Hb & L & U). pose proof (p2_pos b). pose proof (p2_pos (- b)). assert (I : p2 b * p2 (- b) = 1) by (rewrite p2_mul; replace (b + - b)%Z with 0%Z by lia; reflexivity).
  assert (Hb24 : (b < 24)%Z). { destruct (Z_lt_le_dec b 24); auto. pose proof (p2_le 24 b l). assert (INR n < p2 24) by (rewrite INR_IZR_INZ; unfold p2; change (bpow radix2 24) with (IZR (2 ^ 24)); apply IZR_lt; auto). lra. }
  pose proof one_fin as O1. pose proof one_val as O2. assert (V : rg 0 (p2 (- b)) (b32_div one (fofN F n))).
  { apply rg_div; auto; try (rewrite D; lra); [apply fmt_0 | apply fmt_p2; lia | pose proof max_pos; lra | apply p2_lt_max; lia|]. rewrite O2, D. unfold Rdiv. rewrite Rmult_1_l. split; [left; apply Rinv_0_lt_compat; lra|]. apply Rmult_le_reg_r with (INR n); [lra|]. rewrite Rinv_l by lra. nra. }
  destruct V as [V1 V2]. apply within_rg. pose proof (p2_pos e). assert (E1 : p2 (e + 1) = p2 (b + 1) * p2 e * p2 (- b)) by (rewrite !p2_mul; f_equal; lia). set (v := val (b32_div one (fofN F n))) in *. pose proof (p2_pos (e + 1)).
  assert (K : INR n * p2 e * p2 (- b) <= p2 (e + 1)). { rewrite E1. apply Rmult_le_compat_r; [lra|]. apply Rmult_le_compat_r; lra. } assert (Kv : INR n * p2 e * v <= INR n * p2 e * p2 (- b)). { apply Rmult_le_compat_l; [|lra]. apply Rmult_le_pos; lra. }
  apply rg_mul; auto; [apply fmt_opp, fmt_p2; lia | apply fmt_p2; lia | pose proof (p2_lt_max (e + 1) ltac:(lia)); lra | apply p2_lt_max; lia|]. fold v. assert (0 <= INR n * p2 e) by (apply Rmult_le_pos; lra). split; nra.
Qed.

(** * Dense *)
Section Dense.
Variables (n k m : nat) (W X : nat -> nat -> b32) (b : nat -> nat -> b32).
Hypothesis HW : forall i j, within 100 (W i j).
Hypothesis Hb : forall i j, within 100 (b i j).
Hypothesis HX : forall i j, within 10 (X i j).
Hypothesis Hk : (Z.of_nat k < 2 ^ 16)%Z.
Lemma dense_fin : forall i j, fin (fadd F (fsum F k (fun l => fmul F (X i l) (W l j))) (b O j)).
Proof.
  intros i j. cbn [fadd fmul B32Ops].
  assert (S : forall q, (Z.of_nat q < 2 ^ 16)%Z -> rg (- (INR q * p2 110)) (INR q * p2 110) (fsum F q (fun l => b32_mul (X i l) (W l j)))).
  { induction q as [|q IH]; intro Hq; [split; [reflexivity|]; change (val (fsum F 0 _)) with 0; simpl; lra|]. rewrite fsum_S. destruct IH as [A B]; [lia|].
    assert (P : within 110 (b32_mul (X i q) (W q j))) by (apply w_mul with 10%Z 100%Z; auto; lia). destruct P as [C D]. apply Rabs_le_inv in D. pose proof (fmt_N (S q) 110 ltac:(lia) ltac:(lia)) as Fq.
    assert (L : INR (S q) * p2 110 < max32). { assert (INR (S q) < p2 16) by (rewrite INR_IZR_INZ; unfold p2; change (bpow radix2 16) with (IZR (2 ^ 16)); apply IZR_lt; auto). pose proof (p2_pos 110). assert (INR (S q) * p2 110 < p2 16 * p2 110) by nra. rewrite p2_mul in *. pose proof (p2_lt_max (16 + 110) ltac:(lia)). lra. }
    rewrite S_INR in *. apply rg_add; auto; try lra. apply fmt_opp. auto. }
  destruct (S k Hk) as [A B]. destruct (Hb 0 j) as [C D]. apply Rabs_le_inv in D. pose proof (p2_le 100 110 ltac:(lia)).
  assert (L : INR (k + 1) * p2 110 < max32). { assert (INR (k + 1) <= p2 16) by (rewrite INR_IZR_INZ; unfold p2; change (bpow radix2 16) with (IZR (2 ^ 16)); apply IZR_le; lia). pose proof (p2_pos 110). assert (INR (k + 1) * p2 110 <= p2 16 * p2 110) by nra. rewrite p2_mul in *. pose proof (p2_lt_max (16 + 110) ltac:(lia)). lra. }
  pose proof (fmt_N (k + 1) 110 ltac:(lia) ltac:(lia)) as Fq. rewrite plus_INR in *. change (INR 1) with 1 in *. eapply proj1. apply (rg_add (- ((INR k + 1) * p2 110)) ((INR k + 1) * p2 110)); auto; try lra. apply fmt_opp. auto.
Qed.
Variable G : nat -> nat -> b32.
Hypothesis HG : forall i j, within 27 (G i j).
Hypothesis Hn : (0 < n)%nat.
Hypothesis Hn' : (Z.of_nat n < 2 ^ 24)%Z.
Lemma grad_w : forall l j, within 40 (fmul F (fsum F n (fun i => fmul F (X i l) (G i j))) (fdiv F (f1 F) (fofN F n))).
Proof.
  intros l j. apply within_w with 38%Z; [|lia]. cbn [fmul fdiv f1 B32Ops]. apply (scaled_rg 37 n); auto; [lia|]. apply sum_rg; auto; [lia|]. intros i Hi. apply w_mul with 10%Z 27%Z; auto; lia.
Qed.
Lemma grad_b : forall j, within 40 (fdiv F (fsum F n (fun i => G i j)) (fofN F n)).
Proof. intro j. apply within_w with 27%Z; [|lia]. cbn [fdiv B32Ops]. apply mean_rg with n; auto; [lia|]. apply sum_rg; auto. lia. Qed.
End Dense.

(** * output layers *)
Lemma std_unit : stdLibm lm pw -> expUnit lm.
Proof.
  intro S. split.
  - apply (SpecNaN.exp_neg _ _ S).
  - intros x Hx V. assert (E : ext x = 0) by (rewrite fin_ext; auto). destruct (SpecNaN.exp_neg _ _ S x (fin_num x Hx) ltac:(lra)) as [A B]. destruct (SpecNaN.exp_pos _ _ S x (fin_num x Hx) ltac:(lra)) as [_ C]. split; auto. lra.
  - rewrite (SpecNaN.exp_inf _ _ S). split; [reflexivity|]. change (0 <= 0 <= 0). lra.
Qed.
Hypothesis S : stdLibm lm pw.
Variable kd : kind F.
Hypothesis Hkd : outputs F kd.
Lemma out_fwd : forall r l n m X out, lk l = kd -> (0 < m)%nat -> mwf out -> (forall i j, fin (X i j)) ->
  exists P, layForward F r l (mgen n m X) out = Ok (l, mgen n m P) /\ forall i j, (i < n)%nat -> (j < m)%nat -> prob (P i j).
Proof.
  intros r l n m X out K Hm Ho HX. destruct Hkd as [Q|Q].
  - eexists. split; [unfold layForward; rewrite K, Q, fwdSoftmax_gen by auto; reflexivity|]. intros i j Hi Hj. apply p_prob; auto. apply std_unit, S.
  - eexists. split; [unfold layForward; rewrite K, Q, fwdAct_gen by auto; reflexivity|]. intros i j Hi Hj. cbv beta. cbn [act_apply fdiv fadd fopp f1 flm B32Ops]. pose proof max_big. apply btw_val; try lra. apply (sig lm pw S _ (HX i j)).
Qed.
Lemma out_bwd : forall l n m X G gin, lk l = kd -> lfirst l = false -> (0 < m)%nat -> mwf gin -> (forall i j, fin (X i j)) -> (forall i j, (i < n)%nat -> (j < m)%nat -> within 27 (G i j)) ->
  exists D, layBackward F l (mgen n m X) (mgen n m G) gin = Ok (l, mgen n m D) /\ forall i j, (i < n)%nat -> (j < m)%nat -> within 27 (D i j).
Proof.
  intros l n m X G gin K Fi Hm Hg HX HG. destruct Hkd as [Q|Q].
  - eexists. split; [unfold layBackward; rewrite K, Q, Fi, bwdSoftmax_gen by auto; reflexivity|]. intros i j Hi Hj. destruct (HG i j Hi Hj). apply back_small; auto. apply p_prob; auto. apply std_unit, S.
  - eexists. split; [unfold layBackward; rewrite K, Q, Fi, bwdAct_gen by auto; reflexivity|]. intros i j Hi Hj. destruct (HG i j Hi Hj) as [A B]. cbv beta zeta. cbn [act_deriv fdiv fadd fopp fsub fmul f1 flm B32Ops]. pose proof max_big.
    assert (P : btw 0 1 (b32_div one (b32_add one (lm Lexp (Bopp (X i j)))))) by apply (sig lm pw S _ (HX i j)). set (s := b32_div one _) in *. change (b32_div one _) with s. destruct (btw_val _ _ _ P ltac:(lra) ltac:(lra)) as [P1 P2].
    assert (C : prob (b32_sub one s)) by (apply one_minus; split; auto). destruct C as [C1 C2]. assert (Q' : btw (-1) 1 (b32_mul s (b32_sub one s))). { apply mul_btw; auto; try lra; [apply (fmt_Z (-1)); lia | apply (fmt_Z 1); lia |]. nra. }
    destruct (mul_unit _ (G i j) Q' A) as [R1 R2]. split; auto. lra.
Qed.
End B32.
