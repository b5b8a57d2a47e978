(* LibmRound.v - a correctly rounded C library meets stdLibm *)
From Coq Require Import List Arith ZArith Reals Lra Lia Bool.
From Flocq Require Import Core IEEE754.BinarySingleNaN.
From Verif Require Import Base Scalar B32Int SpecRound RoundProofs1 SpecNaN B32Kit NaNAct SpecSoft SoftProofs1 B32OfR.
Import ListNotations.
Local Open Scope R_scope.

(** * bounds of the real functions *)
Lemma expn : forall n x, exp (INR n * x) = exp x ^ n.
Proof. induction n as [|n IH]; intro x; [simpl; rewrite Rmult_0_l; apply exp_0|]. rewrite S_INR. cbn [pow]. rewrite <- IH, <- exp_plus. f_equal. ring. Qed.
Lemma powq : forall a b n c d, (0 < b)%Z -> (0 < d)%Z -> (a ^ Z.of_nat n * d <=? c * b ^ Z.of_nat n)%Z = true -> (IZR a / IZR b) ^ n <= IZR c / IZR d.
Proof.
  intros a b n c d B D H. apply Z.leb_le in H. apply IZR_le in H. rewrite !mult_IZR, <- !pow_IZR in H. apply IZR_lt in B, D. unfold Rdiv. rewrite Rpow_mult_distr, pow_inv by lra.
  assert (0 < IZR b ^ n) by (apply pow_lt; lra). apply Rmult_le_reg_r with (IZR b ^ n * IZR d); [nra|].
  replace (IZR a ^ n * / IZR b ^ n * (IZR b ^ n * IZR d)) with (IZR a ^ n * IZR d) by (field; lra). replace (IZR c * / IZR d * (IZR b ^ n * IZR d)) with (IZR c * IZR b ^ n) by (field; lra). exact H.
Qed.
Lemma powq' : forall a b n c d, (0 < b)%Z -> (0 < d)%Z -> (c * b ^ Z.of_nat n <=? a ^ Z.of_nat n * d)%Z = true -> IZR c / IZR d <= (IZR a / IZR b) ^ n.
Proof.
  intros a b n c d B D H. apply Z.leb_le in H. apply IZR_le in H. rewrite !mult_IZR, <- !pow_IZR in H. apply IZR_lt in B, D. unfold Rdiv. rewrite Rpow_mult_distr, pow_inv by lra.
  assert (0 < IZR b ^ n) by (apply pow_lt; lra). apply Rmult_le_reg_r with (IZR b ^ n * IZR d); [nra|].
  replace (IZR a ^ n * / IZR b ^ n * (IZR b ^ n * IZR d)) with (IZR a ^ n * IZR d) by (field; lra). replace (IZR c * / IZR d * (IZR b ^ n * IZR d)) with (IZR c * IZR b ^ n) by (field; lra). exact H.
Qed.
Lemma e_hi : exp 1 <= 2729 / 1000.
Proof.
  assert (A : exp (/ 128) <= 128 / 127). { pose proof (exp_ineq1_le (- / 128)) as H. rewrite exp_Ropp in H. pose proof (Exp_prop.exp_pos (/ 128)). replace (128 / 127) with (/ (1 - / 128)) by field. rewrite <- (Rinv_inv (exp (/ 128))). apply Rinv_le_contravar; lra. }
  replace 1 with (INR 128 * / 128) by (simpl; lra). rewrite expn. eapply Rle_trans; [apply pow_incr; split; [left; apply Exp_prop.exp_pos | exact A]|]. apply (powq 128 127 128 2729 1000); [lia | lia | vm_compute; reflexivity].
Qed.
Lemma e_lo : 2712 / 1000 <= exp 1.
Proof.
  pose proof (exp_ineq1_le (/ 256)) as A. replace 1 with (INR 256 * / 256) by (simpl; lra). rewrite expn. eapply Rle_trans; [apply (powq' 257 256 256 2712 1000); [lia | lia | vm_compute; reflexivity]|]. apply pow_incr. lra.
Qed.
Lemma exp_N_hi : forall n, exp (INR n) <= (2729 / 1000) ^ n.
Proof. intro n. replace (INR n) with (INR n * 1) by ring. rewrite expn. apply pow_incr. split; [left; apply Exp_prop.exp_pos | apply e_hi]. Qed.
Lemma exp_32 : exp 32 <= p2 47.
Proof. replace 32 with (INR 32) by (simpl; lra). eapply Rle_trans; [apply exp_N_hi|]. replace (p2 47) with (IZR (2 ^ 47) / IZR 1) by (unfold p2; simpl; lra). apply (powq 2729 1000 32); [lia | lia | vm_compute; reflexivity]. Qed.
Lemma exp_64 : exp 64 <= p2 93.
Proof. replace 64 with (INR 64) by (simpl; lra). eapply Rle_trans; [apply exp_N_hi|]. replace (p2 93) with (IZR (2 ^ 93) / IZR 1) by (unfold p2; simpl; lra). apply (powq 2729 1000 64); [lia | lia | vm_compute; reflexivity]. Qed.
Lemma exp_89 : max32 <= exp 89.
Proof.
  replace 89 with (INR 89 * 1) by (simpl; lra). rewrite expn. apply Rle_trans with ((2712 / 1000) ^ 89); [|apply pow_incr; split; [lra | apply e_lo]].
  replace max32 with (IZR (2 ^ 128) / IZR 1) by (unfold max32; simpl; lra). apply (powq' 2712 1000 89); [lia | lia | vm_compute; reflexivity].
Qed.
Lemma exp_mono : forall a b, a <= b -> exp a <= exp b.
Proof. intros a b [H| ->]; [left; apply exp_increasing; auto | lra]. Qed.
Lemma ln_mono : forall a b, 0 < a -> a <= b -> ln a <= ln b.
Proof. intros a b P [H| ->]; [left; apply ln_increasing; auto | lra]. Qed.
Lemma ln_2 : 0 < ln 2 <= 3 / 4.
Proof.
  split; [rewrite <- ln_1; apply ln_increasing; lra|]. rewrite <- (ln_exp (3 / 4)). apply ln_mono; [lra|]. replace (3 / 4) with (INR 6 * (1 / 8)) by (simpl; lra). rewrite expn. pose proof (exp_ineq1_le (1 / 8)).
  apply Rle_trans with ((9 / 8) ^ 6); [simpl; lra | apply pow_incr; lra].
Qed.
Lemma ln_p2 : forall z, ln (p2 z) = IZR z * ln 2.
Proof. intro z. unfold p2. rewrite bpow_powerRZ, powerRZ_Rpower by (simpl; lra). unfold Rpower. rewrite ln_exp. reflexivity. Qed.
Lemma sinh_cosh : forall x, 1 <= cosh x /\ - cosh x <= sinh x <= cosh x.
Proof. intro x. unfold cosh, sinh. pose proof (exp_ineq1_le x). pose proof (exp_ineq1_le (- x)). pose proof (Exp_prop.exp_pos x). pose proof (Exp_prop.exp_pos (- x)). lra. Qed.
Lemma tanh_in : forall x, -1 <= tanh x <= 1.
Proof.
  intro x. destruct (sinh_cosh x) as [A B]. unfold tanh. split; [apply Rmult_le_reg_r with (cosh x) | apply Rmult_le_reg_r with (cosh x)]; try lra; unfold Rdiv; rewrite Rmult_assoc, Rinv_l by lra; lra.
Qed.
Lemma PI_gt3 : 3 < PI. Proof. pose proof PI2_3_2. lra. Qed.
Lemma cos_half : forall x, Rabs x <= 1 -> / 2 <= cos x.
Proof.
  assert (G : forall x, 0 <= x <= 1 -> / 2 <= cos x). { intros x H. replace (/ 2) with (cos (PI / 3)) by (rewrite cos_PI3; lra). pose proof PI_gt3. apply cos_decr_1; lra. }
  intros x H. apply Rabs_le_inv in H. destruct (Rle_lt_dec 0 x); [apply G; lra|]. rewrite <- cos_neg. apply G. lra.
Qed.
Lemma cos_07 : forall x, 0 <= x <= / 2 -> 7 / 10 <= cos x.
Proof.
  intros x H. apply Rle_trans with (cos (PI / 4)); [|pose proof PI_gt3; apply cos_decr_1; lra]. rewrite cos_PI4. assert (A : 0 < sqrt 2) by (apply sqrt_lt_R0; lra). assert (B : sqrt 2 * sqrt 2 = 2) by (apply sqrt_sqrt; lra).
  assert (sqrt 2 <= 10 / 7) by nra. replace (1 / sqrt 2) with (sqrt 2 / 2) by (rewrite <- B at 2; field; lra). nra.
Qed.
Lemma sin_low : forall x, 0 < x <= 1 -> (x <= / 2 -> 7 / 10 * x <= sin x) /\ x / 2 <= sin x.
Proof.
  intros x H. destruct (MVT_cor2 sin cos 0 x ltac:(lra) ltac:(intros; apply derivable_pt_lim_sin)) as (c & E & C). rewrite sin_0, !Rminus_0_r in E. rewrite E. split.
  - intro H2. pose proof (cos_07 c ltac:(lra)). nra.
  - pose proof (cos_half c ltac:(apply Rabs_le; lra)). nra.
Qed.
Lemma asinh_in : forall x, Rabs x <= max32 -> Rabs (arcsinh x) <= 100.
Proof.
  intros x H. apply Rabs_le_inv in H. assert (M : 1 < max32) by (unfold max32; simpl; lra). pose proof (sqrt_sqrt (x ^ 2 + 1) ltac:(nra)) as Q. pose proof (sqrt_pos (x ^ 2 + 1)) as P.
  unfold arcsinh. set (s := sqrt (x ^ 2 + 1)) in *. assert (S1 : s <= 2 * max32) by (apply Rnot_lt_le; intro; nra). assert (S2 : Rabs x < s) by (unfold Rabs; destruct (Rcase_abs x); nra). apply Rabs_def2 in S2.
  assert (B : p2 130 = 4 * max32) by (unfold p2, max32; change 4 with (bpow radix2 2); rewrite <- bpow_plus; reflexivity). assert (I : (x + s) * (s - x) = 1) by nra.
  destruct ln_2 as [L0 L1]. apply Rabs_le. split.
  - apply Rle_trans with (ln (p2 (-130))); [rewrite ln_p2; lra|]. apply ln_mono; [apply bpow_gt_0|]. replace (p2 (-130)) with (/ p2 130) by (unfold p2; rewrite <- bpow_opp; reflexivity). rewrite B. apply Rmult_le_reg_r with (4 * max32); [lra|]. rewrite Rinv_l by lra. nra.
  - apply Rle_trans with (ln (p2 130)); [|rewrite ln_p2; lra]. apply ln_mono; lra.
Qed.

(** * rounding *)
Lemma ofR_num : forall r, num (ofR r).
Proof. intro r. pose proof (ofR_spec r) as C. destruct (Rlt_bool _ _); [apply fin_num; tauto | rewrite C; reflexivity]. Qed.
Lemma p2_above : forall r, exists z, (128 <= z)%Z /\ r <= p2 z.
Proof.
  intro r. exists (Z.max 128 (Raux.mag radix2 r)). split; [lia|]. pose proof (bpow_mag_gt radix2 r) as H. assert (bpow radix2 (Raux.mag radix2 r) <= p2 (Z.max 128 (Raux.mag radix2 r))) by (apply bpow_le; lia). pose proof (Rle_abs r). lra.
Qed.
Lemma ofR_lo : forall lo r, fmt lo -> lo <= max32 -> lo <= r -> btw lo max32 (ofR r).
Proof. intros lo r Fl Hl B. destruct (p2_above r) as (z & Z & H). apply btw_cap with (p2 z). apply ofR_btw; auto; [apply fmt_p2; lia|]. pose proof (bpow_gt_0 radix2 z). pose proof max_pos. unfold p2. lra. Qed.
Lemma ofR_big : forall r, max32 <= r -> ofR r = inf32 false.
Proof. intros r H. apply ext_inf; [apply ofR_num|]. destruct (ofR_lo max32 r fmt_max ltac:(lra) H) as [_ B]. lra. Qed.
Lemma ofR_pos : forall r, 7 / 10 * p2 (-149) <= r -> 0 < ext (ofR r).
Proof.
  intros r H. pose proof (ofR_num r) as N. assert (P : 0 < p2 (-149)) by apply bpow_gt_0. destruct (fin_cases _ N) as [Hf|[s E]].
  - rewrite fin_ext by auto. pose proof (ofR_spec r) as C. destruct (Rlt_bool_spec (Rabs (rnd32 r)) (bpow radix2 128)) as [L|L]; [|rewrite C in Hf; discriminate Hf]. destruct C as [-> _].
    pose proof (round_err r) as R. rewrite Rabs_pos_eq with (x := r) in R by lra. apply Rabs_le_inv in R. assert (eta32 = p2 (-149) / 2) by (unfold eta32, p2; change (-149)%Z with (-150 + 1)%Z; rewrite bpow_plus; change (bpow radix2 1) with 2; lra). assert (u32 < / 100) by (unfold u32; simpl; lra). nra.
  - rewrite E. pose proof (ofR_lo 0 r fmt_0 ltac:(pose proof max_pos; lra) ltac:(lra)) as [_ B]. rewrite E in B. destruct s; cbn [ext inf32] in *; pose proof max_pos; lra.
Qed.

(** * the library *)
Definition on (f : R -> R) (neg pos : b32) (x : b32) : b32 :=
  match x with B754_nan => B754_nan | B754_infinity true => neg | B754_infinity false => pos | _ => ofR (f (val x)) end.
Definition log1pB (x : b32) : b32 :=
  match x with B754_nan | B754_infinity true => B754_nan | B754_infinity false => inf32 false
  | _ => if Rlt_bool (val x) (-1) then B754_nan else if Req_bool (val x) (-1) then inf32 true else ofR (ln (1 + val x)) end.
(* the error function is not in the standard library of Coq; its range is all that matters here, tanh stands for it *)
Definition exactLm (f : libm) (x : b32) : b32 :=
  match f with
  | Lexp => expB x | Llog => logB x
  | Lexpm1 => on (fun v => exp v - 1) (b32_of_Z (-1)) (inf32 false) x
  | Llog1p => log1pB x
  | Ltanh | Lerf => on tanh (b32_of_Z (-1)) (b32_of_Z 1) x
  | Lcosh => on cosh (inf32 false) (inf32 false) x
  | Lsin => on sin B754_nan B754_nan x
  | Lcos => on cos B754_nan B754_nan x
  | Latan => on atan (ofR (- (PI / 2))) (ofR (PI / 2)) x
  | Lasinh => on arcsinh (inf32 true) (inf32 false) x
  | _ => z32
  end.
(* powf of a positive base *)
Definition exactPw (x y : b32) : b32 :=
  match x with
  | B754_infinity _ => if Req_bool (val y) 0 then one else if Rlt_bool (val y) 0 then z32 else inf32 false
  | _ => ofR (Rpower (val x) (val y))
  end.
Lemma on_fin : forall f a b x, fin x -> on f a b x = ofR (f (val x)).
Proof. intros f a b [|[]| |] H; try discriminate H; reflexivity. Qed.
Lemma fin_min : forall x : b32, fin x -> 0 < val x -> p2 (-149) <= val x.
Proof.
  intros x Hx P. assert (H : is_finite_strict x = true) by (destruct x; try discriminate Hx; [simpl in P; lra | reflexivity]). pose proof (abs_B2R_ge_emin 24 128 x H) as Q. change (B2R x) with (val x) in Q. rewrite Rabs_pos_eq in Q by lra. exact Q.
Qed.
Lemma logB_pos : forall x, fin x -> 0 < val x -> logB x = ofR (ln (val x)).
Proof.
  intros x Hx P. destruct x as [s|s| |s m e B]; try discriminate Hx; [simpl in P; lra|]. destruct s; [|reflexivity]. exfalso. assert (val (B754_finite true m e B) <= 0) by (unfold val; simpl; apply F2R_le_0; simpl; lia). lra.
Qed.
Lemma log1pB_pos : forall x, fin x -> 0 <= val x -> log1pB x = ofR (ln (1 + val x)).
Proof.
  intros x Hx P. unfold log1pB. destruct x as [s|s| |s m e B]; try discriminate Hx; rewrite Rlt_bool_false, Req_bool_false by lra; reflexivity.
Qed.
Lemma inf_btw0 : forall lo, lo <= max32 -> btw lo max32 (inf32 false). Proof. intros lo H. split; [reflexivity|]. cbn [ext inf32]. lra. Qed.
Lemma z_btw : forall lo hi, lo <= 0 <= hi -> btw lo hi z32. Proof. intros. apply val_btw; [reflexivity|]. rewrite z_val. lra. Qed.
Lemma lit_btw : forall z lo hi, (Z.abs z <= 2 ^ 24)%Z -> lo <= IZR z <= hi -> btw lo hi (b32_of_Z z). Proof. intros z lo hi A B. destruct (ofZ_val z A) as [C D]. apply val_btw; auto. rewrite D. auto. Qed.

Theorem exact_std : stdLibm exactLm exactPw.
Proof.
  pose proof max_big as M. destruct ln_2 as [Ln0 Ln1]. assert (P47 : 1 < p2 47 < max32) by (split; [unfold p2; simpl; lra | apply bpow_lt; lia]). assert (Pm : 0 < p2 (-47) < 1) by (unfold p2; simpl; lra). assert (P93 : 1 < p2 93 < max32) by (split; [unfold p2; simpl; lra | apply bpow_lt; lia]). assert (P7 : p2 7 = 128) by (unfold p2; simpl; lra). assert (P10 : p2 10 = 1024) by (unfold p2; simpl; lra). assert (P11 : p2 11 = 2048) by (unfold p2; simpl; lra). assert (P149 : 0 < p2 (-149)) by apply bpow_gt_0.
  pose proof round_unit as RU. split.
  - intros x N. cbn [exactLm]. destruct (fin_cases x N) as [Hx|[[] ->]]; [rewrite expB_fin by auto | apply z_btw; lra | apply inf_btw0; lra]. pose proof (Exp_prop.exp_pos (val x)). apply ofR_lo; try lra. apply fmt_0.
  - intros x N B. apply (eu_range _ RU); auto.
  - intros x N B. cbn [exactLm]. destruct (fin_cases x N) as [Hx|[[] ->]]; [rewrite expB_fin by auto | cbn [ext inf32] in B; lra | apply inf_btw0; lra]. rewrite fin_ext in B by auto. apply ofR_lo; try lra; [apply (fmt_Z 1); lia|]. rewrite <- exp_0. apply exp_mono. auto.
  - intros x N B. apply Rabs_le_inv in B. cbn [exactLm]. destruct (fin_cases x N) as [Hx|[[] ->]]; [rewrite expB_fin by auto | cbn [ext inf32] in B; lra | cbn [ext inf32] in B; lra]. rewrite fin_ext in B by auto. apply ofR_btw; try lra; [apply fmt_p2; lia | apply fmt_p2; lia|].
    pose proof exp_32. split; [|eapply Rle_trans; [apply exp_mono|]; [|exact exp_32]; lra]. replace (val x) with (- - val x) by ring. rewrite exp_Ropp. replace (p2 (-47)) with (/ p2 47) by (unfold p2; rewrite <- bpow_opp; reflexivity). apply Rinv_le_contravar; [apply Exp_prop.exp_pos|]. eapply Rle_trans; [apply exp_mono|]; [|exact exp_32]; lra.
  - intros x N B. cbn [exactLm]. destruct (fin_cases x N) as [Hx|[[] ->]]; [rewrite expB_fin by auto | apply z_btw; lra | cbn [ext inf32] in B; lra]. rewrite fin_ext in B by auto. pose proof (Exp_prop.exp_pos (val x)). apply ofR_btw; try lra; [apply fmt_0 | apply fmt_p2; lia|]. split; [lra|]. eapply Rle_trans; [apply exp_mono; exact B | exact exp_64].
  - intros x N B. cbn [exactLm]. destruct (fin_cases x N) as [Hx|[[] ->]]; [rewrite expB_fin by auto | cbn [ext inf32] in B; lra | reflexivity]. rewrite fin_ext in B by auto. apply ofR_big. eapply Rle_trans; [exact exp_89 | apply exp_mono; exact B].
  - reflexivity.
  - intros x N B. cbn [exactLm]. destruct (fin_cases x N) as [Hx|[[] ->]]; [rewrite on_fin by auto | apply (lit_btw (-1)); [lia | lra] | cbn [ext inf32] in B; lra]. rewrite fin_ext in B by auto. pose proof (exp_le_1 _ B). apply ofR_btw; try lra; [apply (fmt_Z (-1)); lia | apply fmt_0].
  - intros x N B. cbn [exactLm]. destruct (fin_cases x N) as [Hx|[[] ->]]; [|cbn [ext inf32] in B; lra|reflexivity]. rewrite fin_ext in B by auto. destruct x as [s|s| |s m e Bd]; try discriminate Hx; [reflexivity|]. destruct s; [|apply ofR_num]. exfalso.
    assert (val (B754_finite true m e Bd) < 0) by (unfold val; simpl; apply F2R_lt_0; simpl; lia). lra.
  - intros x Hx B. cbn [exactLm]. rewrite logB_pos by auto. pose proof (fin_min x Hx B) as Q. pose proof (val_in x). apply ofR_btw; try lra; [apply fmt_opp, fmt_p2; lia | apply fmt_p2; lia|]. split.
    + apply Rle_trans with (ln (p2 (-149))); [rewrite ln_p2; lra | apply ln_mono; lra].
    + apply Rle_trans with (ln (p2 128)); [apply ln_mono; [lra|]; change (p2 128) with max32; lra | rewrite ln_p2; lra].
  - intros x N B. cbn [exactLm]. destruct (fin_cases x N) as [Hx|[[] ->]]; [|reflexivity|cbn [ext inf32] in B; lra]. rewrite fin_ext in B by auto. destruct x as [s|s| |s m e Bd]; try discriminate Hx; [simpl in B; lra|]. destruct s; [reflexivity|]. exfalso.
    assert (0 < val (B754_finite false m e Bd)) by (unfold val; simpl; apply F2R_gt_0; simpl; lia). lra.
  - intros x N B. cbn [exactLm]. destruct (fin_cases x N) as [Hx|[[] ->]]; [|cbn [ext inf32] in B; lra|apply inf_btw0; lra]. rewrite fin_ext in B by auto. rewrite log1pB_pos by auto. apply ofR_lo; try lra; [apply fmt_0|]. rewrite <- ln_1. apply ln_mono; lra.
  - intros x Hx B. cbn [exactLm]. rewrite log1pB_pos by auto. pose proof (val_in x). apply ofR_btw; try lra; [apply fmt_0 | apply fmt_p2; lia|]. split; [rewrite <- ln_1 at 1; apply ln_mono; lra|].
    apply Rle_trans with (ln (p2 129)); [apply ln_mono; [lra|]; replace (p2 129) with (2 * max32) by (unfold p2, max32; change 2 with (bpow radix2 1); rewrite <- bpow_plus; reflexivity); lra | rewrite ln_p2; lra].
  - reflexivity.
  - intros x N. cbn [exactLm]. destruct (fin_cases x N) as [Hx|[[] ->]]; [rewrite on_fin by auto | apply (lit_btw (-1)); [lia | lra] | apply (lit_btw 1); [lia | lra]]. pose proof (tanh_in (val x)). apply ofR_btw; try lra; [apply (fmt_Z (-1)); lia | apply (fmt_Z 1); lia].
  - intros x N. cbn [exactLm]. destruct (fin_cases x N) as [Hx|[[] ->]]; [rewrite on_fin by auto | apply inf_btw0; lra | apply inf_btw0; lra]. apply ofR_lo; try lra; [apply (fmt_Z 1); lia | apply sinh_cosh].
  - reflexivity.
  - intros x Hx. cbn [exactLm]. rewrite on_fin by auto. pose proof (SIN_bound (val x)). apply ofR_btw; try lra; [apply (fmt_Z (-1)); lia | apply (fmt_Z 1); lia].
  - intros x Hx B. cbn [exactLm]. rewrite on_fin by auto. destruct (sin_low (val x) B) as [S1 S2]. pose proof (fin_min x Hx ltac:(lra)). assert (p2 (-149) < / 100) by (unfold p2; simpl; lra). apply ofR_pos. destruct (Rle_lt_dec (val x) (/ 2)) as [L|L]; [pose proof (S1 L); lra | lra].
  - intros []; reflexivity.
  - intros x Hx. cbn [exactLm]. rewrite on_fin by auto. pose proof (COS_bound (val x)). apply ofR_btw; try lra; [apply (fmt_Z (-1)); lia | apply (fmt_Z 1); lia].
  - intros x Hx B. cbn [exactLm]. rewrite on_fin by auto. pose proof (COS_bound (val x)). pose proof (cos_half _ B). apply ofR_btw; try lra; [apply (fmt_p2 (-1)); lia | apply (fmt_Z 1); lia].
  - intros []; reflexivity.
  - intros x N. cbn [exactLm]. pose proof PI_4. pose proof PI_gt3. destruct (fin_cases x N) as [Hx|[[] ->]]; [rewrite on_fin by auto; pose proof (atan_bound (val x)) | cbn [on inf32] | cbn [on inf32]]; apply ofR_btw; try lra; try (apply (fmt_Z (-2)); lia); apply (fmt_Z 2); lia.
  - intros x Hx. cbn [exactLm]. rewrite on_fin by auto. pose proof (val_in x). pose proof (asinh_in (val x) ltac:(apply Rabs_le; lra)) as A. apply Rabs_le_inv in A. apply ofR_btw; try lra; [apply fmt_opp, fmt_p2; lia | apply fmt_p2; lia].
  - intros x N. cbn [exactLm]. destruct (fin_cases x N) as [Hx|[[] ->]]; [rewrite on_fin by auto | apply (lit_btw (-1)); [lia | lra] | apply (lit_btw 1); [lia | lra]]. pose proof (tanh_in (val x)). apply ofR_btw; try lra; [apply (fmt_Z (-1)); lia | apply (fmt_Z 1); lia].
  - intros x y [N B] Hy. unfold exactPw. assert (G : btw 0 max32 (ofR (Rpower (val x) (val y)))) by (apply ofR_lo; try lra; [apply fmt_0 | left; apply Exp_prop.exp_pos]).
    destruct x as [s|s| |s m e Bd]; auto. destruct (Req_bool _ _); [apply (lit_btw 1); [lia | lra]|]. destruct (Rlt_bool _ _); [apply z_btw; lra | apply inf_btw0; lra].
  - intros x y [N B] Hy Q. apply Rabs_le_inv in Q. assert (Hx : fin x). { destruct (fin_cases x N) as [Hx|[[] ->]]; auto; cbn [ext inf32] in B; lra. } rewrite fin_ext in B by auto.
    replace (exactPw x y) with (ofR (Rpower (val x) (val y))) by (destruct x; try discriminate Hx; reflexivity). pose proof (Exp_prop.exp_pos (val y * ln (val x))). apply ofR_btw; try lra; [apply fmt_0 | apply fmt_p2; lia|]. split; [left; apply Exp_prop.exp_pos|].
    unfold Rpower. apply Rle_trans with (exp (ln 1024)); [apply exp_mono | rewrite exp_ln by lra; lra]. assert (0 <= ln (val x)) by (rewrite <- ln_1; apply ln_mono; lra). assert (ln (val x) <= ln 1024) by (apply ln_mono; lra). nra.
Qed.
