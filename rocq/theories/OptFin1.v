(* OptFin1.v - floats of bounded magnitude *)
From Coq Require Import List Arith ZArith Reals Lra Lia Bool.
From Flocq Require Import Core IEEE754.BinarySingleNaN.
From Verif Require Import Base Scalar B32Int SpecRound RoundProofs1 SpecNaN B32Kit NaNAct SpecSoft SoftProofs1 SpecStay.
Import ListNotations.
Local Open Scope R_scope.
Local Opaque b32_add b32_sub b32_mul b32_div b32_sqrt b32_of_Z Bopp Babs.

Definition rg (lo hi : R) (x : b32) : Prop := fin x /\ lo <= val x <= hi.
Notation nn z x := (rg 0 (p2 z) x).

Lemma p2_pos : forall z, 0 < p2 z. Proof. intro. apply bpow_gt_0. Qed.
Lemma p2_le : forall a b, (a <= b)%Z -> p2 a <= p2 b. Proof. intros. apply bpow_le. auto. Qed.
Lemma p2_mul : forall a b, p2 a * p2 b = p2 (a + b). Proof. intros. unfold p2. rewrite bpow_plus. reflexivity. Qed.
Lemma p2_S : forall a, p2 (a + 1) = 2 * p2 a. Proof. intros. rewrite <- p2_mul. change (p2 1) with 2. ring. Qed.
Lemma p2_lt_max : forall z, (z <= 127)%Z -> p2 z < max32. Proof. intros. apply bpow_lt. lia. Qed.
Lemma fmt_dy : forall n e, (Z.abs n < 2 ^ 24)%Z -> (-149 <= e)%Z -> fmt (IZR n * p2 e).
Proof. intros n e Hn He. apply generic_format_FLT. apply FLT_spec with (Float radix2 n e); auto. Qed.

Lemma within_rg : forall z x, within z x <-> rg (- p2 z) (p2 z) x.
Proof. intros z x. unfold within, rg. split; intros [A B]; split; auto; [apply Rabs_le_inv in B; lra | apply Rabs_le; lra]. Qed.
Lemma rg_w : forall lo hi lo' hi' x, rg lo hi x -> lo' <= lo -> hi <= hi' -> rg lo' hi' x.
Proof. intros lo hi lo' hi' x [A B] C D. split; auto. lra. Qed.
Lemma within_w : forall a b x, within a x -> (a <= b)%Z -> within b x.
Proof. intros a b x [A B] H. split; auto. pose proof (p2_le a b H). lra. Qed.
Lemma nn_within : forall z x, nn z x -> within z x.
Proof. intros z x [A B]. split; auto. rewrite Rabs_pos_eq; lra. Qed.

Section Op.
Variables (lo hi : R) (x y : b32).
Hypotheses (Hx : fin x) (Hy : fin y) (Fl : fmt lo) (Fh : fmt hi) (Hl : - max32 < lo) (Hh : hi < max32).
Lemma rg_mul : lo <= val x * val y <= hi -> rg lo hi (b32_mul x y).
Proof. intro H. apply btw_val; auto. apply mul_btw; auto; lra. Qed.
Lemma rg_add : lo <= val x + val y <= hi -> rg lo hi (b32_add x y).
Proof. intro H. apply btw_val; auto. apply add_btw; auto; lra. Qed.
Lemma rg_sub : lo <= val x - val y <= hi -> rg lo hi (b32_sub x y).
Proof. intro H. apply btw_val; auto. apply sub_btw; auto; lra. Qed.
Lemma rg_div : val y <> 0 -> lo <= val x / val y <= hi -> rg lo hi (b32_div x y).
Proof. intros N H. apply btw_val; auto. apply div_btw; auto; lra. Qed.
End Op.

(* a sum that is a little above a power of two is rounded down to it *)
Lemma rnd_cap : forall k r, (-100 <= k)%Z -> r <= p2 k + p2 (k - 25) -> rnd32 r <= p2 k.
Proof.
  intros k r Hk H. apply Rnot_lt_le. intro L. 
  assert (V : Valid_exp (FLT_exp (-149) 24)) by (apply FLT_exp_valid; reflexivity).
  assert (Q : rnd32 r <= p2 k); [|lra]. apply (@round_N_le_midp radix2 (FLT_exp (-149) 24) V (fun x => negb (Z.even x))); [apply fmt_p2; lia|].
  assert (S : succ radix2 (FLT_exp (-149) 24) (p2 k) = p2 k + p2 (k - 23)).
  { rewrite succ_eq_pos by (left; apply p2_pos). f_equal. unfold p2. rewrite ulp_bpow. f_equal. unfold FLT_exp. lia. }
  rewrite S. assert (A : p2 (k - 23) = 4 * p2 (k - 25)). { replace (k - 23)%Z with (k - 25 + 1 + 1)%Z by lia. rewrite !p2_S. ring. } pose proof (p2_pos (k - 25)). lra.
Qed.
Lemma rnd_cap' : forall k r, (-100 <= k)%Z -> - (p2 k + p2 (k - 25)) <= r -> - p2 k <= rnd32 r.
Proof.
  intros k r Hk H. assert (A : rnd32 (- r) <= p2 k) by (apply rnd_cap; auto; lra). replace (- r) with (- 1 * r) in A by ring.
  assert (E : rnd32 (- r) = - rnd32 r). { apply round_NE_opp. } replace (-1 * r) with (- r) in A by ring. rewrite E in A. lra.
Qed.
Lemma cap_add : forall k x y, (-100 <= k <= 126)%Z -> fin x -> fin y -> - (p2 k + p2 (k - 25)) <= val x + val y <= p2 k + p2 (k - 25) -> rg (- p2 k) (p2 k) (b32_add x y).
Proof.
  intros k x y Hk Hx Hy H. assert (P : p2 (k - 25) <= p2 k) by (apply p2_le; lia). pose proof (p2_S k). pose proof (p2_lt_max (k + 1) ltac:(lia)).
  destruct (rg_add (- p2 (k + 1)) (p2 (k + 1)) x y) as [A B]; auto; try lra; [apply fmt_opp, fmt_p2; lia | apply fmt_p2; lia|].
  split; auto. destruct (add_fin _ _ A) as (_ & _ & E). rewrite E. split; [apply rnd_cap' | apply rnd_cap]; lra || lia.
Qed.
Lemma cap_sub : forall k x y, (-100 <= k <= 126)%Z -> fin x -> fin y -> - (p2 k + p2 (k - 25)) <= val x - val y <= p2 k + p2 (k - 25) -> rg (- p2 k) (p2 k) (b32_sub x y).
Proof.
  intros k x y Hk Hx Hy H. assert (P : p2 (k - 25) <= p2 k) by (apply p2_le; lia). pose proof (p2_S k). pose proof (p2_lt_max (k + 1) ltac:(lia)).
  destruct (rg_sub (- p2 (k + 1)) (p2 (k + 1)) x y) as [A B]; auto; try lra; [apply fmt_opp, fmt_p2; lia | apply fmt_p2; lia|].
  split; auto. rewrite (sub_fin _ _ Hx Hy A). split; [apply rnd_cap' | apply rnd_cap]; lra || lia.
Qed.

Section W.
Variables (x y : b32).
Lemma w_mul : forall a b c, within a x -> within b y -> (a + b <= c)%Z -> (-149 <= c <= 127)%Z -> within c (b32_mul x y).
Proof.
  intros a b c [A B] [C D] H K. apply within_rg. pose proof (p2_lt_max c ltac:(lia)). pose proof (p2_pos c). apply rg_mul; auto; try lra; [apply fmt_opp, fmt_p2; lia | apply fmt_p2; lia|].
  apply Rabs_le_inv. rewrite Rabs_mult. apply Rle_trans with (p2 a * p2 b); [|rewrite p2_mul; apply p2_le; auto]. apply Rmult_le_compat; auto; apply Rabs_pos.
Qed.
Lemma w_add : forall a b c, within a x -> within b y -> (a < c)%Z -> (b < c)%Z -> (-149 <= c <= 127)%Z -> within c (b32_add x y).
Proof.
  intros a b c [A B] [C D] Ha Hb K. apply within_rg. pose proof (p2_lt_max c ltac:(lia)). pose proof (p2_pos c). apply rg_add; auto; try lra; [apply fmt_opp, fmt_p2; lia | apply fmt_p2; lia|].
  pose proof (p2_le a (c - 1) ltac:(lia)). pose proof (p2_le b (c - 1) ltac:(lia)). pose proof (p2_S (c - 1)) as E. replace (c - 1 + 1)%Z with c in E by lia. apply Rabs_le_inv in B, D. lra.
Qed.
Lemma w_cap : forall k a, within k x -> within a y -> (a <= k - 25)%Z -> (-100 <= k <= 126)%Z -> within k (b32_add x y).
Proof. intros k a [A B] [C D] H K. apply within_rg. apply cap_add; auto. pose proof (p2_le _ _ H). apply Rabs_le_inv in B, D. lra. Qed.
Lemma w_caps : forall k a, within k x -> within a y -> (a <= k - 25)%Z -> (-100 <= k <= 126)%Z -> within k (b32_sub x y).
Proof. intros k a [A B] [C D] H K. apply within_rg. apply cap_sub; auto. pose proof (p2_le _ _ H). apply Rabs_le_inv in B, D. lra. Qed.
Lemma w_div : forall a b c, within a x -> fin y -> p2 b <= Rabs (val y) -> (a - b <= c)%Z -> (-149 <= c <= 127)%Z -> within c (b32_div x y).
Proof.
  intros a b c [A B] Hy D H K. apply within_rg. pose proof (p2_lt_max c ltac:(lia)). pose proof (p2_pos c). pose proof (p2_pos b). assert (N : val y <> 0) by (intro E; rewrite E, Rabs_R0 in D; lra).
  apply rg_div; auto; try lra; [apply fmt_opp, fmt_p2; lia | apply fmt_p2; lia|]. apply Rabs_le_inv. unfold Rdiv. rewrite Rabs_mult, Rabs_inv. apply Rle_trans with (p2 a * p2 (- b)); [|rewrite p2_mul; apply p2_le; lia].
  apply Rmult_le_compat; auto; try apply Rabs_pos; [left; apply Rinv_0_lt_compat; lra|]. unfold p2. rewrite bpow_opp. apply Rinv_le_contravar; auto.
Qed.
Lemma n_mul : forall a b c, nn a x -> nn b y -> (a + b <= c)%Z -> (-149 <= c <= 127)%Z -> nn c (b32_mul x y).
Proof.
  intros a b c [A B] [C D] H K. pose proof (p2_lt_max c ltac:(lia)). pose proof (p2_pos c). pose proof max_pos. apply rg_mul; auto; try lra; [apply fmt_0 | apply fmt_p2; lia|].
  split; [nra|]. apply Rle_trans with (p2 a * p2 b); [nra | rewrite p2_mul; apply p2_le; auto].
Qed.
Lemma n_cap : forall k a, nn k x -> nn a y -> (a <= k - 25)%Z -> (-100 <= k <= 126)%Z -> nn k (b32_add x y).
Proof.
  intros k a [A B] [C D] H K. pose proof (p2_le _ _ H). destruct (cap_add k x y) as [E G]; auto; [pose proof (p2_pos (k - 25)); lra|]. split; auto. split; [|lra].
  destruct (add_fin _ _ E) as (_ & _ & ->). apply rnd_ge; [apply fmt_0 | lra].
Qed.
Lemma n_sqr : forall a, within a x -> (-149 <= 2 * a <= 127)%Z -> nn (2 * a) (b32_mul x x).
Proof.
  intros a [A B] K. pose proof (p2_lt_max (2 * a) ltac:(lia)). pose proof max_pos. apply rg_mul; auto; try lra; [apply fmt_0 | apply fmt_p2; lia|]. split; [nra|].
  replace (val x * val x) with (Rabs (val x) * Rabs (val x)) by (rewrite <- Rabs_mult; apply Rabs_pos_eq; nra). apply Rle_trans with (p2 a * p2 a); [|rewrite p2_mul; apply p2_le; lia]. pose proof (Rabs_pos (val x)). nra.
Qed.
Lemma n_sqrt : forall z, nn z x -> (0 <= z)%Z -> nn z (b32_sqrt x).
Proof.
  intros z [Hx Bx] Hz. Local Transparent b32_sqrt. unfold b32_sqrt. destruct (Bsqrt_correct 24 128 prec32_gt_0 prec32_lt mode_NE x) as (C1 & C2 & _).
  assert (Hf : is_finite (@Bsqrt 24 128 prec32_gt_0 prec32_lt mode_NE x) = true). { rewrite C2. destruct x as [b|b| |b m e He]; try discriminate Hx; auto. destruct b; auto. exfalso. assert (val (B754_finite true m e He) < 0) by (unfold val; simpl; apply F2R_lt_0; simpl; lia). lra. }
  split; [exact Hf|]. unfold val in *. rewrite C1. assert (P : 1 <= p2 z) by (apply (p2_le 0); auto). split; [apply rnd_ge; [apply fmt_0 | apply sqrt_pos] | apply rnd_le; [apply fmt_p2; lia|]].
  rewrite <- (sqrt_square (p2 z)) by lra. apply sqrt_le_1_alt. nra.
Qed.
End W.
Lemma w_opp : forall z x, within z x -> within z (Bopp x).
Proof. intros z x [A B]. split; [apply fin_opp; auto|]. rewrite val_opp, Rabs_Ropp. auto. Qed.
Lemma w_abs : forall z x, within z x -> nn z (Babs x).
Proof. intros z x [A B]. split; [apply fin_abs; auto|]. rewrite val_abs. split; auto. apply Rabs_pos. Qed.
Lemma w_Z : forall n z, (Z.abs n <= 2 ^ 24)%Z -> Rabs (IZR n) <= p2 z -> within z (b32_of_Z n).
Proof. intros n z A B. destruct (ofZ_val n A) as [C D]. split; auto. rewrite D. auto. Qed.
