(* RoundProofs1.v - rounding errors of sums of products *)
From Coq Require Import List Arith ZArith Reals Lra Lia Bool.
From Flocq Require Import Core Relative Plus_error IEEE754.BinarySingleNaN.
From Verif Require Import Base Scalar Mat SpecMat MatFacts MatProofs SpecRound.
Import ListNotations.
Local Open Scope R_scope.

Notation rnd32 := (round radix2 (SpecFloat.fexp 24 128) (round_mode mode_NE)).
Lemma u_pos : 0 < u32. Proof. apply bpow_gt_0. Qed.
Lemma eta_pos : 0 < eta32. Proof. apply bpow_gt_0. Qed.
Lemma fexp_eq : SpecFloat.fexp 24 128 = FLT_exp (-149) 24. Proof. reflexivity. Qed.
Lemma round_err : forall x, Rabs (rnd32 x - x) <= u32 * Rabs x + eta32.
Proof.
  intro x. rewrite fexp_eq. destruct (error_N_FLT radix2 (-149) 24 ltac:(lia) (fun x => negb (Z.even x)) x) as (eps & eta & H1 & H2 & _ & E).
  change (round_mode mode_NE) with (Znearest (fun x => negb (Z.even x))). rewrite E. replace (x * (1 + eps) + eta - x) with (x * eps + eta) by ring. eapply Rle_trans; [apply Rabs_triang|]. rewrite Rabs_mult.
  assert (A : Rabs eps <= u32). { eapply Rle_trans; [exact H1|]. unfold u32. simpl. lra. }
  assert (B : Rabs eta <= eta32). { eapply Rle_trans; [exact H2|]. unfold eta32. simpl. lra. }
  pose proof (Rabs_pos x). nra.
Qed.
Lemma format32 : forall x : b32, generic_format radix2 (FLT_exp (-149) 24) (B2R x).
Proof. intro x. rewrite <- fexp_eq. apply generic_format_B2R. Qed.
Lemma plus_err : forall x y : b32, Rabs (rnd32 (B2R x + B2R y) - (B2R x + B2R y)) <= u32 * Rabs (B2R x + B2R y).
Proof.
  intros x y. rewrite fexp_eq. pose proof prec32_gt_0 as P24. destruct (FLT_plus_error_N_ex radix2 (-149) 24 (fun x => negb (Z.even x)) _ _ (format32 x) (format32 y)) as (eps & H & E).
  change (round_mode mode_NE) with (Znearest (fun x => negb (Z.even x))). rewrite E. replace ((B2R x + B2R y) * (1 + eps) - (B2R x + B2R y)) with ((B2R x + B2R y) * eps) by ring. rewrite Rabs_mult.
  assert (A : Rabs eps <= u32). { eapply Rle_trans; [exact H|]. assert (Q : u_ro radix2 24 = u32) by (unfold u_ro, u32; simpl; lra). rewrite Q. pose proof u_pos. apply Rmult_le_reg_r with (1 + u32); [lra|]. unfold Rdiv. rewrite Rmult_assoc, Rinv_l by lra. nra. }
  pose proof (Rabs_pos (B2R x + B2R y)). nra.
Qed.

(* one product, one addition *)
Lemma mul_fin : forall x y : b32, fin (b32_mul x y) -> fin x /\ fin y /\ val (b32_mul x y) = rnd32 (val x * val y).
Proof.
  intros x y H. unfold fin, val, b32_mul in *. pose proof (Bmult_correct 24 128 prec32_gt_0 prec32_lt mode_NE x y) as C. destruct (Rlt_bool _ _).
  - destruct C as (C1 & C2 & _). rewrite C2 in H. apply andb_prop in H. tauto.
  - exfalso. destruct (Bmult mode_NE x y); try discriminate H; destruct (xorb (Bsign x) (Bsign y)); discriminate C.
Qed.
Lemma mul_small : forall x y : b32, fin x -> fin y -> (1 + u32) * Rabs (val x * val y) + eta32 < max32 -> fin (b32_mul x y).
Proof.
  intros x y Hx Hy H. unfold fin, val, b32_mul in *. pose proof (Bmult_correct 24 128 prec32_gt_0 prec32_lt mode_NE x y) as C. rewrite Rlt_bool_true in C.
  - destruct C as (_ & -> & _). rewrite Hx, Hy. reflexivity.
  - eapply Rle_lt_trans; [|exact H]. pose proof (round_err (B2R x * B2R y)) as E. pose proof (Rabs_triang (rnd32 (B2R x * B2R y) - B2R x * B2R y) (B2R x * B2R y)) as Q.
    replace (rnd32 (B2R x * B2R y) - B2R x * B2R y + B2R x * B2R y) with (rnd32 (B2R x * B2R y)) in Q by ring. lra.
Qed.
Lemma add_fin : forall x y : b32, fin (b32_add x y) -> fin x /\ fin y /\ val (b32_add x y) = rnd32 (val x + val y).
Proof.
  intros x y H. unfold fin, val, b32_add in *. assert (A : is_finite x = true /\ is_finite y = true).
  { destruct x as [sx|sx| |sx mx ex Hx], y as [sy|sy| |sy my ey Hy]; auto; try discriminate H; try (simpl in H; destruct sx, sy; discriminate H). }
  destruct A as [A B]. split; auto. split; auto. pose proof (Bplus_correct 24 128 prec32_gt_0 prec32_lt mode_NE x y A B) as C. destruct (Rlt_bool _ _); [apply C|].
  exfalso. destruct C as [C _]. destruct (Bplus mode_NE x y); try discriminate H; destruct (Bsign x); discriminate C.
Qed.
Lemma add_small : forall x y : b32, fin x -> fin y -> (1 + u32) * Rabs (val x + val y) < max32 -> fin (b32_add x y).
Proof.
  intros x y Hx Hy H. unfold fin, val, b32_add in *. pose proof (Bplus_correct 24 128 prec32_gt_0 prec32_lt mode_NE x y Hx Hy) as C. rewrite Rlt_bool_true in C; [apply C|].
  eapply Rle_lt_trans; [|exact H]. pose proof (plus_err x y) as E. pose proof (Rabs_triang (rnd32 (B2R x + B2R y) - (B2R x + B2R y)) (B2R x + B2R y)) as Q.
  replace (rnd32 (B2R x + B2R y) - (B2R x + B2R y) + (B2R x + B2R y)) with (rnd32 (B2R x + B2R y)) in Q by ring. lra.
Qed.

(* sums *)
Lemma rsum_ext : forall n f g, (forall i, (i < n)%nat -> f i = g i) -> rsum n f = rsum n g.
Proof. induction n; intros f g H; [reflexivity|]. simpl. rewrite (IHn f g) by (intros; apply H; lia). rewrite H by lia. reflexivity. Qed.
Lemma rsum_le : forall n f g, (forall i, (i < n)%nat -> f i <= g i) -> rsum n f <= rsum n g.
Proof. induction n; intros f g H; simpl; [lra|]. assert (rsum n f <= rsum n g) by (apply IHn; intros; apply H; lia). assert (f n <= g n) by (apply H; lia). lra. Qed.
Lemma rsum_pos : forall n f, (forall i, (i < n)%nat -> 0 <= f i) -> 0 <= rsum n f.
Proof. induction n; intros f H; simpl; [lra|]. assert (0 <= rsum n f) by (apply IHn; intros; apply H; lia). assert (0 <= f n) by (apply H; lia). lra. Qed.
Lemma rsum_abs : forall n f, Rabs (rsum n f) <= rsum n (fun i => Rabs (f i)).
Proof. induction n; intro f; simpl; [rewrite Rabs_R0; lra|]. eapply Rle_trans; [apply Rabs_triang|]. pose proof (IHn f). lra. Qed.
Lemma rsum_minus : forall n f g, rsum n f - rsum n g = rsum n (fun i => f i - g i).
Proof. induction n; intros f g; simpl; [lra|]. rewrite <- IHn. lra. Qed.

(* the size of the bound: about k+1 roundings *)
Theorem bound_size : forall n A, 2 * INR (n + 1) * u32 <= 1 -> 0 <= A -> dotErr n A <= 2 * INR (n + 1) * u32 * A + 2 * INR n * eta32.
Proof.
  intros n A H A0. pose proof u_pos as U. pose proof eta_pos as E.
  assert (P : forall q, 2 * INR q * u32 <= 1 -> (1 + u32) ^ q <= 1 + 2 * INR q * u32).
  { induction q as [|q IH]; intro Hq; [simpl; lra|]. rewrite S_INR in *. pose proof (pos_INR q). assert (L : 2 * INR q * u32 <= 1) by nra. specialize (IH L). cbn [pow]. assert (0 <= 2 * INR q * u32) by nra.
    assert ((1 + u32) * (1 + u32) ^ q <= (1 + u32) * (1 + 2 * INR q * u32)) by (apply Rmult_le_compat_l; lra). assert (2 * INR q * u32 * u32 <= 1 * u32) by (apply Rmult_le_compat_r; lra). nra. }
  unfold dotErr. pose proof (P _ H) as P1. assert (L : 2 * INR n * u32 <= 1). { rewrite plus_INR in H. simpl in H. pose proof (pos_INR n). nra. } pose proof (P _ L) as P2. pose proof (pos_INR n).
  apply Rplus_le_compat; [apply Rmult_le_compat_r; lra|]. apply Rmult_le_compat_r; [lra|]. rewrite (Rmult_comm 2). apply Rmult_le_compat_l; lra.
Qed.

Section Ops.
Variables (lm : libm -> b32 -> b32) (pw : b32 -> b32 -> b32) (junk : b32).
Let F := B32Ops lm pw junk.
Lemma fsum_S : forall n f, fsum F (S n) f = b32_add (fsum F n f) (f n).
Proof. intros. unfold fsum. rewrite seq_S, fold_left_app. reflexivity. Qed.
Lemma pow_u : forall n, 1 <= (1 + u32) ^ n.
Proof. intro n. apply pow_R1_Rle. pose proof u_pos. lra. Qed.
Lemma fsum_fin : forall n f, fin (fsum F n f) -> forall i, (i < n)%nat -> fin (f i).
Proof.
  induction n as [|n IH]; intros f H i Hi; [lia|]. rewrite fsum_S in H. apply add_fin in H. destruct H as (H1 & H2 & _). destruct (Nat.eq_dec i n) as [->|]; auto. apply IH; auto. lia.
Qed.
Lemma step_bound : forall q s p S P A E eta n, 0 <= q -> 0 <= eta -> Rabs (s - S) <= ((1 + q) ^ (n + 1) - 1) * A + INR n * (1 + q) ^ n * eta -> Rabs S <= A -> Rabs (p - P) <= q * Rabs P + eta ->
  Rabs (E - (s + p)) <= q * Rabs (s + p) -> Rabs (E - (S + P)) <= ((1 + q) ^ (n + 1 + 1) - 1) * (A + Rabs P) + INR (n + 1) * (1 + q) ^ (n + 1) * eta.
Proof.
  intros q s p S P A E eta n Hq He H1 H2 H3 H4. assert (A0 : 0 <= A) by (pose proof (Rabs_pos S); lra). pose proof (Rabs_pos P) as P0.
  assert (B1 : Rabs (E - (S + P)) <= q * Rabs (s + p) + Rabs (s - S) + Rabs (p - P)).
  { replace (E - (S + P)) with ((E - (s + p)) + ((s - S) + (p - P))) by ring. pose proof (Rabs_triang (E - (s + p)) ((s - S) + (p - P))). pose proof (Rabs_triang (s - S) (p - P)). lra. }
  assert (B2 : Rabs (s + p) <= Rabs (s - S) + Rabs S + (Rabs (p - P) + Rabs P)).
  { pose proof (Rabs_triang s p). pose proof (Rabs_triang (s - S) S) as U. pose proof (Rabs_triang (p - P) P) as V. replace (s - S + S) with s in U by ring. replace (p - P + P) with p in V by ring. lra. }
  set (a := Rabs (s - S)) in *. set (b := Rabs (p - P)) in *. set (c := Rabs (s + p)) in *. set (d := Rabs S) in *. set (r := Rabs P) in *.
  assert (W1 : 1 <= (1 + q) ^ n) by (apply pow_R1_Rle; lra). rewrite plus_INR. replace ((1 + q) ^ (n + 1 + 1)) with ((1 + q) * (1 + q) * (1 + q) ^ n) by (rewrite !pow_add; ring). replace ((1 + q) ^ (n + 1)) with ((1 + q) * (1 + q) ^ n) in * by (rewrite !pow_add; ring).
  set (w := (1 + q) ^ n) in *. simpl (INR 1). pose proof (pos_INR n) as Nn. set (v := INR n) in *.
  assert (C1 : Rabs (E - (S + P)) <= (1 + q) * a + q * A + ((1 + q) * b + q * r)). { assert (q * c <= q * (a + d + (b + r))) by (apply Rmult_le_compat_l; lra). assert (q * d <= q * A) by (apply Rmult_le_compat_l; lra). lra. }
  assert (C2 : (1 + q) * a <= (1 + q) * (((1 + q) * w - 1) * A + v * w * eta)) by (apply Rmult_le_compat_l; lra).
  assert (C3 : (1 + q) * b <= (1 + q) * (q * r + eta)) by (apply Rmult_le_compat_l; lra).
  assert (C4 : (1 + q) * (q * r) + q * r <= ((1 + q) * (1 + q) * w - 1) * r). { replace ((1 + q) * (q * r) + q * r) with (((1 + q) * (1 + q) - 1) * r) by ring. apply Rmult_le_compat_r; auto. assert (0 <= (1 + q) * (1 + q)) by nra. nra. }
  assert (C5 : (1 + q) * eta <= (1 + q) * w * eta). { apply Rmult_le_compat_r; auto. nra. }
  assert (C6 : (1 + q) * (v * w * eta) = v * ((1 + q) * w) * eta) by ring. lra.
Qed.
Lemma dot_err : forall n (a b : nat -> b32), fin (fsum F n (fun i => b32_mul (a i) (b i))) ->
  (forall i, (i < n)%nat -> fin (a i) /\ fin (b i)) /\
  Rabs (val (fsum F n (fun i => b32_mul (a i) (b i))) - rsum n (fun i => val (a i) * val (b i))) <= dotErr n (rsum n (fun i => Rabs (val (a i) * val (b i)))).
Proof.
  intros n a b. induction n as [|n IH]; intro H.
  - split; [lia|]. cbn [rsum]. unfold dotErr, fsum. simpl. unfold val. simpl. rewrite Rminus_0_r, Rabs_R0. lra.
  - rewrite fsum_S in *. destruct (add_fin _ _ H) as (H1 & H2 & E). destruct (mul_fin _ _ H2) as (H3 & H4 & Em). destruct (IH H1) as [I1 I2]. split.
    { intros i Hi. destruct (Nat.eq_dec i n) as [->|]; auto. apply I1. lia. }
    cbn [rsum]. rewrite <- Nat.add_1_r. unfold dotErr in *. eapply step_bound with (s := val (fsum F n (fun i => b32_mul (a i) (b i)))) (p := val (b32_mul (a n) (b n))).
    + apply Rlt_le, u_pos.
    + apply Rlt_le, eta_pos.
    + exact I2.
    + apply rsum_abs.
    + rewrite Em. apply round_err.
    + rewrite E. apply plus_err.
Qed.
Lemma mag_of : forall n A s S, Rabs (s - S) <= dotErr n A -> Rabs S <= A -> Rabs s <= dotMag n A.
Proof. intros n A s S H1 H2. unfold dotErr, dotMag in *. pose proof (Rabs_triang (s - S) S) as U. replace (s - S + S) with s in U by ring. lra. Qed.
Lemma mag_mono : forall n m A B, (n <= m)%nat -> 0 <= A -> A <= B -> dotMag n A <= dotMag m B.
Proof.
  intros n m A B H A0 AB. unfold dotMag. pose proof u_pos. pose proof eta_pos. assert (P : forall i j, (i <= j)%nat -> (1 + u32) ^ i <= (1 + u32) ^ j) by (intros; apply Rle_pow; [lra|auto]).
  pose proof (P (n + 1) (m + 1) ltac:(lia))%nat as P1. pose proof (P n m H) as P2. pose proof (pow_u n). pose proof (pow_u (n + 1)). assert (INR n <= INR m) by (apply le_INR; auto). pose proof (pos_INR n).
  apply Rplus_le_compat; [apply Rmult_le_compat; lra|]. apply Rmult_le_compat_r; [lra|]. apply Rmult_le_compat; lra.
Qed.
Lemma dot_small : forall n (a b : nat -> b32), (forall i, (i < n)%nat -> fin (a i) /\ fin (b i)) -> dotMag n (rsum n (fun i => Rabs (val (a i) * val (b i)))) < max32 -> fin (fsum F n (fun i => b32_mul (a i) (b i))).
Proof.
  intros n a b. induction n as [|n IH]; intros Hf Hm; [reflexivity|]. rewrite fsum_S. cbn [rsum] in Hm. set (A := rsum n (fun i => Rabs (val (a i) * val (b i)))) in *. set (r := Rabs (val (a n) * val (b n))) in *.
  assert (A0 : 0 <= A) by (apply rsum_pos; intros; apply Rabs_pos). assert (r0 : 0 <= r) by apply Rabs_pos. destruct (Hf n ltac:(lia)) as [Fa Fb].
  assert (F1 : fin (fsum F n (fun i => b32_mul (a i) (b i)))). { apply IH; [intros; apply Hf; lia|]. eapply Rle_lt_trans; [|exact Hm]. apply mag_mono; try lia; lra. }
  assert (F2 : fin (b32_mul (a n) (b n))). { apply mul_small; auto. eapply Rle_lt_trans; [|exact Hm]. fold r. unfold dotMag. rewrite S_INR. pose proof (pow_u (S n)) as W. pose proof (pow_u n) as W0. pose proof (pos_INR n). pose proof u_pos. pose proof eta_pos.
    replace ((1 + u32) ^ (S n + 1)) with ((1 + u32) * (1 + u32) ^ S n) by (rewrite pow_add; ring). assert (Q1 : (1 + u32) * r <= (1 + u32) * (1 + u32) ^ S n * (A + r)). { rewrite Rmult_assoc. apply Rmult_le_compat_l; [lra|]. replace r with (1 * r) at 1 by ring. apply Rmult_le_compat; lra. }
    assert (Q2 : 1 * eta32 <= (INR n + 1) * (1 + u32) ^ S n * eta32). { apply Rmult_le_compat_r; [lra|]. apply Rle_trans with (1 * 1); [lra|apply Rmult_le_compat; lra]. } lra. }
  apply add_small; auto.
  destruct (dot_err n a b F1) as [_ E]. destruct (mul_fin _ _ F2) as (_ & _ & Em).
  eapply Rle_lt_trans; [|exact Hm]. set (s := val (fsum F n (fun i => b32_mul (a i) (b i)))) in *. set (p := val (b32_mul (a n) (b n))) in *.
  assert (S1 : Rabs s <= dotMag n A) by (eapply mag_of; [exact E|apply rsum_abs]).
  assert (P1 : Rabs p <= (1 + u32) * r + eta32). { pose proof (round_err (val (a n) * val (b n))) as Q. rewrite <- Em in Q. fold p r in Q. pose proof (Rabs_triang (p - val (a n) * val (b n)) (val (a n) * val (b n))) as U. replace (p - val (a n) * val (b n) + val (a n) * val (b n)) with p in U by ring. fold r in U. lra. }
  pose proof (Rabs_triang s p) as T1. unfold dotMag in *. rewrite S_INR. pose proof u_pos. pose proof eta_pos. pose proof (pow_u n) as W. pose proof (pos_INR n). set (w := (1 + u32) ^ n) in *.
  replace ((1 + u32) ^ (S n + 1)) with ((1 + u32) * ((1 + u32) * w)) by (unfold w; rewrite pow_add; simpl; ring). replace ((1 + u32) ^ (S n)) with ((1 + u32) * w) by (unfold w; simpl; ring). replace ((1 + u32) ^ (n + 1)) with ((1 + u32) * w) in S1 by (unfold w; rewrite pow_add; simpl; ring).
  assert (Q : Rabs (s + p) <= ((1 + u32) * w) * (A + r) + (INR n + 1) * w * eta32). { assert ((1 + u32) * r <= (1 + u32) * w * r) by (apply Rmult_le_compat_r; auto; nra). assert (1 * eta32 <= w * eta32) by (apply Rmult_le_compat_r; lra). lra. }
  apply Rle_trans with ((1 + u32) * (((1 + u32) * w) * (A + r) + (INR n + 1) * w * eta32)); [apply Rmult_le_compat_l; lra|]. lra.
Qed.

(* the matrix product *)
Theorem product_error : forall n k m (a b : nat -> nat -> b32),
  exists c, mmul F (mgen n k a) (mgen k m b) = Ok (mgen n m c) /\ forall i j, (i < n)%nat -> (j < m)%nat ->
  (fin (c i j) -> (forall l, (l < k)%nat -> fin (a i l) /\ fin (b l j)) /\ Rabs (val (c i j) - rsum k (fun l => val (a i l) * val (b l j))) <= dotErr k (rsum k (fun l => Rabs (val (a i l) * val (b l j))))) /\
  ((forall l, (l < k)%nat -> fin (a i l) /\ fin (b l j)) -> dotMag k (rsum k (fun l => Rabs (val (a i l) * val (b l j)))) < max32 -> fin (c i j)).
Proof.
  intros n k m a b. exists (fun i j => fsum F k (fun l => b32_mul (a i l) (b l j))). split; [apply (mmul_gen F)|]. intros i j Hi Hj. split; [apply (dot_err k (fun l => a i l) (fun l => b l j))|apply (dot_small k (fun l => a i l) (fun l => b l j))].
Qed.
End Ops.
