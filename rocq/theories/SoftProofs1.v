(* SoftProofs1.v - Softmax in single precision *)
From Coq Require Import List Arith ZArith Reals Lra Lia Bool.
From Flocq Require Import Core IEEE754.BinarySingleNaN.
From Verif Require Import Base Scalar Mat SpecMat MatFacts MatProofs B32Int LayProofs7 SpecRound RoundProofs1 SpecNaN B32Kit NaNAct SpecSoft.
Import ListNotations.
Local Open Scope R_scope.

Lemma rnd_mono : forall a b, a <= b -> rnd32 a <= rnd32 b.
Proof. intros. apply round_le; auto. apply fexp_correct. reflexivity. apply valid_rnd_round_mode. Qed.
Lemma sub_fin : forall x y : b32, fin x -> fin y -> fin (b32_sub x y) -> val (b32_sub x y) = rnd32 (val x - val y).
Proof.
  intros x y A B H. unfold fin, val, b32_sub in *. pose proof (Bminus_correct 24 128 prec32_gt_0 prec32_lt mode_NE x y A B) as C. destruct (Rlt_bool _ _); [apply C|].
  exfalso. destruct C as [C _]. destruct (Bminus mode_NE x y); try discriminate H; destruct (Bsign x); discriminate C.
Qed.
Lemma div_fin : forall x y : b32, val y <> 0 -> fin (b32_div x y) -> val (b32_div x y) = rnd32 (val x / val y).
Proof.
  intros x y N H. unfold fin, val, b32_div in *. pose proof (Bdiv_correct 24 128 prec32_gt_0 prec32_lt mode_NE x y N) as C. destruct (Rlt_bool _ _); [apply C|].
  exfalso. destruct (Bdiv mode_NE x y); try discriminate H; destruct (xorb (Bsign x) (Bsign y)); discriminate C.
Qed.
Lemma minus_err : forall x y : b32, Rabs (rnd32 (val x - val y) - (val x - val y)) <= u32 * Rabs (val x - val y).
Proof. intros x y. pose proof (plus_err x (Bopp y)) as H. rewrite B2R_Bopp in H. exact H. Qed.

Lemma pow_le1 : forall a n, 0 <= a <= 1 -> a ^ n <= 1.
Proof. intros a n H. induction n as [|n IH]; [simpl; lra|]. cbn [pow]. assert (0 <= a ^ n) by (apply pow_le; lra). nra. Qed.
Section Soft.
Variables (lm : libm -> b32 -> b32) (pw : b32 -> b32 -> b32) (jk : b32).
Hypothesis E : expUnit lm.
Notation F := (B32Ops lm pw jk).
Variables (k : nat) (x : nat -> b32).
Hypotheses (Hk : (0 < k)%nat) (Hx : forall i, (i < k)%nat -> fin (x i)).
Local Opaque b32_add b32_sub b32_mul b32_div b32_sqrt b32_of_Z Bopp Babs.

(* the largest entry *)
Lemma maxF_spec : exists m, (m < k)%nat /\ maxF F k x = x m /\ forall i, (i < k)%nat -> val (x i) <= val (x m).
Proof.
  unfold maxF. assert (G : forall n, (n < k)%nat -> exists m, (m <= n)%nat /\ fold_left (fun d i => if flt F d (x i) then x i else d) (seq 1 n) (x 0%nat) = x m /\ forall i, (i <= n)%nat -> val (x i) <= val (x m)).
  { induction n as [|n IH]; intro Hn.
    - exists 0%nat. split; auto. split; auto. intros i Hi. replace i with 0%nat by lia. lra.
    - destruct IH as (m & A & B & C); [lia|]. rewrite seq_S, fold_left_app, B. cbn [fold_left]. change (flt F (x m) (x (1 + n)%nat)) with (b32_lt (x m) (x (S n))). destruct (b32_lt (x m) (x (S n))) eqn:L.
      + apply lt_val in L; [|apply Hx; lia|apply Hx; lia]. exists (S n). split; [lia|]. split; [reflexivity|]. intros i Hi. destruct (Nat.eq_dec i (S n)) as [->|]; [lra|]. pose proof (C i ltac:(lia)). lra.
      + exists m. split; [lia|]. split; [reflexivity|]. intros i Hi. destruct (Nat.eq_dec i (S n)) as [->|]; [|apply C; lia].
        apply nlt_val in L; [lra|apply Hx; lia|apply Hx; lia]. }
  destruct (G (k - 1)%nat ltac:(lia)) as (m & A & B & C). exists m. split; [lia|]. split; auto. intros i Hi. apply C. lia.
Qed.
Definition e (j : nat) : b32 := expF F k x j.
Lemma e_range : forall j, (j < k)%nat -> prob (e j).
Proof.
  intros j Hj. destruct maxF_spec as (m & A & B & C). unfold e, expF. rewrite B. cbn [flm fsub B32Ops]. pose proof (C j Hj). pose proof max_big. pose proof (val_in (x j)). pose proof (val_in (x m)).
  assert (D : btw (- p2 300) 0 (b32_sub (x j) (x m))).
  { pose proof huge_max. destruct fmt_huge. apply sub_btw; auto; try lra; try apply fmt_0. assert (p2 300 >= 2 * max32) by (unfold p2, max32; replace (bpow radix2 300) with (bpow radix2 128 * bpow radix2 172) by (rewrite <- bpow_plus; reflexivity); assert (bpow radix2 1 <= bpow radix2 172) by (apply bpow_le; lia); pose proof (bpow_gt_0 radix2 128); change (bpow radix2 1) with 2 in *; nra). lra. }
  destruct D as [D1 D2]. pose proof (eu_range _ E _ D1 ltac:(lra)) as R. apply btw_val in R; try lra. exact R.
Qed.
Lemma e_top : forall m, (m < k)%nat -> (forall i, (i < k)%nat -> val (x i) <= val (x m)) -> val (e m) = 1.
Proof.
  intros m Hm M. destruct maxF_spec as (m' & A & B & C). pose proof max_big. assert (V : val (x m) - val (x m') = 0) by (pose proof (C m Hm); pose proof (M m' A); lra).
  assert (D : btw 0 0 (b32_sub (x m) (x m'))) by (apply sub_btw; auto; try lra; try apply fmt_0). apply btw_val in D; try lra.
  pose proof (eu_zero _ E _ (proj1 D) ltac:(lra)) as R. apply btw_val in R; try lra. unfold e, expF. rewrite B. cbn [flm fsub B32Ops]. lra.
Qed.

(* sums of numbers in [0,1] *)
Lemma cap25 : rnd32 (p2 25 + 1) = p2 25.
Proof.
  assert (A : fin (b32_add (b32_of_Z (2 ^ 25)) one)) by closed. assert (A' : fin (b32_of_Z (2 ^ 25))) by closed. pose proof (add_fin _ _ A) as (_ & _ & Q). rewrite one_val in Q.
  assert (B : val (b32_of_Z (2 ^ 25)) = p2 25).
  { assert (Hf : fin (b32_mul (b32_of_Z (2 ^ 24)) (b32_of_Z 2))) by closed. rewrite (eq_val (b32_of_Z (2 ^ 25)) (b32_mul (b32_of_Z (2 ^ 24)) (b32_of_Z 2)) A' Hf ltac:(closed)).
    destruct (mul_fin _ _ Hf) as (_ & _ & ->). rewrite (proj2 (ofZ_val (2 ^ 24) ltac:(lia))), (proj2 (ofZ_val 2 ltac:(lia))). replace (IZR (2 ^ 24) * IZR 2) with (p2 25) by (unfold p2; simpl; lra). apply round_generic; [apply valid_rnd_round_mode|]. apply (fmt_p2 25). lia. }
  rewrite B in Q. rewrite <- Q, <- B. exact (eq_val _ _ A A' ltac:(closed)).
Qed.
Section Sum.
Variable q : nat -> b32.
Lemma sum_step : forall n, (forall i, (i < n)%nat -> prob (q i)) -> fin (fsum F n q) /\ 0 <= val (fsum F n q) <= p2 25.
Proof.
  assert (P : 2 < p2 25) by (unfold p2; simpl; lra). assert (P' : p2 25 < max32) by (apply bpow_lt; lia). assert (P'' : p2 26 < max32) by (apply bpow_lt; lia). assert (p2 26 = 2 * p2 25) by (unfold p2; simpl; lra). pose proof max_big.
  induction n as [|n IH]; intro H1. - split; [reflexivity|]. change (0 <= val z32 <= p2 25). rewrite z_val. lra.
  - destruct IH as [A B]; [intros; apply H1; lia|]. destruct (H1 n ltac:(lia)) as [C D]. rewrite fsum_S.
    assert (R : btw 0 (p2 26) (b32_add (fsum F n q) (q n))) by (apply add_btw; auto; try lra; [apply fmt_0 | apply fmt_p2; lia]).
    apply btw_val in R; try lra. destruct R as [R1 R2]. split; auto. split; [lra|]. destruct (add_fin _ _ R1) as (_ & _ & ->). rewrite <- cap25. apply rnd_mono. lra.
Qed.
Lemma sum_mono : forall n, (forall i, (i < S n)%nat -> prob (q i)) -> val (fsum F n q) <= val (fsum F (S n) q) /\ val (q n) <= val (fsum F (S n) q) /\
  Rabs (val (fsum F (S n) q) - (val (fsum F n q) + val (q n))) <= u32 * (val (fsum F n q) + val (q n)).
Proof.
  intros n H. destruct (sum_step n ltac:(intros; apply H; lia)) as [A B]. destruct (sum_step (S n) H) as [C D]. destruct (H n ltac:(lia)) as [G K].
  pose proof (plus_err (fsum F n q) (q n)) as R. rewrite fsum_S in *. destruct (add_fin _ _ C) as (_ & _ & V). change (B2R (fsum F n q)) with (val (fsum F n q)) in R. change (B2R (q n)) with (val (q n)) in R.
  rewrite V. rewrite (Rabs_pos_eq (_ + _)) in R by lra. split; [apply rnd_ge; [apply fmt_B | lra]|]. split; [apply rnd_ge; [apply fmt_B | lra] | exact R].
Qed.
Lemma sum_ge : forall n i, (forall i, (i < n)%nat -> prob (q i)) -> (i < n)%nat -> val (q i) <= val (fsum F n q).
Proof.
  induction n as [|n IH]; intros i H Hi; [lia|]. destruct (sum_mono n H) as (A & B & _). destruct (Nat.eq_dec i n) as [->|]; auto.
  eapply Rle_trans; [|exact A]. apply IH; [intros; apply H; lia | lia].
Qed.
Lemma sum_rel : forall n, (forall i, (i < n)%nat -> prob (q i)) ->
  (1 - u32) ^ n * rsum n (fun i => val (q i)) <= val (fsum F n q) <= (1 + u32) ^ n * rsum n (fun i => val (q i)).
Proof.
  pose proof u_pos. assert (U : u32 < 1) by (unfold u32; simpl; lra). induction n as [|n IH]; intro H1. - change (val (fsum F 0 q)) with (val z32). rewrite z_val. simpl. lra.
  - destruct (sum_mono n H1) as (_ & _ & M). specialize (IH ltac:(intros; apply H1; lia)). destruct (H1 n ltac:(lia)) as [_ Q]. pose proof (sum_step n ltac:(intros; apply H1; lia)) as [_ P].
    cbn [rsum pow]. set (s := val (fsum F n q)) in *. set (s' := val (fsum F (S n) q)) in *. set (a := val (q n)) in *. set (A := rsum n (fun i => val (q i))) in *. clearbody s s' a A.
    apply Rabs_le_inv in M. assert (L1 : (1 - u32) ^ n <= 1) by (apply pow_le1; lra). assert (L2 : 1 <= (1 + u32) ^ n) by (apply pow_R1_Rle; lra).
    set (c := (1 - u32) ^ n) in *. set (d := (1 + u32) ^ n) in *. clearbody c d. split; [apply Rle_trans with ((1 - u32) * (s + a)); [assert (c * (A + a) <= s + a) by nra; nra | nra] | apply Rle_trans with ((1 + u32) * (s + a)); [nra | assert (s + a <= d * (A + a)) by nra; nra]].
Qed.
End Sum.
Lemma S_ge1 : fin (fsum F k e) /\ 1 <= val (fsum F k e) <= p2 25.
Proof.
  destruct (sum_step e k e_range) as [A B]. split; auto. split; [|lra]. destruct maxF_spec as (m & Hm & _ & C). rewrite <- (e_top m Hm C). apply sum_ge; [exact e_range | exact Hm].
Qed.
Lemma p_prob : forall j, (j < k)%nat -> prob (softF F k x j).
Proof.
  intros j Hj. destruct (e_range j Hj) as [A B]. destruct S_ge1 as [C D]. pose proof max_big. apply btw_val; try lra. change (btw 0 1 (b32_div (e j) (fsum F k e))). apply div_btw; auto; try lra; [apply fmt_0 | apply (fmt_Z 1); lia |].
  set (s := val (fsum F k e)) in *. split. - apply Rmult_le_pos; [lra|]. left. apply Rinv_0_lt_compat. lra.
  - apply Rmult_le_reg_r with s; [lra|]. unfold Rdiv. rewrite Rmult_assoc, Rinv_l by lra. lra.
Qed.
Lemma p_val : forall j, (j < k)%nat -> val (softF F k x j) = rnd32 (val (e j) / val (fsum F k e)).
Proof. intros j Hj. pose proof (proj1 (p_prob j Hj)) as A. destruct S_ge1 as [C D]. apply div_fin; [lra | exact A]. Qed.
Lemma p_top : forall m j, (m < k)%nat -> (j < k)%nat -> (forall i, (i < k)%nat -> val (x i) <= val (x m)) -> val (softF F k x j) <= val (softF F k x m).
Proof.
  intros m j Hm Hj M. rewrite !p_val by auto. apply rnd_mono. rewrite (e_top m Hm M). destruct (e_range j Hj) as [_ B]. destruct S_ge1 as [_ D]. apply Rmult_le_compat_r; [|lra]. left. apply Rinv_0_lt_compat. lra.
Qed.

(** * how far from the exact softmax *)
Hypothesis Ku : 2 * INR k * u32 <= 1.
Lemma pow_lo : forall n, 1 - INR n * u32 <= (1 - u32) ^ n.
Proof.
  pose proof u_pos. assert (U : u32 < 1) by (unfold u32; simpl; lra). induction n as [|n IH]; [simpl; lra|]. rewrite S_INR. cbn [pow]. pose proof (pos_INR n).
  assert (0 <= (1 - u32) ^ n) by (apply pow_le; lra). assert ((1 - u32) ^ n <= 1) by (apply pow_le1; lra). nra.
Qed.
Lemma pow_hi : (1 + u32) ^ k <= 1 + 2 * INR k * u32.
Proof.
  pose proof u_pos. assert (U : u32 < 1) by (unfold u32; simpl; lra). pose proof (pow_lo k) as L. pose proof (pos_INR k). assert (P : (1 + u32) ^ k * (1 - u32) ^ k <= 1). { rewrite <- Rpow_mult_distr. apply pow_le1. nra. }
  assert (0 <= (1 + u32) ^ k) by (apply pow_le; lra). set (a := (1 + u32) ^ k) in *. set (b := (1 - u32) ^ k) in *. set (t := INR k * u32) in *. assert (t <= / 2) by (unfold t; lra). assert (0 <= t) by (unfold t; nra). replace (1 + 2 * INR k * u32) with (1 + 2 * t) by (unfold t; ring). clearbody a b t.
  assert (a * (1 - t) <= 1) by nra. nra.
Qed.
Notation A := (rsum k (fun i => val (e i))).
Lemma A_ge1 : 1 <= A.
Proof.
  destruct maxF_spec as (m & Hm & _ & C). rewrite <- (e_top m Hm C). assert (G : forall n, (n <= k)%nat -> forall i, (i < n)%nat -> val (e i) <= rsum n (fun i => val (e i))).
  { induction n as [|n IH]; intros Hn i Hi; [lia|]. cbn [rsum]. pose proof (proj2 (e_range n ltac:(lia))). assert (0 <= rsum n (fun i => val (e i))) by (apply rsum_pos; intros; apply (proj2 (e_range i0 ltac:(lia)))). destruct (Nat.eq_dec i n) as [->|]; [lra|]. pose proof (IH ltac:(lia) i ltac:(lia)). lra. }
  apply G; auto.
Qed.
Lemma S_err : Rabs (val (fsum F k e) - A) <= 2 * INR k * u32 * A /\ Rabs (A / val (fsum F k e) - 1) <= 2 * INR k * u32.
Proof.
  destruct (sum_rel e k e_range) as [L H]. pose proof (pow_lo k) as PL. pose proof pow_hi as PH. pose proof A_ge1 as A1. destruct S_ge1 as [_ S1]. pose proof u_pos. pose proof (pos_INR k).
  set (a := A) in *. set (s := val (fsum F k e)) in *. set (t := INR k * u32) in *. assert (t <= / 2) by (unfold t; lra). assert (0 <= t) by (unfold t; nra). replace (2 * INR k * u32) with (2 * t) in * by (unfold t; ring). clearbody a s t.
  assert (B : (1 - t) * a <= s <= (1 + 2 * t) * a) by nra. split; [apply Rabs_le; nra|]. assert (Q : s * (a / s) = a) by (field; lra). set (r := a / s) in *. clearbody r. apply Rabs_le. assert (0 < r) by nra. split; nra.
Qed.
Theorem sum_one : Rabs (rsum k (fun j => val (softF F k x j)) - 1) <= 2 * INR (k + 1) * u32 + INR k * eta32.
Proof.
  destruct S_err as [_ Q]. destruct S_ge1 as [_ S1]. pose proof u_pos. set (s := val (fsum F k e)) in *. pose proof A_ge1 as A1.
  assert (G : forall n, (n <= k)%nat -> Rabs (rsum n (fun j => val (softF F k x j)) - rsum n (fun i => val (e i)) / s) <= u32 * (rsum n (fun i => val (e i)) / s) + INR n * eta32).
  { induction n as [|n IH]; intro Hn. - cbn [rsum]. unfold Rdiv. rewrite Rmult_0_l, Rminus_0_r, Rabs_R0. simpl. lra.
    - specialize (IH ltac:(lia)). cbn [rsum]. rewrite S_INR. pose proof (round_err (val (e n) / s)) as R. pose proof (p_val n ltac:(lia)) as PV. change (val (fsum F k e)) with s in PV. rewrite <- PV in R. pose proof (proj2 (e_range n ltac:(lia))) as B.
      assert (0 <= val (e n) / s) by (apply Rmult_le_pos; [lra | left; apply Rinv_0_lt_compat; lra]). rewrite (Rabs_pos_eq (_ / _)) in R by auto. apply Rabs_le_inv in R. apply Rabs_le_inv in IH. unfold Rdiv in *. apply Rabs_le. lra. }
  specialize (G k ltac:(lia)). set (r := A / s) in *. apply Rabs_le_inv in G. apply Rabs_le_inv in Q. rewrite plus_INR. simpl (INR 1). assert (r <= 2) by lra. apply Rabs_le. nra.
Qed.
Variable eps : R.
Hypothesis C : expClose lm eps.
Definition d (m j : nat) : R := val (x j) - val (x m).
Lemma exp_diff : forall a b, a <= b -> exp b - exp a <= (b - a) * exp b.
Proof. intros a b H. pose proof (exp_ineq1_le (a - b)) as Q. replace (exp a) with (exp (a - b) * exp b) by (rewrite <- exp_plus; f_equal; ring). pose proof (Exp_prop.exp_pos b). nra. Qed.
Lemma exp_2z : forall z, 0 <= z -> 2 * z <= exp z.
Proof. intros z H. replace z with (z / 2 + z / 2) at 2 by field. rewrite exp_plus. pose proof (exp_ineq1_le (z / 2)) as Q. set (a := exp (z / 2)) in *. clearbody a. assert ((1 + z / 2) * (1 + z / 2) <= a * a) by (apply Rmult_le_compat; lra). pose proof (Rle_0_sqr (1 - z / 2)). unfold Rsqr in *. nra. Qed.
Lemma exp_small : forall t, 0 <= t -> t * exp (- ((1 - u32) * t)) <= 1.
Proof.
  intros t H. pose proof u_pos. assert (U : u32 < / 4) by (unfold u32; simpl; lra). pose proof (exp_2z ((1 - u32) * t) ltac:(nra)). rewrite exp_Ropp. pose proof (Exp_prop.exp_pos ((1 - u32) * t)).
  apply Rmult_le_reg_r with (exp ((1 - u32) * t)); auto. rewrite Rmult_assoc, Rinv_l by lra. nra.
Qed.
Lemma e_close : forall m j, (m < k)%nat -> (j < k)%nat -> (forall i, (i < k)%nat -> val (x i) <= val (x m)) -> maxF F k x = x m -> Rabs (val (e j) - exp (d m j)) <= eps + u32.
Proof.
  intros m j Hm Hj M B. unfold e, expF. rewrite B. cbn [flm fsub B32Ops]. pose proof (M j Hj) as L. unfold d. pose proof u_pos. pose proof max_big. assert (Eps : 0 <= eps). { pose proof (C z32 eq_refl ltac:(rewrite z_val; lra)). pose proof (Rabs_pos (val (lm Lexp z32) - exp (val z32))). lra. }
  destruct (Rle_lt_dec (- p2 24) (val (x j) - val (x m))) as [G|G].
  - assert (p2 24 < max32) by (apply bpow_lt; lia). assert (D : btw (- p2 24) 0 (b32_sub (x j) (x m))) by (apply sub_btw; auto; try lra; [apply fmt_opp, fmt_p2; lia | apply fmt_0]).
    apply btw_val in D; try lra. destruct D as [D1 D2]. pose proof (C _ D1 ltac:(lra)) as Q. pose proof (sub_fin _ _ (Hx j Hj) (Hx m Hm) D1) as V. pose proof (minus_err (x j) (x m)) as R. rewrite <- V in R.
    assert (R0 : val (x j) - val (x m) <= 0) by lra. set (y := val (b32_sub _ _)) in *. set (r := val (x j) - val (x m)) in *. set (ee := val (lm Lexp _)) in *. clearbody y r ee. clear V. rewrite (Rabs_left1 r) in R by lra. apply Rabs_le_inv in R. pose proof (exp_small (- r) ltac:(lra)) as S1. replace (- ((1 - u32) * - r)) with ((1 - u32) * r) in S1 by ring.
    assert (U : u32 < / 4) by (unfold u32; simpl; lra). assert (Y : y <= (1 - u32) * r) by lra. assert (Y' : r <= (1 - u32) * r) by nra. pose proof (Exp_prop.exp_pos ((1 - u32) * r)).
    assert (Z : Rabs (exp y - exp r) <= u32).
    { destruct (Rle_lt_dec y r) as [O|O].
      - pose proof (exp_diff y r O). assert (exp r <= exp ((1 - u32) * r)) by (destruct Y' as [Y'|<-]; [left; apply exp_increasing; auto | lra]). assert (exp y <= exp r) by (destruct O as [O| ->]; [left; apply exp_increasing; auto | lra]). apply Rabs_le. pose proof (Exp_prop.exp_pos r). nra.
      - pose proof (exp_diff r y ltac:(lra)). assert (exp y <= exp ((1 - u32) * r)) by (destruct Y as [Y| ->]; [left; apply exp_increasing; auto | lra]). assert (exp r <= exp y) by (left; apply exp_increasing; auto). apply Rabs_le. pose proof (Exp_prop.exp_pos y). nra. }
    apply Rabs_le_inv in Q. apply Rabs_le_inv in Z. apply Rabs_le. lra.
  - pose proof (e_range j Hj) as [_ RR]. unfold e, expF in RR. rewrite B in RR. cbn [flm fsub B32Ops] in RR.
    assert (T : exp (val (x j) - val (x m)) <= u32). { set (r := val (x j) - val (x m)) in *. replace r with (- - r) by ring. rewrite exp_Ropp. pose proof (exp_ineq1_le (- r)). assert (Eu : u32 = / p2 24) by (unfold u32, p2; rewrite <- bpow_opp; reflexivity). rewrite Eu. apply Rinv_le_contravar; [apply bpow_gt_0 | lra]. }
    pose proof (Exp_prop.exp_pos (val (x j) - val (x m))).
    assert (D : btw (- p2 300) (- p2 24) (b32_sub (x j) (x m))).
    { pose proof huge_max. destruct fmt_huge. pose proof (val_in (x j)). pose proof (val_in (x m)). apply sub_btw; auto; try lra; [apply fmt_opp, fmt_p2; lia | assert (p2 24 < max32) by (apply bpow_lt; lia); lra |].
      assert (p2 300 >= 2 * max32) by (unfold p2, max32; replace (bpow radix2 300) with (bpow radix2 128 * bpow radix2 172) by (rewrite <- bpow_plus; reflexivity); assert (bpow radix2 1 <= bpow radix2 172) by (apply bpow_le; lia); pose proof (bpow_gt_0 radix2 128); change (bpow radix2 1) with 2 in *; nra). lra. }
    destruct D as [D1 D2]. destruct (fin_cases _ D1) as [D3|[s D3]].
    + rewrite fin_ext in D2 by auto. pose proof (C _ D3 ltac:(pose proof (bpow_gt_0 radix2 24); unfold p2 in *; lra)) as Q. set (y := val (b32_sub _ _)) in *.
      assert (T' : exp y <= u32). { replace y with (- - y) by ring. rewrite exp_Ropp. pose proof (exp_ineq1_le (- y)). assert (Eu : u32 = / p2 24) by (unfold u32, p2; rewrite <- bpow_opp; reflexivity). rewrite Eu. apply Rinv_le_contravar; [apply bpow_gt_0 | lra]. }
      pose proof (Exp_prop.exp_pos y). apply Rabs_le_inv in Q. apply Rabs_le. lra.
    + rewrite D3 in *. assert (s = true) as -> by (destruct s; auto; cbn [ext inf32] in D2; pose proof (bpow_gt_0 radix2 24); unfold p2 in *; lra). pose proof (eu_inf _ E) as I. apply btw_val in I; try lra. apply Rabs_le. lra.
Qed.
Theorem soft_close : forall j, (j < k)%nat -> Rabs (val (softF F k x j) - softmaxR k (fun i => val (x i)) j) <= INR (2 * k + 1) * (eps + 2 * u32) + eta32.
Proof.
  intros j Hj. destruct maxF_spec as (m & Hm & B & M). pose proof u_pos. pose proof (pos_INR k) as PI. assert (Eps : 0 <= eps). { pose proof (C z32 eq_refl ltac:(rewrite z_val; lra)). pose proof (Rabs_pos (val (lm Lexp z32) - exp (val z32))). lra. }
  set (T := rsum k (fun i => exp (d m i))). assert (SM : softmaxR k (fun i => val (x i)) j = exp (d m j) / T).
  { unfold softmaxR, T. assert (G : forall n, rsum n (fun i => exp (val (x i))) = exp (val (x m)) * rsum n (fun i => exp (d m i))). { induction n as [|n IH]; [simpl; ring|]. cbn [rsum]. rewrite IH. unfold d at 3. replace (exp (val (x n))) with (exp (val (x m)) * exp (val (x n) - val (x m))) by (rewrite <- exp_plus; f_equal; ring). ring. }
    rewrite G. replace (exp (val (x j))) with (exp (val (x m)) * exp (d m j)) by (rewrite <- exp_plus; f_equal; unfold d; ring). assert (0 < rsum k (fun i => exp (d m i))). { destruct k as [|n]; [lia|]. cbn [rsum]. pose proof (Exp_prop.exp_pos (d m n)). assert (0 <= rsum n (fun i => exp (d m i))) by (apply rsum_pos; intros; left; apply Exp_prop.exp_pos). lra. } pose proof (Exp_prop.exp_pos (val (x m))). field. split; lra. }
  assert (T1 : 1 <= T). { unfold T. assert (G : forall n i, (i < n)%nat -> exp (d m i) <= rsum n (fun i => exp (d m i))). { induction n as [|n IH]; intros i Hi; [lia|]. cbn [rsum]. pose proof (Exp_prop.exp_pos (d m n)). assert (0 <= rsum n (fun i => exp (d m i))) by (apply rsum_pos; intros; left; apply Exp_prop.exp_pos). destruct (Nat.eq_dec i n) as [->|]; [lra|]. pose proof (IH i ltac:(lia)). lra. }
    pose proof (G k m Hm) as Q. replace (exp (d m m)) with 1 in Q by (unfold d; rewrite Rminus_diag_eq by auto; symmetry; apply exp_0). exact Q. }
  assert (AT : Rabs (A - T) <= INR k * (eps + u32)).
  { unfold T. rewrite rsum_minus. eapply Rle_trans; [apply rsum_abs|]. assert (G : forall n, (n <= k)%nat -> rsum n (fun i => Rabs (val (e i) - exp (d m i))) <= INR n * (eps + u32)). { induction n as [|n IH]; intro Hn; [simpl; lra|]. cbn [rsum]. rewrite S_INR. pose proof (IH ltac:(lia)). pose proof (e_close m n Hm ltac:(lia) M B). lra. } apply G. auto. }
  destruct S_err as [SE _]. destruct S_ge1 as [_ S1]. pose proof (e_close m j Hm Hj M B) as EC. pose proof (round_err (val (e j) / val (fsum F k e))) as R. rewrite <- (p_val j Hj) in R. rewrite SM.
  pose proof (proj2 (e_range j Hj)) as ER. set (a := A) in *. set (s := val (fsum F k e)) in *. set (ej := val (e j)) in *. set (dj := exp (d m j)) in *. set (p := val (softF F k x j)) in *. clearbody a s ej p.
  assert (Q1 : 0 <= ej / s <= 1). { split; [apply Rmult_le_pos; [lra | left; apply Rinv_0_lt_compat; lra]|]. apply Rmult_le_reg_r with s; [lra|]. unfold Rdiv. rewrite Rmult_assoc, Rinv_l by lra. lra. }
  rewrite (Rabs_pos_eq (ej / s)) in R by lra. assert (Q2 : ej / s - dj / T = (ej - dj) * / T + ej / s * ((T - s) * / T)) by (field; lra).
  assert (IT : 0 < / T <= 1) by (split; [apply Rinv_0_lt_compat; lra | rewrite <- Rinv_1; apply Rinv_le_contravar; lra]). set (t := INR k * u32) in *. replace (2 * INR k * u32) with (2 * t) in SE, Ku by (unfold t; ring). assert (0 <= t) by (unfold t; nra).
  set (dl := eps + u32) in *. assert (0 <= dl) by (unfold dl; lra). apply Rabs_le_inv in AT. apply Rabs_le_inv in SE. apply Rabs_le_inv in EC. apply Rabs_le_inv in R.
  set (kd := INR k * dl) in *. assert (0 <= kd) by (unfold kd; nra). assert (TS : Rabs (T - s) <= (2 * kd + 2 * t) * T). { apply Rabs_le. split; nra. }
  assert (W : Rabs ((T - s) * / T) <= 2 * kd + 2 * t). { rewrite Rabs_mult, (Rabs_pos_eq (/ T)) by lra. apply Rmult_le_reg_r with T; [lra|]. rewrite Rmult_assoc, Rinv_l by lra. lra. }
  assert (V1 : Rabs ((ej - dj) * / T) <= dl). { rewrite Rabs_mult, (Rabs_pos_eq (/ T)) by lra. assert (Rabs (ej - dj) <= dl) by (apply Rabs_le; lra). pose proof (Rabs_pos (ej - dj)). nra. }
  assert (V2 : Rabs (ej / s * ((T - s) * / T)) <= 2 * kd + 2 * t). { rewrite Rabs_mult, (Rabs_pos_eq (ej / s)) by lra. pose proof (Rabs_pos ((T - s) * / T)). nra. }
  apply Rabs_le_inv in V1. apply Rabs_le_inv in V2. rewrite plus_INR, mult_INR. simpl (INR 2). simpl (INR 1). replace (((1 + 1) * INR k + 1) * (eps + 2 * u32)) with (2 * kd + 2 * t + dl + u32) by (unfold kd, t, dl; ring).
  pose proof eta_pos. apply Rabs_le. nra.
Qed.
End Soft.
